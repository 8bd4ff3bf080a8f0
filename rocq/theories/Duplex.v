(** * A client and a server joined by two byte pipes of bounded size.

    Elsewhere a read or a write is a future that is given; here nothing is given: the two ends run against each other, and
    what one end can read or write at a moment depends on what the other has done.  The client makes calls on one
    connection, one after the other, as [CallInner::poll] does (src/client.rs:82-130); the server is
    [HandleHttpRequest::poll_impl] (src/server.rs:180-270).  A pipe holds at most so many bytes (TCP's buffers and what is
    on the way): a write takes as many as there is room for, a read as many as there are, and either may take fewer.
    Simplifications: a handler is asked afresh whenever more bytes have come, and what it says is [reply_to] of what has come
    so far, which C30 proves to be what the code's futures come to; neither end closes the connection. *)
From Verif Require Import Base Utf8 Decimal DepUrl Serde Procedure SerHeader SerRequest SerResponse DeHeader DeRequest DeResponse Status Router RouterSpec DepHttp
  Error Client ClientSpec Server ServerSpec SessionSpec HttpBytes HttpBytesSpec.
Open Scope N_scope.

(** Where the client is: writing a request, reading the head of a response, reading its body, done, or failed.
    src/client.rs:84-130. *)
Inductive cstage :=
| CWrites (rest held : bytes)
| CHeads (held : bytes)
| CBodies (code : N) (hs : list rheader) (n : option nat) (held : bytes)
| CIdle
| CStops.
(** Where the server is: reading the head of a request, reading more for its handler, waiting for the handler to have done its
    work, writing a response, or at an end. src/server.rs:182-268. *)
Inductive sstage :=
| SHeads (held : bytes)
| SBodies (m : method) (t : ustr) (hs : list rheader) (n : option nat) (held : bytes)
| SThinks (out held : bytes)
| SWrites (rest held : bytes)
| SStops.
(** Both, with the bytes on the way up and down, the calls to make, the first being under way, and the answers got.
    src/client.rs:66-75, src/server.rs:168-178. *)
Record duplex := mkDuplex { d_calls : list errand; d_client : cstage; d_got : list SessionSpec.answer; d_server : sstage; d_up : bytes; d_down : bytes }.

Section Duplex.
Context `{floatlib} `{urlenv} {R : Type}.
Variable explain : request bconn -> ekind -> ustr * option ustr * option (list ustr).
Variable reason : status -> ustr.
Variables (trims : bool) (uri_byte : N -> bool) (cl sl : limits) (ps : list (hproc bconn R)).
(** How many bytes each pipe holds. For src/client.rs:96 and src/server.rs:263. *)
Variables (cap_up cap_down : nat).

(** ** The client *)
(** The next call is begun on what is left of the connection. Models src/client.rs:86-98. *)
Definition begins (es : list errand) (held : bytes) : cstage :=
  match es with
  | [] => CIdle
  | e :: _ =>
      match encode_request (pr_entry (e_proc e)) (e_value e) (N.of_nat (length (e_body e))) with
      | Ok r => CWrites (request_head (pr_method (e_proc e)) r ++ e_body e) held
      | _ => CStops
      end
  end.
(** A response and its body have come. Models src/client.rs:118-127. *)
Definition received_all (s : duplex) (code : N) (hs : list rheader) (b held : bytes) : duplex :=
  match d_calls s with
  | e :: es =>
      match de_response code hs (pr_resp (e_proc e)) with
      | Ok v => mkDuplex es (begins es held) (d_got s ++ [(v, b)]) (d_server s) (d_up s) (d_down s)
      | _ => mkDuplex (e :: es) CStops (d_got s) (d_server s) (d_up s) (d_down s)
      end
  | [] => s
  end.
(** The client's stage replaced. For src/client.rs:129. *)
Definition with_client (s : duplex) (c : cstage) : duplex := mkDuplex (d_calls s) c (d_got s) (d_server s) (d_up s) (d_down s).
(** More of a body is held. Models src/client.rs:109-111. *)
Definition client_body (s : duplex) (code : N) (hs : list rheader) (n : option nat) (held : bytes) : duplex :=
  match n with
  | Some k => if (k <=? length held)%nat then received_all s code hs (firstn k held) (skipn k held) else with_client s (CBodies code hs n held)
  | None => with_client s (CBodies code hs n held)
  end.
(** More of a head is held. Models src/client.rs:99-113. *)
Definition client_head (s : duplex) (held : bytes) : duplex :=
  match run (pstep trims (most_headers cl)) (PVersion (u "HTTP/1.1 ")) held with
  | PMore => with_client s (if (most_bytes cl <=? length held)%nat then CStops else CHeads held)
  | PBad => with_client s CStops
  | PDone (code, hs) rest =>
      match d_calls s with
      | e :: _ => if method_eqb (pr_method (e_proc e)) MHead then received_all s code hs [] rest else client_body s code hs (body_length hs) rest
      | [] => s
      end
  end.
(** One turn of the client, in which at most [k] bytes go through. Models src/client.rs:83-130. *)
Definition client_turn (k : nat) (s : duplex) : duplex :=
  match d_client s with
  | CWrites rest held =>
      let j := Nat.min k (cap_up - length (d_up s)) in
      let s' := mkDuplex (d_calls s) (d_client s) (d_got s) (d_server s) (d_up s ++ firstn j rest) (d_down s) in
      match skipn j rest with
      | [] => client_head s' held
      | rest' => with_client s' (CWrites rest' held)
      end
  | CHeads held =>
      let j := Nat.min k (most_bytes cl - length held) in
      client_head (mkDuplex (d_calls s) (d_client s) (d_got s) (d_server s) (d_up s) (skipn j (d_down s))) (held ++ firstn j (d_down s))
  | CBodies code hs n held =>
      client_body (mkDuplex (d_calls s) (d_client s) (d_got s) (d_server s) (d_up s) (skipn k (d_down s))) code hs n (held ++ firstn k (d_down s))
  | CIdle | CStops => s
  end.

(** ** The server *)
(** The server's stage replaced. For src/server.rs:266. *)
Definition with_server (s : duplex) (x : sstage) : duplex := mkDuplex (d_calls s) (d_client s) (d_got s) x (d_up s) (d_down s).
(** A request has come and so much of what follows its head: either that is enough for an answer, and what is not read of it
    stays, or more is waited for. Models src/server.rs:199-252, by [reply_to]. *)
Definition handles (m : method) (t : ustr) (hs : list rheader) (n : option nat) (held : bytes) : sstage :=
  match reply_to explain reason (byte_link trims uri_byte sl) ps (mkRequest m t hs (mkBconn held [] false n)) with
  | Sends c h b => SThinks (replying_bytes reason (h, match m with MHead => None | _ => Some b end)) (stream c)
  | Hesitates => SBodies m t hs n held
  | Refuses _ | Crashes => SStops
  end.
(** More of a head is held. Models src/server.rs:184-206. *)
Definition server_head (s : duplex) (held : bytes) : duplex :=
  match run (qstep trims uri_byte (most_headers sl)) QStart held with
  | PMore => with_server s (if (most_bytes sl <=? length held)%nat then SStops else SHeads held)
  | PBad => with_server s SStops
  | PDone (m, t, hs) rest => with_server s (handles m t hs (body_length hs) rest)
  end.
(** One turn of the server, in which at most [k] bytes go through. Models src/server.rs:181-268. *)
Definition server_turn (k : nat) (s : duplex) : duplex :=
  match d_server s with
  | SHeads held =>
      let j := Nat.min k (most_bytes sl - length held) in
      server_head (mkDuplex (d_calls s) (d_client s) (d_got s) (d_server s) (skipn j (d_up s)) (d_down s)) (held ++ firstn j (d_up s))
  | SBodies m t hs n held =>
      with_server (mkDuplex (d_calls s) (d_client s) (d_got s) (d_server s) (skipn k (d_up s)) (d_down s)) (handles m t hs n (held ++ firstn k (d_up s)))
  | SWrites rest held =>
      let j := Nat.min k (cap_down - length (d_down s)) in
      let s' := mkDuplex (d_calls s) (d_client s) (d_got s) (d_server s) (d_up s) (d_down s ++ firstn j rest) in
      match skipn j rest with
      | [] => server_head s' held
      | rest' => with_server s' (SWrites rest' held)
      end
  | SThinks _ _ | SStops => s
  end.
(** The handler is ready. Models src/server.rs:253-265. *)
Definition handler_turn (s : duplex) : duplex := match d_server s with SThinks out held => with_server s (SWrites out held) | _ => s end.

(** ** Both, in any order. For src/client.rs:82 and src/server.rs:180. *)
Inductive dlabel := LClient (k : nat) | LServer (k : nat) | LHandler.
(** For src/client.rs:82 and src/server.rs:180. *)
Definition dstep (l : dlabel) (s : duplex) : duplex :=
  match l with LClient k => client_turn k s | LServer k => server_turn k s | LHandler => handler_turn s end.
(** For src/client.rs:82 and src/server.rs:180. *)
Fixpoint drun (ls : list dlabel) (s : duplex) : duplex := match ls with [] => s | l :: ls => drun ls (dstep l s) end.
(** A new connection. Models src/client.rs:66-75, src/server.rs:151-163. *)
Definition duplex_new (es : list errand) : duplex := mkDuplex es (begins es []) [] (SHeads []) [] [].
End Duplex.
