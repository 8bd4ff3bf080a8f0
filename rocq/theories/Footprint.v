(** * What the server's end of a connection keeps of the bytes that come.

    Elsewhere what a reading future has read so far is out of sight.  Here it is seen: the bytes that the peer has sent and
    the server has not read (they are TCP's), and the bytes that it has read and is not done with (they are the server's).
    A turn of the server reads once, at most so many bytes: of a head no more than there is room for
    (src/server.rs:151,185), of a body no more than is missing, without a length whatever is there (src/server.rs:64-66,
    213-217,232-236).
    Simplifications, as in Duplex.v: a handler is asked afresh whenever more bytes have come, and what it says is [reply_to]
    of what has come so far, which C30 proves to be what the code's futures come to; a response is written at once; the peer
    does not close the connection. *)
From Verif Require Import Base Utf8 Decimal DepUrl Serde Procedure SerHeader SerRequest SerResponse DeHeader DeRequest DeResponse Status Router RouterSpec DepHttp
  Error Client ClientSpec Server ServerSpec SessionSpec HttpBytes.
Open Scope nat_scope.

(** Reading the head of a request; reading more for its handler or, if it is refused, the body to the end; at an end.  Each
    with what has been read. src/server.rs:168-178. *)
Inductive fstage :=
| FHead (held : bytes)
| FBody (m : method) (t : ustr) (hs : list rheader) (n : option nat) (held : bytes)
| FStop.
(** With the bytes that have come and are not read, and the responses written. src/server.rs:168-178. *)
Record foot := mkFoot { f_stage : fstage; f_queue : bytes; f_sent : list (respb * option bytes) }.

Section Footprint.
Context `{floatlib} `{urlenv} {R : Type}.
Variable explain : request bconn -> ekind -> ustr * option ustr * option (list ustr).
Variable reason : status -> ustr.
Variables (trims : bool) (uri_byte : N -> bool) (sl : limits) (ps : list (hproc bconn R)).

(** A request has come and so much of what follows its head: either that is enough for a response, and what is not used of it
    stays, or more is waited for. Models src/server.rs:199-252, by [reply_to]. *)
Definition f_handles (m : method) (t : ustr) (hs : list rheader) (n : option nat) (held queue : bytes) (sent : list (respb * option bytes)) : foot :=
  match reply_to explain reason (byte_link trims uri_byte sl) ps (mkRequest m t hs (mkBconn [] [held] false n)) with
  | Sends c h b => mkFoot (FHead (stream c)) queue (sent ++ [(h, match m with MHead => None | _ => Some b end)])
  | Hesitates => mkFoot (FBody m t hs n held) queue sent
  | Refuses _ | Crashes => mkFoot FStop queue sent
  end.
(** More of a head has been read. Models src/server.rs:184-206. *)
Definition f_heads (held queue : bytes) (sent : list (respb * option bytes)) : foot :=
  match run (qstep trims uri_byte (most_headers sl)) QStart held with
  | PMore => mkFoot (if most_bytes sl <=? length held then FStop else FHead held) queue sent
  | PBad => mkFoot FStop queue sent
  | PDone (m, t, hs) rest => f_handles m t hs (body_length hs) rest queue sent
  end.
(** One turn of the server, in which at most [k] bytes are read. Models src/server.rs:181-268. *)
Definition fturn (k : nat) (s : foot) : foot :=
  match f_stage s with
  | FHead held =>
      let j := Nat.min k (most_bytes sl - length held) in
      f_heads (held ++ firstn j (f_queue s)) (skipn j (f_queue s)) (f_sent s)
  | FBody m t hs n held =>
      let j := match n with Some n => Nat.min k (n - length held) | None => k end in
      f_handles m t hs n (held ++ firstn j (f_queue s)) (skipn j (f_queue s)) (f_sent s)
  | FStop => s
  end.
(** The peer sends bytes, or the server has its turn. For src/server.rs:180. *)
Inductive flabel := FArrive (s : bytes) | FTurn (k : nat).
(** For src/server.rs:180. *)
Definition fstep (l : flabel) (s : foot) : foot :=
  match l with FArrive p => mkFoot (f_stage s) (f_queue s ++ p) (f_sent s) | FTurn k => fturn k s end.
(** For src/server.rs:180. *)
Fixpoint frun (ls : list flabel) (s : foot) : foot := match ls with [] => s | l :: ls => frun ls (fstep l s) end.
(** A new connection. Models src/server.rs:151-163. *)
Definition foot_new : foot := mkFoot (FHead []) [] [].
End Footprint.
