(** * HTTP/1.1 messages as bytes, and connections that carry bytes in pieces.

    Dependency (miasht and httparse over TCP; Cargo.toml:16), not htrpc code: what stands between
    [Connection::new(stream, 1024, 8096, 32)], [read_request], [into_body_reader], [read_all_bytes], [write_all_bytes]
    (src/server.rs:64-67,151,185,254-264; src/client.rs:96-111) and the bytes that TCP carries.  Elsewhere this is an
    environment about which laws are assumed; here it is spelled out, so that nothing but "bytes arrive, in order, cut
    into pieces anyhow and at any time" is assumed of the network.
    Simplifications: HTTP/1.1 only; bodies are framed by Content-Length (what htrpc always writes) or by the end of the
    stream, chunked bodies are left out. *)
From Verif Require Import Base Utf8 Decimal DepUrl Serde SerHeader SerRequest SerResponse DeHeader DepHttp Status Router Error Client Server.
Open Scope N_scope.

(** ** Parsers that take one byte at a time *)
(** What one byte does to a parser: it goes on, it is done, or the input is refused. For src/server.rs:185. *)
Inductive step (S A : Type) := On (s : S) | Over (x : A) | Wrong.
Arguments On {S A} s. Arguments Over {S A} x. Arguments Wrong {S A}.
(** httparse's [Status::Partial], its errors, and [Status::Complete] with the bytes that follow. For src/server.rs:185 and src/client.rs:101. *)
Inductive parsed (A : Type) := PMore | PBad | PDone (x : A) (rest : bytes).
Arguments PMore {A}. Arguments PBad {A}. Arguments PDone {A} x rest.
(** A parser fed with a buffer. For src/server.rs:185 and src/client.rs:101. *)
Fixpoint run {S A} (f : S -> N -> step S A) (s : S) (l : bytes) : parsed A :=
  match l with
  | [] => PMore
  | c :: l => match f s c with On s => run f s l | Over x => PDone x l | Wrong => PBad end
  end.

(** ** Header lines *)
(** Where in the header lines the parser is. For src/deserializers/http_header.rs:37-43. *)
Inductive hstate :=
| HStart (hs : list rheader)
| HName (hs : list rheader) (name : bytes)
| HLead (hs : list rheader) (name : bytes)
| HValue (hs : list rheader) (name value : bytes)
| HLf (hs : list rheader)
| HEnd (hs : list rheader).

(** Drops blanks at the end. For src/deserializers/http_header.rs:37-43. *)
Fixpoint chop (v : bytes) : bytes :=
  match v with
  | [] => []
  | c :: v => match chop v with [] => if blank c then [] else [c] | v => c :: v end
  end.

Section Bytes.
(** Whether httparse drops blanks after a header's value (versions differ), and the characters it takes in a target.  Both
    are left open. For src/server.rs:185. *)
Variables (trims : bool) (uri_byte : N -> bool).

(** For src/deserializers/http_header.rs:37-43. *)
Definition finished (v : bytes) : bytes := if trims then chop v else v.
(** A byte of a value, or the end of its line. For src/deserializers/http_header.rs:37-43. *)
Definition value_step (hs : list rheader) (n v : bytes) (c : N) : step hstate (list rheader) :=
  if c =? 13 then On (HLf (hs ++ [(n, finished v)]))
  else if c =? 10 then On (HStart (hs ++ [(n, finished v)]))
  else if value_byte c then On (HValue hs n (v ++ [c])) else Wrong.
(** httparse's header parser; at most [most] headers, the 32 of src/server.rs:151. For src/deserializers/http_header.rs:37-43. *)
Definition hstep (most : nat) (s : hstate) (c : N) : step hstate (list rheader) :=
  match s with
  | HStart hs =>
      if c =? 13 then On (HEnd hs) else if c =? 10 then Over hs
      else if token_char c && negb (most <=? length hs)%nat then On (HName hs [c]) else Wrong
  | HName hs n => if c =? 58 then On (HLead hs n) else if token_char c then On (HName hs (n ++ [c])) else Wrong
  | HLead hs n => if blank c then On (HLead hs n) else value_step hs n [] c
  | HValue hs n v => value_step hs n v c
  | HLf hs => if c =? 10 then On (HStart hs) else Wrong
  | HEnd hs => if c =? 10 then Over hs else Wrong
  end.

(** ** Requests *)
(** miasht's [Method], src/server.rs:9. *)
Definition method_text (m : method) : bytes :=
  match m with
  | MOptions => u "OPTIONS" | MGet => u "GET" | MHead => u "HEAD" | MPost => u "POST" | MPut => u "PUT"
  | MDelete => u "DELETE" | MTrace => u "TRACE" | MConnect => u "CONNECT" | MPatch => u "PATCH"
  end.
(** miasht's [Method::from_str], for src/server.rs:209. *)
Definition method_of (s : bytes) : option method :=
  find (fun m => ustr_eqb (method_text m) s) [MOptions; MGet; MHead; MPost; MPut; MDelete; MTrace; MConnect; MPatch].

(** What a request's head says. src/server.rs:202-211. *)
Definition qhead : Type := method * ustr * list rheader.
(** Where in a request the parser is. For src/server.rs:185. *)
Inductive qstate :=
| QStart
| QMethod (m : bytes)
| QTarget (m : method) (t : bytes)
| QVersion (m : method) (t : bytes) (left : bytes)
| QLf (m : method) (t : bytes)
| QHeaders (m : method) (t : bytes) (s : hstate).
(** httparse's request parser; empty lines before the request are skipped. For src/server.rs:185. *)
Definition qstep (most : nat) (s : qstate) (c : N) : step qstate qhead :=
  match s with
  | QStart => if (c =? 13) || (c =? 10) then On QStart else if token_char c then On (QMethod [c]) else Wrong
  | QMethod m =>
      if c =? 32 then match method_of m with Some m => On (QTarget m []) | None => Wrong end
      else if token_char c then On (QMethod (m ++ [c])) else Wrong
  | QTarget m t =>
      if c =? 32 then match t with [] => Wrong | _ => On (QVersion m t (u "HTTP/1.1")) end
      else if uri_byte c then On (QTarget m (t ++ [c])) else Wrong
  | QVersion m t (x :: l) => if c =? x then On (QVersion m t l) else Wrong
  | QVersion m t [] => if c =? 13 then On (QLf m t) else if c =? 10 then On (QHeaders m t (HStart [])) else Wrong
  | QLf m t => if c =? 10 then On (QHeaders m t (HStart [])) else Wrong
  | QHeaders m t s => match hstep most s c with On s => On (QHeaders m t s) | Over hs => Over (m, t, hs) | Wrong => Wrong end
  end.

(** ** Responses *)
(** What a response's head says. src/client.rs:101-120. *)
Definition phead : Type := N * list rheader.
(** Where in a response the parser is. For src/client.rs:101. *)
Inductive pstate :=
| PVersion (left : bytes)
| PCode (ds : bytes)
| PReason (code : N)
| PLf (code : N)
| PHeaders (code : N) (s : hstate).
(** The end of a status line, for src/client.rs:101. *)
Definition after_code (n : N) (c : N) : step pstate phead :=
  if c =? 13 then On (PLf n) else if c =? 10 then On (PHeaders n (HStart [])) else Wrong.
(** httparse's response parser. For src/client.rs:101. *)
Definition pstep (most : nat) (s : pstate) (c : N) : step pstate phead :=
  match s with
  | PVersion (x :: l) => if c =? x then On (PVersion l) else Wrong
  | PVersion [] => if is_digit c then On (PCode [c]) else Wrong
  | PCode ds =>
      if (length ds <? 3)%nat then if is_digit c then On (PCode (ds ++ [c])) else Wrong
      else match digits_val ds with Some n => if c =? 32 then On (PReason n) else after_code n c | None => Wrong end
  | PReason n => if value_byte c then On (PReason n) else after_code n c
  | PLf n => if c =? 10 then On (PHeaders n (HStart [])) else Wrong
  | PHeaders n s => match hstep most s c with On s => On (PHeaders n s) | Over hs => Over (n, hs) | Wrong => Wrong end
  end.

(** ** What is written *)
(** miasht's writers, src/client.rs:96 and src/server.rs:254-264. *)
Definition crlf : bytes := [13; 10].
(** src/serializers/http_header.rs:28. *)
Definition header_lines (hs : list header) : bytes := flat_map (fun h => fst h ++ u ": " ++ snd h ++ crlf) hs.
(** src/client.rs:94-96. *)
Definition request_head (m : method) (r : reqb) : bytes :=
  method_text m ++ u " " ++ rb_target r ++ u " HTTP/1.1" ++ crlf ++ header_lines (rb_headers r) ++ crlf.
(** src/server.rs:254-264. *)
Definition response_head (reason : status -> ustr) (h : respb) : bytes :=
  u "HTTP/1.1 " ++ show_N (code_of (pb_status h)) ++ u " " ++ reason (pb_status h) ++ crlf ++ header_lines (pb_headers h) ++ crlf.

(** ** Connections *)
(** Bytes read and not used yet; the pieces in which the rest comes, one a poll (an empty one is a poll at which nothing
    has come yet); whether the peer closes after them; how long the body of the message last read is, if it says so.
    For src/server.rs:151. *)
Record bconn := mkBconn { b_held : bytes; b_coming : list bytes; b_closed : bool; b_left : option nat }.
(** Everything that can still be read. For src/server.rs:151. *)
Definition stream (c : bconn) : bytes := b_held c ++ concat (b_coming c).

(** Limits on the head of a message: bytes, headers. src/server.rs:151. *)
Record limits := mkLimits { most_bytes : nat; most_headers : nat }.

(** src/server.rs:151. *)
Definition server_limits : limits := mkLimits (N.to_nat 8096) 32.

(** What reading a head comes to. src/server.rs:185-195 and src/client.rs:101. *)
Inductive came (A : Type) := Came (x : A) (held : bytes) (coming : list bytes) | Eof | Garbled.
Arguments Came {A} x held coming. Arguments Eof {A}. Arguments Garbled {A}.
(** miasht's reading of a head: what is held is parsed again whenever a piece has come; a piece is read only as far as
    there is room; a full buffer without a whole head is an error. For src/server.rs:151,185 and src/client.rs:101. *)
Fixpoint read_head {A} (parse : bytes -> parsed A) (room : nat) (closed : bool) (held : bytes) (coming : list bytes) : fut (came A) :=
  match parse held with
  | PDone x rest => Ready (Came x rest coming)
  | PBad => Ready Garbled
  | PMore =>
      if (room <=? length held)%nat then Ready Garbled
      else
        match coming with
        | [] => if closed then Ready Eof else Never
        | p :: coming =>
            let free := (room - length held)%nat in
            if (length p <=? free)%nat then Later (read_head parse room closed (held ++ p) coming)
            else Later (Ready (match parse (held ++ firstn free p) with
                               | PDone x rest => Came x rest (skipn free p :: coming)
                               | _ => Garbled end))
        end
  end.

(** Content-Length, in whatever case it is written. For src/lib.rs:25-32. *)
Definition is_length (h : rheader) : bool := ustr_eqb (lowercase (fst h)) (u "content-length").
(** For src/lib.rs:25-32.  Simplification: several such headers are treated like none. *)
Definition body_length (hs : list rheader) : option nat :=
  match filter is_length hs with
  | [(_, v)] => option_map N.to_nat (digits_val v)
  | _ => None
  end.

(** [read_all_bytes] of a body of known length: what is held first, then no more of the stream than is missing.
    src/server.rs:66, src/client.rs:110. *)
Fixpoint read_length (n : nat) (closed : bool) (held : bytes) (coming : list bytes) : fut (bytes * bconn) :=
  if (n <=? length held)%nat then Ready (firstn n held, mkBconn (skipn n held) coming closed (Some 0%nat))
  else match coming with
       | [] => if closed then Failed FromMiasht else Never
       | p :: coming =>
           let missing := (n - length held)%nat in
           if (length p <=? missing)%nat then Later (read_length n closed (held ++ p) coming)
           else Later (Ready (held ++ firstn missing p, mkBconn [] (skipn missing p :: coming) closed (Some 0%nat)))
       end.
(** [read_all_bytes] of a body that ends with the stream. src/server.rs:66, src/client.rs:110. *)
Fixpoint read_rest (closed : bool) (held : bytes) (coming : list bytes) : fut (bytes * bconn) :=
  match coming with
  | [] => if closed then Ready (held, mkBconn [] [] closed (Some 0%nat)) else Never
  | p :: coming => Later (read_rest closed (held ++ p) coming)
  end.
(** [into_body_reader] and [read_all_bytes]. src/server.rs:64-66, src/client.rs:109-110. *)
Definition read_body (c : bconn) : fut (bytes * bconn) :=
  match b_left c with
  | Some n => read_length n (b_closed c) (b_held c) (b_coming c)
  | None => read_rest (b_closed c) (b_held c) (b_coming c)
  end.

(** What a handler may ask of a body: how many bytes of it are still to be read, if that is known. src/lib.rs:27-33. *)
Definition content_length (c : bconn) : option N := option_map N.of_nat (b_left c).

(** [read_request]. src/server.rs:185. *)
Definition byte_read (l : limits) (c : bconn) : fut (arrival bconn) :=
  fbind (read_head (run (qstep (most_headers l)) QStart) (most_bytes l) (b_closed c) (b_held c) (b_coming c)) (fun x => Ready
    match x with
    | Came (m, t, hs) held coming => Got (mkRequest m t hs (mkBconn held coming (b_closed c) (body_length hs)))
    | Eof => IoError UnexpectedEof
    | Garbled => HttpError
    end).
(** The server's end of a connection: src/server.rs:64-67,185,255,263.  Writing takes a moment and leaves what comes in alone. *)
Definition byte_link (l : limits) : link bconn := {|
  l_read := byte_read l;
  l_drain := fun q => fbind (read_body (q_conn q)) (fun '(_, c) => Ready (mkRequest (q_method q) (q_target q) (q_headers q) c));
  l_write := fun _ _ c => Later (Ready c)
|}.
(** [read_response]. src/client.rs:101. *)
Definition byte_head (l : limits) (c : bconn) : fut (response bconn) :=
  fbind (read_head (run (pstep (most_headers l)) (PVersion (u "HTTP/1.1 "))) (most_bytes l) (b_closed c) (b_held c) (b_coming c)) (fun x =>
    match x with
    | Came (n, hs) held coming => Ready (mkResponse n hs (mkBconn held coming (b_closed c) (body_length hs)))
    | Eof | Garbled => Failed FromMiasht
    end).
(** The client's end: src/client.rs:96,101,109-111. *)
Definition byte_wire (l : limits) : wire bconn := {|
  w_write := fun _ _ c => Later (Ready c);
  w_head := byte_head l;
  w_body := fun x => fbind (read_body (r_conn x)) (fun '(b, c) => Ready (mkResponse (r_code x) (r_headers x) c, b))
|}.

(** ** Headers alone: what arrives of a list of headers that is written (DepHttp.v). For src/serializers/http_header.rs:28. *)
Definition byte_deliver (hs : list header) : option (list rheader) :=
  match run (hstep (length (header_lines hs))) (HStart []) (header_lines hs ++ crlf) with
  | PDone hs [] => Some hs
  | _ => None
  end.
End Bytes.
Arguments Came {A} x held coming. Arguments Eof {A}. Arguments Garbled {A}.
