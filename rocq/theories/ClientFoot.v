(** * What a call keeps of the bytes that come.

    Elsewhere what a reading future has read so far is out of sight.  Here it is seen, as in Footprint.v for the server: the
    bytes that the peer has sent and the client has not read (they are TCP's), and those that it has read and is not done
    with.  A poll of the call reads once, at most so many bytes: of a head no more than there is room for (src/client.rs:101), of
    a body no more than is missing, without a length whatever is there (src/client.rs:109-111).
    Simplification: the call is looked at from where its request is written (src/client.rs:96-103). *)
From Verif Require Import Base DepUrl Serde SerHeader DeHeader DeResponse Status Router RouterSpec DepHttp Error Client ClientSpec HttpBytes.
Open Scope nat_scope.

(** Reading the head of the response; reading its body; done, with what the call comes to and what the connection holds then.
    src/client.rs:99-126. *)
Inductive kstage :=
| KHead (held : bytes)
| KBody (code : N) (hs : list rheader) (n : option nat) (held : bytes)
| KDone (r : res (value * bytes)) (held : bytes).
(** With the bytes that have come and are not read, and whether the peer has closed the connection. src/client.rs:99-126. *)
Record kfoot := mkKfoot { kf_stage : kstage; kf_queue : bytes; kf_closed : bool }.

Section Foot.
Context `{floatlib}.
Variables (trims : bool) (cl : limits) (p : proc).

(** The body is there: only now is it seen whether the response is one of the procedure's. Models src/client.rs:117-126. *)
Definition k_ends (code : N) (hs : list rheader) (b : bytes) (rest : bytes) : kstage :=
  KDone (match de_response code hs (pr_resp p) with Ok v => Ok (v, b) | Err k => Err k | Panic => Panic | Diverge => Diverge end) rest.
(** So much of what follows the head has been read; [eof], there is no more. Models src/client.rs:104-116. *)
Definition k_bodies (eof : bool) (code : N) (hs : list rheader) (n : option nat) (held : bytes) : kstage :=
  if is_head p then k_ends code hs [] held
  else match n with
       | Some m => if m <=? length held then k_ends code hs (firstn m held) (skipn m held) else if eof then KDone (Err Other) [] else KBody code hs n held
       | None => if eof then k_ends code hs held [] else KBody code hs n held
       end.
(** So much of the head has been read. Models src/client.rs:99-103. *)
Definition k_heads (eof : bool) (held : bytes) : kstage :=
  match run (pstep trims (most_headers cl)) (PVersion (u "HTTP/1.1 ")) held with
  | PMore => if most_bytes cl <=? length held then KDone (Err Other) [] else if eof then KDone (Err Other) [] else KHead held
  | PBad => KDone (Err Other) []
  | PDone (code, hs) rest => k_bodies eof code hs (body_length hs) rest
  end.
(** A poll of the call, in which at most [k] bytes are read. Models src/client.rs:82-129. *)
Definition kturn (k : nat) (s : kfoot) : kfoot :=
  let eof := kf_closed s && match kf_queue s with [] => true | _ => false end in
  match kf_stage s with
  | KHead held =>
      let j := Nat.min k (most_bytes cl - length held) in
      mkKfoot (k_heads eof (held ++ firstn j (kf_queue s))) (skipn j (kf_queue s)) (kf_closed s)
  | KBody code hs n held =>
      let j := match n with Some n => Nat.min k (n - length held) | None => k end in
      mkKfoot (k_bodies eof code hs n (held ++ firstn j (kf_queue s))) (skipn j (kf_queue s)) (kf_closed s)
  | KDone _ _ => s
  end.
(** The peer sends bytes or closes the connection, after which it sends none; or the call is polled. For src/client.rs:82. *)
Inductive klabel := KArrive (s : bytes) | KClose | KTurn (k : nat).
(** For src/client.rs:82. *)
Definition kstep (l : klabel) (s : kfoot) : kfoot :=
  match l with
  | KArrive x => if kf_closed s then s else mkKfoot (kf_stage s) (kf_queue s ++ x) false
  | KClose => mkKfoot (kf_stage s) (kf_queue s) true
  | KTurn k => kturn k s
  end.
(** For src/client.rs:82. *)
Fixpoint krun (ls : list klabel) (s : kfoot) : kfoot := match ls with [] => s | l :: ls => krun ls (kstep l s) end.
(** The request has been written on a connection that holds so much already. Models src/client.rs:99-103. *)
Definition kfoot_new (held : bytes) : kfoot := mkKfoot (KHead held) [] false.
End Foot.
