(** * What it means that only the bytes of a connection matter (C76). *)
From Verif Require Import Base Serde Router Error Client ClientSpec Server ServerSpec HttpBytes.
Open Scope nat_scope.

(** What has come on the second connection begins with what has come on the first; it goes on differently only if the
    first is still open.  How the bytes are cut, and what of them is in the buffer, plays no part, but a buffer holds no
    more than it can. *)
Definition leads (room : nat) (c c' : bconn) : Prop :=
  b_left c = b_left c' /\ length (b_held c) <= room /\ length (b_held c') <= room /\
  if b_closed c then stream c' = stream c /\ b_closed c' = true else exists more, stream c' = stream c ++ more.

(** What comes of the first comes of the second. *)
Definition follows {A} (same : A -> A -> Prop) (x y : settled A) : Prop :=
  match x with Comes a => exists b, y = Comes b /\ same a b | Breaks e => y = Breaks e | Hangs => True end.

(** Requests that differ only in the bytes that follow. *)
Definition like (room : nat) (q q' : request bconn) : Prop :=
  q_method q = q_method q' /\ q_target q = q_target q' /\ q_headers q = q_headers q' /\ leads room (q_conn q) (q_conn q').
(** A handler that makes of a body what its bytes say. *)
Definition by_bytes {R : Type} (room : nat) (hp : hproc bconn R) : Prop :=
  forall v q q', like room q q' -> follows (fun x y => leads room (q_conn (fst x)) (q_conn (fst y)) /\ snd x = snd y) (settle (hp_body hp v q)) (settle (hp_body hp v q')).

(** What may be read as a head from bytes: the parser sees as many as the buffer holds. *)
Definition head_in {A} (parse : bytes -> parsed A) (room : nat) (closed : bool) (s : bytes) : settled (option (option (A * bytes))) :=
  match parse (firstn room s) with
  | PDone x rest => Comes (Some (Some (x, rest ++ skipn room s)))
  | PBad => Comes (Some None)
  | PMore => if room <=? length s then Comes (Some None) else if closed then Comes None else Hangs
  end.
(** How reading a head ended: with a head and what follows it, with the end of the stream, or with an error. *)
Definition head_came {A} (x : came A) : option (option (A * bytes)) :=
  match x with Came x held coming => Some (Some (x, held ++ concat coming)) | Eof => None | Garbled => Some None end.
(** How a call ended. *)
Definition alike (room : nat) (x y : result (Conn := bconn)) : Prop :=
  match x with
  | Waits => True
  | Yields v b c => exists c', y = Yields v b c' /\ leads room c c'
  | x => y = x
  end.
