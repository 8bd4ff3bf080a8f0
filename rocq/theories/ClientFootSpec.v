(** * What is said of what a call keeps of the bytes that come (C94). *)
From Verif Require Import Base DepUrl Serde SerHeader DeHeader Router Error Client ClientSpec HttpBytes CutsSpec WholeSpec ClientFoot.
Open Scope nat_scope.

(** How many bytes the call keeps. *)
Definition holding (s : kfoot) : nat := match kf_stage s with KHead held | KBody _ _ _ held | KDone _ held => length held end.
(** The length of the body that is being read: none is, it is known, or it is not. *)
Definition awaiting (s : kfoot) : option (option nat) := match kf_stage s with KBody _ _ n _ => Some n | _ => None end.
(** What the call has come to, with the bytes from which the next response is read. *)
Definition spent (s : kfoot) : option finding :=
  match kf_stage s with
  | KDone (Ok (v, b)) held => Some (Finds v b (held ++ kf_queue s))
  | KDone (Err k) _ => Some (NoFind k)
  | KDone _ _ => Some Bursts
  | _ => None
  end.
(** Everything the peer has sent, and whether it has closed the connection. *)
Fixpoint sent_back (ls : list klabel) : bytes :=
  match ls with [] => [] | KArrive x :: ls => x ++ sent_back ls | KClose :: _ => [] | KTurn _ :: ls => sent_back ls end.
Definition closed_by (ls : list klabel) : bool := existsb (fun l => match l with KClose => true | _ => false end) ls.
