(** * Schedules that go on for ever, fairness, and the end of a call. *)
From Verif Require Import Base Serde Procedure Router SerRequest DeHeader DeResponse DepUrl Error Client ClientSpec Pool PoolSystem PoolSystemSpec.

(** The network never leaves an operation unanswered: connecting, writing and reading end, well or badly. *)
Definition ends {A} (f : fut A) : Prop := settle f <> Hangs.
Definition answering (w : wire conn) : Prop :=
  (forall r b c, ends (w_write w r b c)) /\ (forall c, ends (w_head w c)) /\ (forall r, ends (w_body w r)).
Definition answering_label (l : plabel) : Prop :=
  match l with LPool _ f => ends f | LPoll _ w => answering w | _ => True end.

(** Something happens again and again. *)
Definition again (P : plabel -> Prop) (sched : nat -> plabel) : Prop := forall n, exists m, (n <= m)%nat /\ P (sched m).
Definition pool_turn (l : plabel) : Prop := match l with LPool _ _ => True | _ => False end.
Definition poll_of (i : nat) (l : plabel) : Prop := match l with LPoll j _ => j = i | _ => False end.

Definition drop_of (i : nat) (l : plabel) : Prop := match l with LDrop j => j = i | _ => False end.

(** A call that is over: with a response, with an error, dropped by its user, or in a panic. *)
Definition over (x : option cstate) : Prop :=
  match x with Some (Finished _ _) | Some (Broken _) | Some Dropped | Some Panicked => True | _ => False end.

Section Time.
Context `{floatlib} `{urlenv}.
(** The system after the first [n] labels of a schedule. *)
Definition at_time tmax checks (sched : nat -> plabel) (n : nat) (s : psys) : psys := fst (prun tmax checks (map sched (seq 0 n)) s).
End Time.
