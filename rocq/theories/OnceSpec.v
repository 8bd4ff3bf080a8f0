(** * Data races, and threads that get their turns. *)
From Verif Require Import Base Once.
Local Open Scope nat_scope.

(** Thread [t] is about to read, or to write, the cell. *)
Definition about_to_read {U R} (t : nat) (m : mem U R) : Prop := exists x, m_pc m t = Reading x.
Definition about_to_write {U R} (t : nat) (m : mem U R) : Prop := exists x b, m_pc m t = Writing x b.
(** Two accesses of different threads, at least one of them a write, and nothing that makes one wait for the other. *)
Definition data_race {U R} (m : mem U R) : Prop :=
  exists t t', t <> t' /\ about_to_write t m /\ (about_to_write t' m \/ about_to_read t' m).
(** Every thread takes a step again and again. *)
Definition turns_for_all (sched : nat -> act) : Prop := forall t n, exists m, n <= m /\ sched m = Steps t.
(** How many calls a thread has come back from. *)
Definition returned {R} (t : nat) (l : list (ret R)) : nat := length (filter (fun r => Nat.eqb (r_thread r) t) l).
