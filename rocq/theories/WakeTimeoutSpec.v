(** * What a call needs of an executor, of the network and of its timer, to end. *)
From Verif Require Import Base Serde Procedure Router SerRequest DeHeader DeResponse DepUrl Error Client ClientSpec Pool PoolSystem PoolSystemSpec PoolFairSpec Server Wake WakeSpec Timeout TimeoutSpec WakeTimeout.

Section Spec.
Context `{floatlib} `{urlenv}.
Variables (tmax : Z) (checks : bool) (wait : Z) (sched : nat -> Z * zlabel) (z0 : zsys).
Notation at_ n := (z_wake (zat tmax checks wait sched n z0)).

(** The clock does not go back. *)
Definition steady : Prop := forall n, (fst (sched n) <= fst (sched (S n)))%Z.
(** Call [i] is polled in the end when it is to be polled; asked for no other call. *)
Definition polls_when_woken (i : nat) : Prop :=
  forall n, alive i (at_ n) -> y_due (at_ n) i = true -> exists m, (n <= m)%nat /\ (~ alive i (at_ m) \/ exists w, snd (sched m) = ZStep (WPoll i w)).
(** The pool goes on with its loop unless it sleeps. *)
Definition pool_goes_on : Prop :=
  forall n, s_pool (y_sys (at_ n)) <> None -> y_pool (at_ n) <> PAsleep -> exists m, (n <= m)%nat /\ (s_pool (y_sys (at_ m)) = None \/ exists now f, snd (sched m) = ZStep (WPool now f)).
(** The network answers what call [i] asks of it once it is connected ... *)
Definition answers_once_connected (i : nat) : Prop := forall n w, snd (sched n) = ZStep (WPoll i w) -> answering w.
(** ... and wakes it then; nothing is asked while it is connecting. *)
Definition wakes_once_connected (i : nat) : Prop :=
  forall n, alive i (at_ n) -> ~ connecting (state_of i (y_sys (at_ n))) -> y_reg (at_ n) i = WithNetwork ->
    exists m, (n <= m)%nat /\ (~ alive i (at_ m) \/ snd (sched m) = ZStep (WNet i)).
(** The timer of call [i], once it has taken note of it, runs out some time after it is due. *)
Definition timer_runs_out (i : nat) : Prop :=
  forall n, connecting (state_of i (y_sys (at_ n))) -> y_reg (at_ n) i = WithNetwork ->
    exists m, (n <= m)%nat /\ (~ connecting (state_of i (y_sys (at_ m))) \/ snd (sched m) = ZTimer i /\ (z_due (zat tmax checks wait sched m z0) i <= fst (sched m))%Z).
End Spec.
