(** * Time, and systems that differ in what becomes of connections being opened. *)
From Verif Require Import Base Serde Procedure Router SerRequest DeHeader DeResponse DepUrl Error Client ClientSpec Pool PoolSystem PoolSystemSpec PoolFairSpec Timeout.

(** The clock goes past every time and stays there. *)
Definition passing (sched : nat -> Z * plabel) : Prop := forall t, exists n, forall m, (n <= m)%nat -> (t <= fst (sched m))%Z.
(** What call [i] itself asks of the network, once it is connected, is answered. *)
Definition own_answered (i : nat) (sched : nat -> Z * plabel) : Prop := forall n w, snd (sched n) = LPoll i w -> answering w.

(** Two labels, two calls, two systems: the same but for connections being opened. *)
Definition like_label (a b : plabel) : Prop :=
  match a, b with LPool n _, LPool m _ => n = m | _, _ => a = b end.
Definition like_state (a b : cstate) : Prop :=
  match a, b with Acquiring (Some (PConnect _)), Acquiring (Some (PConnect _)) => True | _, _ => a = b end.
Definition like_call (a b : pcall) : Prop :=
  c_addr a = c_addr b /\ c_proc a = c_proc b /\ c_req a = c_req b /\ like_state (c_state a) (c_state b).
Definition like_system (a b : psys) : Prop :=
  s_pool a = s_pool b /\ s_queue a = s_queue b /\ s_opened a = s_opened b /\ Forall2 like_call (s_calls a) (s_calls b).

Definition connecting (x : option cstate) : Prop := match x with Some (Acquiring (Some (PConnect _))) => True | _ => False end.

Section Time.
Context `{floatlib} `{urlenv}.
(** The system after the first [n] labels of a schedule, and what was to be seen. *)
Definition then_ tmax checks wait (sched : nat -> Z * plabel) (n : nat) (s : tsys) : psys := t_sys (fst (trun tmax checks wait (map sched (seq 0 n)) s)).
Definition seen tmax checks wait (sched : nat -> Z * plabel) (n : nat) (s : tsys) : list pevent := snd (trun tmax checks wait (map sched (seq 0 n)) s).
(** The pool handed call [i] a connection to open at step [m] of the schedule, and the call is still at it at [n]. *)
Definition handed tmax checks wait sched s i m n : Prop :=
  (m < n)%nat /\ state_of i (then_ tmax checks wait sched m s) = Some (Acquiring None) /\
  forall k, (m < k <= n)%nat -> connecting (state_of i (then_ tmax checks wait sched k s)).
End Time.
