(** * Executors that poll what is woken, networks that wake who waits for them. *)
From Verif Require Import Base Serde Procedure Router SerRequest DeHeader DeResponse DepUrl Error Client ClientSpec Pool PoolSystem PoolSystemSpec PoolFairSpec Server Wake.

Section Spec.
Context `{floatlib} `{urlenv}.

(** The network ends every operation it is asked for, well or badly. *)
Definition answering_wlabel (l : wlabel) : Prop :=
  match l with WPool _ f => ends f | WPoll _ w => answering w | _ => True end.

(** A call that is not over. *)
Definition alive (i : nat) (y : wsys) : Prop := state_of i (y_sys y) <> None /\ ~ over (state_of i (y_sys y)).
(** Call [i] waits for the pool, which has its command and will come to it. *)
Definition waits_for_pool (i : nat) (y : wsys) : Prop :=
  state_of i (y_sys y) = Some (Acquiring None) /\ (exists a, In (AcquireConnection a i) (s_queue (y_sys y))) /\ s_pool (y_sys y) <> None /\ y_pool y <> PAsleep.

(** Somebody will have the call polled again: the executor, the network, or the pool, which is awake. *)
Definition will_be_woken (i : nat) (y : wsys) : Prop := y_due y i = true \/ y_reg y i = WithNetwork \/ y_reg y i = WithReply /\ waits_for_pool i y.

Variables (tmax : Z) (checks : bool) (sched : nat -> wlabel) (y0 : wsys).
Notation at_ n := (wat tmax checks sched n y0).

(** The executor polls a task in the end when it is to be polled, and goes on with the pool's loop. Nothing is asked for tasks that sleep. *)
Definition polls_the_woken : Prop :=
  (forall n i, alive i (at_ n) -> y_due (at_ n) i = true -> exists m, (n <= m)%nat /\ (~ alive i (at_ m) \/ exists w, sched m = WPoll i w)) /\
  (forall n, s_pool (y_sys (at_ n)) <> None -> y_pool (at_ n) <> PAsleep -> exists m, (n <= m)%nat /\ (s_pool (y_sys (at_ m)) = None \/ exists now f, sched m = WPool now f)).
(** The network wakes in the end a call that waits for one of its operations. Nothing is asked for the others. *)
Definition wakes_the_waiting : Prop :=
  forall n i, alive i (at_ n) -> y_reg (at_ n) i = WithNetwork -> exists m, (n <= m)%nat /\ (~ alive i (at_ m) \/ sched m = WNet i).
End Spec.

(** ** The server *)
(** A future said that it is not ready, and is now what is left of it. *)
Definition says_not_ready {A} (f f' : fut A) : Prop := f = Later f' \/ f = Never /\ f' = Never.
(** The future a connection, or the accept loop, is at. *)
Definition phase_not_ready {Conn} (p p' : @Server.sphase Conn) : Prop :=
  match p, p' with
  | SpA f, SpA f' => says_not_ready f f'
  | SpB f, SpB f' => says_not_ready f f'
  | SpC f, SpC f' => says_not_ready f f'
  | _, _ => False
  end.
Definition accept_not_ready {Conn L} (p p' : aphase Conn L) : Prop :=
  match p, p' with
  | AcA f, AcA f' => says_not_ready f f'
  | AcB f, AcB f' => says_not_ready f f'
  | _, _ => False
  end.
