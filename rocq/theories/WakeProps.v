(** * Property C68: no wake-up is lost; polling only what is woken, every call ends. *)
From Verif Require Import Base Decimal Serde Procedure Router Status SerRequest SerResponse DeHeader DeResponse DepUrl Error Client ClientSpec Server ServerPoll ServerSpec Pool PoolSystem PoolSystemSpec PoolFairSpec PoolFair Wake WakeSpec WakeProofs WakeServer Exhibit PathProps RequestProps ClientProps ProblemProps ServerProps ServerFairProps PoolProps PoolSystemProps PoolFairProps.
Open Scope nat_scope.

(** The polls that say who noted the task are the polls of the other properties. *)
Theorem C68_same_polls (F : floatlib) (U : urlenv) i w pc s : poll_pooled i w pc s = option_map fst (wpooled i w pc s).
Proof. exact (wpooled_polled i w pc s). Qed.
Print Assumptions C68_same_polls.

(** Whatever the executor does, the pool and the calls go through a schedule of the other properties, which therefore hold here too. *)
Theorem C68_same_system (F : floatlib) (U : urlenv) tmax checks size d (sched : nat -> wlabel) n :
  exists ls, length ls <= n /\ y_sys (wat tmax checks sched n (wsys_new size d)) = fst (prun tmax checks ls (psys_new size d)).
Proof. exact (carried_sys tmax checks sched (wsys_new size d) n). Qed.
Print Assumptions C68_same_system.

(** In every execution, whatever the network does and in whatever order tasks run, are woken and are dropped: a call that is not over is to be polled, or an operation of the network
    has noted it, or the pool has its command, has not answered it, and is itself awake. *)
Theorem C68_no_lost_wakeup (F : floatlib) (U : urlenv) tmax checks size d (sched : nat -> wlabel) n i :
  alive i (wat tmax checks sched n (wsys_new size d)) -> will_be_woken i (wat tmax checks sched n (wsys_new size d)).
Proof. exact (no_lost_wakeup tmax checks sched (wsys_new size d) (new_single size d) (fun _ => eq_refl) eq_refl eq_refl n i). Qed.
Print Assumptions C68_no_lost_wakeup.

(** The pool sleeps only when every command sent to it has been handled. *)
Theorem C68_asleep_means_idle (F : floatlib) (U : urlenv) tmax checks size d (sched : nat -> wlabel) n :
  y_pool (wat tmax checks sched n (wsys_new size d)) = PAsleep -> s_queue (y_sys (wat tmax checks sched n (wsys_new size d))) = [].
Proof. exact (asleep_idle tmax checks sched (wsys_new size d) (new_single size d) eq_refl eq_refl n). Qed.
Print Assumptions C68_asleep_means_idle.

(** The executor need only poll what has been woken, and the network need only wake those that wait for it: every call ends. *)
Theorem C68_woken_calls_end (F : floatlib) (U : urlenv) tmax checks size d (sched : nat -> wlabel) i n :
  (forall n, answering_wlabel (sched n)) -> polls_the_woken tmax checks sched (wsys_new size d) -> wakes_the_waiting tmax checks sched (wsys_new size d) ->
  state_of i (y_sys (wat tmax checks sched n (wsys_new size d))) <> None ->
  exists n', n <= n' /\ forall m, n' <= m -> over (state_of i (y_sys (wat tmax checks sched m (wsys_new size d)))).
Proof. intros A E N. exact (woken_ends tmax checks sched (wsys_new size d) (new_single size d) (fun _ => eq_refl) eq_refl eq_refl A i E N n). Qed.
Print Assumptions C68_woken_calls_end.

(** Two calls. The pool falls asleep, is woken by the second call, and both are served; polls of sleeping calls do nothing. *)
Definition ex_wround (m : nat) : wlabel :=
  match m with
  | 0 => WPool 0 (Ready tt)
  | 1 => WCall ex_a (ex_proc MPost) (ex_req, [1; 2]%N)
  | 2 => WCall ex_b (ex_proc MPost) (ex_req, [1; 2]%N)
  | S (S (S m)) => match m mod 5 with 0 => WPool (Z.of_nat m) (Later (Ready tt)) | 1 => WPoll 0 ex_wire | 2 => WPoll 1 ex_wire | 3 => WNet 0 | _ => WNet 1 end
  end.

Lemma ex_wrounds n k : k < 5 -> (5 * n + k) mod 5 = k.
Proof. intros L. rewrite Nat.add_comm, Nat.mul_comm, Nat.mod_add by discriminate. apply Nat.mod_small, L. Qed.
Lemma ex_wcalls n : let F := ex_float in let U := ex_url in length (s_calls (y_sys (wat 1000 true ex_wround (3 + n) (wsys_new 1 5)))) = 2.
Proof.
  intros F U. induction n as [|n IH]; [vm_compute; reflexivity|]. rewrite Nat.add_succ_r, calls_made; [exact IH|]. intros a p r. change (ex_wround (3 + n)) with (match n mod 5 with 0 => WPool (Z.of_nat n) (Later (Ready tt)) | 1 => WPoll 0 ex_wire | 2 => WPoll 1 ex_wire | 3 => WNet 0 | _ => WNet 1 end).
  destruct (n mod 5) as [|[|[|[|]]]]; discriminate.
Qed.
Lemma ex_walive n i : let F := ex_float in let U := ex_url in alive i (wat 1000 true ex_wround n (wsys_new 1 5)) -> i = 0 \/ i = 1.
Proof.
  intros F U [A _]. assert (L : length (s_calls (y_sys (wat 1000 true ex_wround n (wsys_new 1 5)))) <= 2).
  { destruct n as [|[|[|n]]]; [vm_compute; lia..|]. apply Nat.eq_le_incl. exact (ex_wcalls n). }
  assert (Q : i < length (s_calls (y_sys (wat 1000 true ex_wround n (wsys_new 1 5))))) by (apply nth_error_Some; intros Z; apply A; unfold state_of; rewrite Z; reflexivity). lia.
Qed.
Example C68_case : let F := ex_float in let U := ex_url in let at_ n := wat 1000 true ex_wround n (wsys_new 1 5) in
  ((forall n, answering_wlabel (ex_wround n)) /\ polls_the_woken 1000 true ex_wround (wsys_new 1 5) /\ wakes_the_waiting 1000 true ex_wround (wsys_new 1 5) /\
  y_pool (at_ 1) = PAsleep /\ y_pool (at_ 2) = PDue /\
  (alive 1 (at_ 4) /\ waits_for_pool 1 (at_ 4)) /\ y_due (at_ 6) 1 = false /\ y_reg (at_ 6) 1 = WithReply /\ y_due (at_ 9) 1 = true /\
  match state_of 0 (y_sys (at_ 60)), state_of 1 (y_sys (at_ 60)) with Some (Finished _ _), Some (Finished _ _) => True | _, _ => False end)%type.
Proof.
  intros F U at_. assert (W : answering ex_wire) by (split; [|split]; intros; discriminate). split; [|split; [|split]].
  - intros [|[|[|m]]]; try exact I; try discriminate. cbn [ex_wround]. destruct (m mod 5) as [|[|[|[|]]]]; try exact I; try exact W. discriminate.
  - split.
    + intros n i A _. destruct (ex_walive n i A) as [->| ->]; [exists (3 + (5 * n + 1)) | exists (3 + (5 * n + 2))]; (split; [lia|]; right; exists ex_wire; cbn [Nat.add ex_wround]; rewrite ex_wrounds by lia; reflexivity).
    + intros n _ _. exists (3 + (5 * n + 0)). split; [lia|]. right. cbn [Nat.add ex_wround]. rewrite ex_wrounds by lia. eauto.
  - intros n i A _. destruct (ex_walive n i A) as [->| ->]; [exists (3 + (5 * n + 3)) | exists (3 + (5 * n + 4))]; (split; [lia|]; right; cbn [Nat.add ex_wround]; rewrite ex_wrounds by lia; reflexivity).
  - split; [vm_compute; reflexivity|]. split; [vm_compute; reflexivity|]. split.
    + split; [split; [vm_compute; discriminate | vm_compute; tauto]|]. split; [vm_compute; reflexivity|]. split; [exists ex_b; vm_compute; tauto|]. split; vm_compute; discriminate.
    + do 3 (split; [vm_compute; reflexivity|]). vm_compute. exact I.
Qed.

(** The network's wake-ups are needed: with an executor that polls everything that is woken, a pool that works and a network that would answer but wakes nobody, a call sleeps for ever. *)
Definition ex_unwoken (m : nat) : wlabel :=
  match m with
  | 0 => WCall ex_a (ex_proc MPost) (ex_req, [1; 2]%N)
  | S m => match m mod 2 with 0 => WPool 0 (Later (Ready tt)) | _ => WPoll 0 ex_wire end
  end.
Theorem C68_without_wakeups_refuted : let F := ex_float in let U := ex_url in
  exists sched, (forall n, answering_wlabel (sched n)) /\ polls_the_woken 1000 true sched (wsys_new 1 5) /\
    state_of 0 (y_sys (wat 1000 true sched 1 (wsys_new 1 5))) <> None /\ (forall n i, sched n <> WDrop i) /\
    forall n, ~ over (state_of 0 (y_sys (wat 1000 true sched n (wsys_new 1 5)))).
Proof.
  intros F U. exists ex_unwoken.
  assert (Q : forall n, wat 1000 true ex_unwoken (4 + n) (wsys_new 1 5) = wat 1000 true ex_unwoken 4 (wsys_new 1 5)).
  { induction n as [|n IH]; [reflexivity|]. rewrite Nat.add_succ_r. cbn [wat]. change (S (S (S (S n)))) with (4 + n). fold (wat 1000 true ex_unwoken). rewrite IH.
    change (ex_unwoken (4 + n)) with (match (3 + n) mod 2 with 0 => WPool 0 (Later (Ready tt)) | _ => WPoll 0 ex_wire end). destruct ((3 + n) mod 2); vm_compute; reflexivity. }
  assert (L : forall n, length (s_calls (y_sys (wat 1000 true ex_unwoken n (wsys_new 1 5)))) <= 1).
  { intros [|[|[|[|n]]]]; [vm_compute; lia..|]. change (S (S (S (S n)))) with (4 + n). rewrite Q. vm_compute. lia. }
  split; [|split; [split|split; [|split]]].
  - intros [|m]; [exact I|]. cbn [ex_unwoken]. destruct (m mod 2); [discriminate|]. split; [|split]; intros; discriminate.
  - intros n i [A _] _. assert (Li : i < length (s_calls (y_sys (wat 1000 true ex_unwoken n (wsys_new 1 5))))) by (apply nth_error_Some; intros Z; apply A; unfold state_of; rewrite Z; reflexivity).
    specialize (L n). assert (i = 0) by lia. subst i. exists (S (1 + n * 2)). split; [lia|]. right. exists ex_wire. cbn [ex_unwoken]. rewrite Nat.mod_add by discriminate. reflexivity.
  - intros n _ _. exists (S (n * 2)). split; [lia|]. right. cbn [ex_unwoken]. rewrite Nat.mod_mul by discriminate. eauto.
  - vm_compute. discriminate.
  - intros [|m] i; [discriminate|]. cbn [ex_unwoken]. destruct (m mod 2); discriminate.
  - intros [|[|[|[|n]]]]; [vm_compute; tauto..|]. change (S (S (S (S n)))) with (4 + n). rewrite Q. vm_compute. tauto.
Qed.
Print Assumptions C68_without_wakeups_refuted.

(** The server's tasks. A poll of a connection that comes back without an end went on, round by round, until the future it was at said that it is not ready: that future has noted the task. *)
Theorem C68_connection_sleeps_on_its_future (F : floatlib) (U : urlenv) (Conn R : Type) explain reason (ln : link Conn) (tr : trie (hproc Conn R)) fuel t a t' :
  poll_task explain reason ln tr fuel t = (a, Ok (Sleeps t')) ->
  exists n t0, n < fuel /\ rounds explain reason ln tr n t = (a, Goes t0) /\ t_method t' = t_method t0 /\ phase_not_ready (t_phase t0) (t_phase t').
Proof. exact (connection_sleeps explain reason ln tr fuel t a t'). Qed.
Print Assumptions C68_connection_sleeps_on_its_future.
(** Likewise the accept loop. *)
Theorem C68_acceptor_sleeps_on_its_future (Conn L : Type) (incoming : L -> fut (option (fut Conn) * L)) fuel p ts p' :
  poll_accept incoming fuel p = (ts, Ok (ASleeps p')) -> exists p0, accepts incoming p ts p0 /\ accept_not_ready p0 p'.
Proof. exact (acceptor_sleeps incoming fuel p ts p'). Qed.
Print Assumptions C68_acceptor_sleeps_on_its_future.
(** The accept loop takes two clients in one poll and then waits for a third; a connection answers a request and then waits for the next. *)
Definition ex_later : link (option nat) := {|
  l_read := fun c => match c with Some 0 => Later (Ready (IoError UnexpectedEof)) | Some (S n) => Ready (Got (mkRequest MGet (u "/x") [] (Some n))) | None => Never end;
  l_drain := fun r => Ready r; l_write := fun _ _ c => Ready c
|}.
Example C68_server_case : let F := ex_float in let U := ex_url in
  poll_accept ex_two 9 (AcA (Ready 0)) = ([task_new (Ready None); task_new (Ready (Some 1))], Ok (ASleeps (AcB Never))) /\
  exists w, poll_task ex_explain2 ex_reason ex_later (build (registrations ex_none)) 9 (task_new (Ready (Some 1))) = ([ARead (Some 1); w; ARead (Some 0)], Ok (Sleeps (mkTask MGet (SpB (Ready None))))).
Proof. intros F U. split; [reflexivity|]. eexists. vm_compute. reflexivity. Qed.
