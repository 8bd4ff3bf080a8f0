(** * C88: timers wake too. *)
From Verif Require Import Base Decimal Serde Procedure Router Status SerRequest SerResponse DeHeader DeResponse DepUrl Error Client ClientSpec Pool PoolSystem PoolSystemSpec PoolFairSpec PoolFair Exhibit PathProps RequestProps ClientProps PoolProps PoolSystemProps PoolFairProps.
From Verif Require Import Wake WakeSpec WakeProofs Timeout TimeoutSpec TimeoutProofs TimeoutFair WakeTimeout WakeTimeoutSpec WakeTimeoutProofs.
Local Open Scope nat_scope.

(** Whatever is polled, woken and run out, and whenever: the pool and the calls go through a run of C78. *)
Theorem C88_same_system (F : floatlib) (U : urlenv) tmax checks wait size d (sched : nat -> Z * zlabel) n :
  exists ls, length ls = n /\ y_sys (z_wake (zat tmax checks wait sched n (zsys_new size d))) = t_sys (fst (trun tmax checks wait ls (tsys_new size d))).
Proof. exact (through tmax checks wait sched size d n). Qed.
Print Assumptions C88_same_system.

(** No wake-up is lost: a call that is not over is to be polled, or has been noted by what it waits for, its timer included, or the pool is awake and has its command. *)
Theorem C88_no_lost_wakeup (F : floatlib) (U : urlenv) tmax checks wait size d (sched : nat -> Z * zlabel) n i :
  let y := z_wake (zat tmax checks wait sched n (zsys_new size d)) in alive i y -> will_be_woken i y.
Proof. exact (none_lost tmax checks wait sched size d n i). Qed.
Print Assumptions C88_no_lost_wakeup.

(** A call that is polled only when it is woken ends, whatever becomes of connecting: if the executor polls it when it is woken, the pool's loop goes on, the network answers
    and wakes it once it is connected, and its timer runs out.  Nothing is asked for other calls, nor of the network while it is connecting. *)
Theorem C88_woken_calls_end (F : floatlib) (U : urlenv) tmax checks wait size d (sched : nat -> Z * zlabel) i n :
  let z0 := zsys_new size d in
  steady sched -> polls_when_woken tmax checks wait sched z0 i -> pool_goes_on tmax checks wait sched z0 ->
  answers_once_connected sched i -> wakes_once_connected tmax checks wait sched z0 i -> timer_runs_out tmax checks wait sched z0 i ->
  state_of i (y_sys (z_wake (zat tmax checks wait sched n z0))) <> None ->
  exists n', n <= n' /\ forall m, n' <= m -> over (state_of i (y_sys (z_wake (zat tmax checks wait sched m z0)))).
Proof. exact (woken_end tmax checks wait sched size d i n). Qed.
Print Assumptions C88_woken_calls_end.

(** Two calls: one to a peer that never says anything, one that is connected and answered. *)
Definition ex_zround (m : nat) : Z * zlabel :=
  (Z.of_nat m, match m with
  | 0 => ZStep (WCall ex_a (ex_proc MPost) (ex_req, [1; 2]%N))
  | 1 => ZStep (WCall ex_b (ex_proc MPost) (ex_req, [1; 2]%N))
  | S (S k) => match k mod 7 with 0 => ZStep (WPool (Z.of_nat k) match k with O => Never | _ => Later (Ready tt) end) | 1 => ZStep (WPoll 0 ex_wire) | 2 => ZStep (WPoll 1 ex_wire)
      | 3 => ZStep (WNet 0) | 4 => ZStep (WNet 1) | 5 => ZTimer 0 | _ => ZTimer 1 end
  end).
Lemma ex_zrounds n k : k < 7 -> (7 * n + k) mod 7 = k.
Proof. intros L. rewrite Nat.add_comm, Nat.mul_comm, Nat.mod_add by discriminate. apply Nat.mod_small, L. Qed.
Lemma connecting_dec x : connecting x \/ ~ connecting x.
Proof. destruct x as [[[[| |f]|]| | | | |]|]; cbn; tauto. Qed.
Lemma ex_timer (F : floatlib) (U : urlenv) tmax checks (wait : nat) sched size d i : (forall n, fst (sched n) = Z.of_nat n) -> (forall n, exists m, n <= m /\ snd (sched m) = ZTimer i) ->
  timer_runs_out tmax checks (Z.of_nat wait) sched (zsys_new size d) i.
Proof.
  intros T A n _ _. destruct (A (n + wait)) as (m & L & Q).
  destruct (connecting_dec (state_of i (y_sys (z_wake (zat tmax checks (Z.of_nat wait) sched m (zsys_new size d)))))) as [C|C]; [|exists m; split; [lia | left; exact C]].
  destruct (handed_at tmax checks (Z.of_nat wait) sched size d i m C) as (h & Lh & Nh & Dh). destruct (Nat.le_gt_cases n h) as [Ln|Ln].
  - exists h. split; [exact Ln|]. left. rewrite Nh. intros [].
  - exists m. split; [lia|]. right. split; [exact Q|]. rewrite Dh, !T. lia.
Qed.
Example C88_case : let F := ex_float in let U := ex_url in let z0 := zsys_new 1 5 in let at_ n := y_sys (z_wake (zat 1000 true 20 ex_zround n z0)) in
  (steady ex_zround /\ (forall i, i < 2 -> polls_when_woken 1000 true 20 ex_zround z0 i /\ answers_once_connected ex_zround i /\ wakes_once_connected 1000 true 20 ex_zround z0 i /\ timer_runs_out 1000 true 20 ex_zround z0 i) /\
  pool_goes_on 1000 true 20 ex_zround z0 /\ connecting (state_of 0 (at_ 20)) /\ y_due (z_wake (zat 1000 true 20 ex_zround 18 z0)) 0 = false /\
  state_of 0 (at_ 60) = Some (Broken Other) /\ match state_of 1 (at_ 60) with Some (Finished _ _) => True | _ => False end)%type.
Proof.
  intros F U z0 at_. assert (W : answering ex_wire) by (split; [|split]; intros; discriminate).
  assert (R : forall k n, k < 7 -> exists m, n <= m /\ m = 2 + (7 * n + k)) by (intros k n L; exists (2 + (7 * n + k)); split; [lia | reflexivity]).
  split; [|split; [|split]].
  - intros n. cbn [ex_zround fst]. lia.
  - intros i Li. split; [|split; [|split]].
    + intros n _ _. destruct i as [|[|]]; [destruct (R 1 n) as (m & L & E) | destruct (R 2 n) as (m & L & E) | lia]; try lia; exists m; (split; [exact L|]); right; exists ex_wire; rewrite E; cbn [Nat.add ex_zround snd]; rewrite ex_zrounds by lia; reflexivity.
    + intros [|[|m]] w; cbn [ex_zround snd]; try discriminate. destruct (m mod 7) as [|[|[|[|[|[|]]]]]]; try discriminate; intros [= _ <-]; exact W.
    + intros n _ _ _. destruct i as [|[|]]; [destruct (R 3 n) as (m & L & E) | destruct (R 4 n) as (m & L & E) | lia]; try lia; exists m; (split; [exact L|]); right; rewrite E; cbn [Nat.add ex_zround snd]; rewrite ex_zrounds by lia; reflexivity.
    + apply (ex_timer F U 1000 true 20); [reflexivity|]. intros n. destruct i as [|[|]]; [destruct (R 5 n) as (m & L & E) | destruct (R 6 n) as (m & L & E) | lia]; try lia; exists m; (split; [exact L|]); rewrite E; cbn [Nat.add ex_zround snd]; rewrite ex_zrounds by lia; reflexivity.
  - intros n _ _. destruct (R 0 n) as (m & L & E); [lia|]. exists m. split; [exact L|]. right. rewrite E. cbn [Nat.add ex_zround snd]. rewrite ex_zrounds by lia. eauto.
  - do 3 (split; [vm_compute; reflexivity || exact I|]). vm_compute. exact I.
Qed.

(** Without the timer the call may sleep for ever: what it waits for need never come, and nobody wakes it. *)
Definition ex_deaf (m : nat) : Z * zlabel :=
  (Z.of_nat m, match m with
  | 0 => ZStep (WCall ex_a (ex_proc MPost) (ex_req, [1; 2]%N))
  | S k => match k mod 2 with 0 => ZStep (WPool 0 Never) | _ => ZStep (WPoll 0 ex_wire) end
  end).
Theorem C88_without_timers_refuted : let F := ex_float in let U := ex_url in let z0 := zsys_new 1 5 in
  exists sched, steady sched /\ polls_when_woken 1000 true 20 sched z0 0 /\ pool_goes_on 1000 true 20 sched z0 /\ answers_once_connected sched 0 /\ wakes_once_connected 1000 true 20 sched z0 0 /\
    (forall t, exists n, (t <= fst (sched n))%Z) /\ state_of 0 (y_sys (z_wake (zat 1000 true 20 sched 1 z0))) <> None /\
    forall n, ~ over (state_of 0 (y_sys (z_wake (zat 1000 true 20 sched n z0)))).
Proof.
  intros F U z0. assert (W : answering ex_wire) by (split; [|split]; intros; discriminate).
  assert (Q : forall n, z_wake (zat 1000 true 20 ex_deaf (4 + n) z0) = z_wake (zat 1000 true 20 ex_deaf 4 z0)).
  { induction n as [|n IH]; [reflexivity|]. rewrite Nat.add_succ_r. cbn [zat]. change (snd (ex_deaf (4 + n))) with (match (3 + n) mod 2 with 0 => ZStep (WPool 0 Never) | _ => ZStep (WPoll 0 ex_wire) end).
    assert (D : y_due (z_wake (zat 1000 true 20 ex_deaf 4 z0)) 0 = false) by (vm_compute; reflexivity). destruct ((3 + n) mod 2); cbn [zstep z_wake]; unfold zlook.
    - change (zat 1000 true 20 ex_deaf (S (S (S (S n)))) z0) with (zat 1000 true 20 ex_deaf (4 + n) z0). rewrite IH. assert (P : y_pool (z_wake (zat 1000 true 20 ex_deaf 4 z0)) = PAsleep) by (vm_compute; reflexivity). unfold wstep at 1. rewrite P. reflexivity.
    - rewrite IH, D. unfold wstep at 1. rewrite D. reflexivity. }
  assert (Al : forall n, ~ over (state_of 0 (y_sys (z_wake (zat 1000 true 20 ex_deaf n z0))))).
  { intros [|[|[|[|n]]]]; [vm_compute; tauto..|]. change (S (S (S (S n)))) with (4 + n). rewrite Q. vm_compute. tauto. }
  exists ex_deaf. split; [|split; [|split; [|split; [|split; [|split; [|split; [|exact Al]]]]]]].
  - intros n. cbn [ex_deaf fst]. lia.
  - intros n _ _. exists (S (1 + n * 2)). split; [lia|]. right. exists ex_wire. cbn [ex_deaf snd]. rewrite Nat.mod_add by discriminate. reflexivity.
  - intros n _ _. exists (S (n * 2)). split; [lia|]. right. cbn [ex_deaf snd]. rewrite Nat.mod_mul by discriminate. eauto.
  - intros [|m] w; cbn [ex_deaf snd]; [discriminate|]. destruct (m mod 2); [discriminate|]. intros [= <-]. exact W.
  - intros [|[|[|[|n]]]] _ C R; [vm_compute in R; discriminate R.. | destruct C; vm_compute; exact I|]. exfalso. apply C. change (S (S (S (S n)))) with (4 + n). rewrite Q. vm_compute. exact I.
  - intros t. exists (Z.to_nat t). cbn [ex_deaf fst]. lia.
  - vm_compute. discriminate.
Qed.
Print Assumptions C88_without_timers_refuted.
