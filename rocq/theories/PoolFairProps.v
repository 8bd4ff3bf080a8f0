(** * Property C58: with a fair schedule and a network that answers, every call ends. *)
From Verif Require Import Base Decimal Serde Procedure Router SerRequest DeHeader DeResponse DepUrl Error Client ClientSpec Pool PoolSystem PoolSystemSpec PoolSystemProofs PoolFairSpec PoolFair Exhibit PathProps RequestProps ClientProps PoolProps PoolSystemProps.
Open Scope nat_scope.

(** The pool gets a turn again and again, call [i] is polled again and again, every network operation ends: from some time on the call is over,
    whatever the other calls do, whatever is refused, lost or dropped, and whether or not the pool survives. *)
Theorem C58_fair_calls_end (F : floatlib) (U : urlenv) tmax checks size d (sched : nat -> plabel) i n :
  (forall n, answering_label (sched n)) -> again pool_turn sched -> again (poll_of i) sched ->
  state_of i (at_time tmax checks sched n (psys_new size d)) <> None ->
  exists n', n <= n' /\ forall m, n' <= m -> over (state_of i (at_time tmax checks sched m (psys_new size d))).
Proof. intros A P C N. exact (fair_ends tmax checks sched (psys_new size d) (fun _ => eq_refl) eq_refl A i P C n N). Qed.
Print Assumptions C58_fair_calls_end.

(** It is over by itself, unless its user drops it. *)
Theorem C58_dropped_only_by_its_user (F : floatlib) (U : urlenv) tmax checks size d (sched : nat -> plabel) i n :
  (forall n, ~ drop_of i (sched n)) -> state_of i (at_time tmax checks sched n (psys_new size d)) <> Some Dropped.
Proof. intros D. exact (never_dropped tmax checks sched (psys_new size d) eq_refl i n D). Qed.
Print Assumptions C58_dropped_only_by_its_user.

(** Its user can drop it at any time until it is over; it is over then, and nothing else changes. *)
Theorem C58_dropping (F : floatlib) (U : urlenv) tmax checks i s :
  match state_of i s with
  | Some (Acquiring _) | Some (Talking _ _) => exists s', pstep tmax checks (LDrop i) s = Some (s', []) /\ state_of i s' = Some Dropped /\
      (forall j, j <> i -> state_of j s' = state_of j s) /\ s_pool s' = s_pool s /\ s_queue s' = s_queue s
  | x => pstep tmax checks (LDrop i) s = None /\ (x = None \/ over x)
  end.
Proof. exact (drop_effect tmax checks i s). Qed.
Print Assumptions C58_dropping.

(** Two calls polled in turn with the pool. *)
Definition ex_round (m : nat) : plabel :=
  match m with
  | 0 => ex_call ex_a
  | 1 => ex_call ex_b
  | S (S m) => match m mod 3 with 0 => LPool (Z.of_nat m) (Later (Ready tt)) | 1 => LPoll 0 ex_wire | _ => LPoll 1 ex_wire end
  end.
Lemma ex_rounds n k : k < 3 -> (3 * n + k) mod 3 = k.
Proof. intros L. rewrite Nat.add_comm, Nat.mul_comm, Nat.mod_add by discriminate. apply Nat.mod_small, L. Qed.
Example C58_case : let F := ex_float in let U := ex_url in
  (forall n, answering_label (ex_round n)) /\ again pool_turn ex_round /\ again (poll_of 1) ex_round /\ (forall n, ~ drop_of 1 (ex_round n)) /\
  state_of 1 (at_time 1000 true ex_round 2 (psys_new 1 5)) = Some (Acquiring None) /\
  exists v b, state_of 1 (at_time 1000 true ex_round 30 (psys_new 1 5)) = Some (Finished v b).
Proof.
  intros F U. assert (W : answering ex_wire) by (split; [|split]; intros; discriminate). split; [|split; [|split; [|split; [|split]]]].
  - intros [|[|m]]; [exact I | exact I|]. unfold ex_round. destruct (m mod 3) as [|[|]]; [discriminate | exact W | exact W].
  - intros n. exists (2 + (3 * n + 0)). split; [lia|]. cbn [Nat.add ex_round]. rewrite ex_rounds by lia. exact I.
  - intros n. exists (2 + (3 * n + 2)). split; [lia|]. change (poll_of 1 (ex_round (S (S (3 * n + 2))))). cbn [ex_round]. rewrite ex_rounds by lia. reflexivity.
  - intros [|[|m]]; cbn [ex_round drop_of ex_call]; [intros [] | intros [] |]. destruct (m mod 3) as [|[|]]; intros [].
  - vm_compute. reflexivity.
  - eexists. eexists. vm_compute. reflexivity.
Qed.

(** Both conditions are needed. There is no time limit on writing a request and reading a response: with a peer that accepts the connection and then says nothing, a call
    polled for ever never ends, under a fair schedule. *)
Definition ex_silent : wire conn := {| w_write := fun r b c => Ready c; w_head := fun c => Never; w_body := fun r => Never |}.
Definition ex_waiting (m : nat) : plabel := match m with 0 => ex_call ex_a | S m => match m mod 2 with 0 => LPool (Z.of_nat m) (Ready tt) | _ => LPoll 0 ex_silent end end.
Theorem C58_without_answers_refuted : let F := ex_float in let U := ex_url in
  exists sched, again pool_turn sched /\ again (poll_of 0) sched /\ (forall n, ~ drop_of 0 (sched n)) /\
    state_of 0 (at_time 1000 true sched 1 (psys_new 1 5)) <> None /\ forall n, ~ over (state_of 0 (at_time 1000 true sched n (psys_new 1 5))).
Proof.
  intros F U. exists ex_waiting. split; [|split; [|split; [|split]]].
  - intros n. exists (S (n * 2)). split; [lia|]. cbn [ex_waiting]. rewrite Nat.mod_mul by discriminate. exact I.
  - intros n. exists (S (1 + n * 2)). split; [lia|]. cbn [ex_waiting]. rewrite Nat.mod_add by discriminate. reflexivity.
  - intros [|m]; cbn [ex_waiting drop_of ex_call]; [intros []|]. destruct (m mod 2); intros [].
  - vm_compute. discriminate.
  - assert (Q : forall n, at_time 1000 true ex_waiting (3 + n) (psys_new 1 5) = at_time 1000 true ex_waiting 3 (psys_new 1 5)).
    { induction n as [|n IH]; [reflexivity|]. rewrite Nat.add_succ_r. rewrite at_S, IH. change (ex_waiting (3 + n)) with (match (2 + n) mod 2 with 0 => LPool (Z.of_nat (2 + n)) (Ready tt) | _ => LPoll 0 ex_silent end).
      destruct ((2 + n) mod 2); vm_compute; reflexivity. }
    intros [|[|[|n]]]; [vm_compute; tauto..|]. change (S (S (S n))) with (3 + n). rewrite Q. vm_compute. tauto.
Qed.
Print Assumptions C58_without_answers_refuted.

(** Without a pool that gets its turn a call waits for ever, though it is polled for ever and the network is well. *)
Theorem C58_without_the_pool_refuted : let F := ex_float in let U := ex_url in
  exists sched, (forall n, answering_label (sched n)) /\ again (poll_of 0) sched /\ (forall n, ~ drop_of 0 (sched n)) /\
    state_of 0 (at_time 1000 true sched 1 (psys_new 1 5)) <> None /\ forall n, ~ over (state_of 0 (at_time 1000 true sched n (psys_new 1 5))).
Proof.
  intros F U. exists (fun n => match n with 0 => ex_call ex_a | _ => LPoll 0 ex_wire end). split; [|split; [|split; [|split]]].
  - intros [|n]; [exact I|]. split; [|split]; intros; discriminate.
  - intros n. exists (S n). split; [lia | reflexivity].
  - intros [|n] [].
  - vm_compute. discriminate.
  - set (sched := fun n => match n with 0 => ex_call ex_a | _ => LPoll 0 ex_wire end).
    assert (Q : forall n, at_time 1000 true sched (1 + n) (psys_new 1 5) = at_time 1000 true sched 1 (psys_new 1 5)).
    { induction n as [|n IH]; [reflexivity|]. rewrite Nat.add_succ_r. rewrite at_S, IH. vm_compute. reflexivity. }
    intros [|n]; [vm_compute; tauto|]. change (S n) with (1 + n). rewrite Q. vm_compute. tauto.
Qed.
Print Assumptions C58_without_the_pool_refuted.
