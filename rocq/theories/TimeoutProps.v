(** * Property C78: the timeout of connecting. *)
From Verif Require Import Base Serde Procedure Router SerRequest DeHeader DeResponse DepUrl Error Client ClientSpec Pool PoolSystem PoolSystemSpec PoolFairSpec PoolFair Timeout TimeoutSpec TimeoutProofs TimeoutFair Exhibit PathProps RequestProps ClientProps PoolProps PoolSystemProps PoolFairProps.
Open Scope nat_scope.

(** Exactly what a poll at time [t] makes of a call that is opening a connection: the connection if it is there; its error if it failed;
    and if neither, the call is given up and its address reported exactly if the time to wait, counted from when the pool handed it the
    connection, is over. *)
Theorem C78_exactly (F : floatlib) (U : urlenv) tmax checks wait size d (sched : nat -> Z * plabel) n i w t f :
  let now k := then_ tmax checks wait sched k (tsys_new size d) in
  let seen k := seen tmax checks wait sched k (tsys_new size d) in
  sched n = (t, LPoll i w) -> state_of i (now n) = Some (Acquiring (Some (PConnect f))) ->
  exists m, handed tmax checks wait sched (tsys_new size d) i m n /\
    let broken k := state_of i (now (S n)) = Some (Broken k) /\ exists a, addr_of i (now n) = Some a /\ seen (S n) = seen n ++ [EBlacklist i a] in
    let waits g := if (fst (sched m) + wait <=? t)%Z then broken Other else state_of i (now (S n)) = Some (Acquiring (Some (PConnect g))) /\ seen (S n) = seen n in
    match f with
    | Ready _ => (forall a, state_of i (now (S n)) <> Some (Acquiring a)) /\ exists a more, addr_of i (now n) = Some a /\ seen (S n) = seen n ++ EOpen (length (s_opened (now n))) a :: more
    | Failed e => broken (error_of e)
    | Later g => waits g
    | Never => waits Never
    end.
Proof. cbv zeta. exact (polled tmax checks wait sched (tsys_new size d) eq_refl n i w t f). Qed.
Print Assumptions C78_exactly.

(** So a call ends whatever becomes of the connections being opened, its own and others, and whatever becomes of the other calls: if the
    pool gets its turn and the call is polled again and again, the clock goes on, and what the call asks of its connection is answered. *)
Theorem C78_fair_calls_end (F : floatlib) (U : urlenv) tmax checks wait size d (sched : nat -> Z * plabel) i n :
  again pool_turn (fun n => snd (sched n)) -> again (poll_of i) (fun n => snd (sched n)) -> passing sched -> own_answered i sched ->
  state_of i (then_ tmax checks wait sched n (tsys_new size d)) <> None ->
  exists n', n <= n' /\ forall m, n' <= m -> over (state_of i (then_ tmax checks wait sched m (tsys_new size d))).
Proof. intros P C T A. exact (timely tmax checks wait sched (tsys_new size d) (fun _ => eq_refl) eq_refl i P C T A n). Qed.
Print Assumptions C78_fair_calls_end.

(** Every run with timeouts is, event for event, a run of the system without them, in which connecting comes to what the timeouts make of
    it: what is proved of all runs of the pool (C33 to C40, C48, C49, C62, C63, C65) holds of the runs with timeouts. *)
Theorem C78_as_without (F : floatlib) (U : urlenv) tmax checks wait (ls : list (Z * plabel)) size d :
  exists ls' s', Forall2 like_label (map snd ls) ls' /\
    prun tmax checks ls' (psys_new size d) = (s', snd (trun tmax checks wait ls (tsys_new size d))) /\
    like_system (t_sys (fst (trun tmax checks wait ls (tsys_new size d)))) s'.
Proof. exact (as_without tmax checks wait ls size d). Qed.
Print Assumptions C78_as_without.

(** The timeout is one of connecting alone: a call that is connected can wait for its response for ever. *)
Definition ex_mute (m : nat) : Z * plabel := (Z.of_nat m, ex_waiting m).
Theorem C78_whole_call_refuted : let F := ex_float in let U := ex_url in
  exists sched, again pool_turn (fun n => snd (sched n)) /\ again (poll_of 0) (fun n => snd (sched n)) /\ passing sched /\ (forall n, ~ drop_of 0 (snd (sched n))) /\
    state_of 0 (then_ 1000 true 5 sched 1 (tsys_new 1 5)) <> None /\ forall n, ~ over (state_of 0 (then_ 1000 true 5 sched n (tsys_new 1 5))).
Proof.
  intros F U. exists ex_mute. unfold ex_mute. cbn [fst snd].
  split; [|split; [|split; [|split; [|split]]]].
  - intros n. exists (S (n * 2)). split; [lia|]. cbn [ex_waiting]. rewrite Nat.mod_mul by discriminate. exact I.
  - intros n. exists (S (1 + n * 2)). split; [lia|]. cbn [ex_waiting]. rewrite Nat.mod_add by discriminate. reflexivity.
  - intros t. exists (Z.to_nat t). intros m L. cbn [fst]. lia.
  - intros [|m]; cbn [ex_waiting drop_of ex_call]; [intros []|]. destruct (m mod 2); intros [].
  - vm_compute. discriminate.
  - assert (Q : forall n, t_sys (upto 1000 true 5 ex_mute (tsys_new 1 5) (3 + n)) = t_sys (upto 1000 true 5 ex_mute (tsys_new 1 5) 3)).
    { induction n as [|n IH]; [reflexivity|]. rewrite Nat.add_succ_r, upto_S, tnext_sys. unfold before. change (ex_mute (3 + n)) with (Z.of_nat (3 + n), match (2 + n) mod 2 with 0 => LPool (Z.of_nat (2 + n)) (Ready tt) | _ => LPoll 0 ex_silent end).
      cbn [fst snd]. rewrite IH. generalize (t_due (upto 1000 true 5 ex_mute (tsys_new 1 5) (3 + n))) (Z.of_nat (3 + n)) (Z.of_nat (2 + n)). intros due t t'. destruct ((2 + n) mod 2); vm_compute; reflexivity. }
    intros [|[|[|n]]]; [vm_compute; tauto..|]. change (then_ 1000 true 5 (fun m => (Z.of_nat m, ex_waiting m)) (S (S (S n))) (tsys_new 1 5)) with (t_sys (upto 1000 true 5 ex_mute (tsys_new 1 5) (3 + n))). rewrite Q. vm_compute. tauto.
Qed.
Print Assumptions C78_whole_call_refuted.

(** A server that never takes the connection: the call is given up at the first poll five ticks after it was handed the connection. *)
Definition ex_stuck (m : nat) : Z * plabel :=
  (Z.of_nat m, match m with 0 => ex_call ex_a | S m => match m mod 2 with 0 => LPool (Z.of_nat m) Never | _ => LPoll 0 ex_wire end end).
Example C78_case : let F := ex_float in let U := ex_url in let now n := state_of 0 (then_ 1000 true 5 ex_stuck n (tsys_new 1 5)) in
  again pool_turn (fun n => snd (ex_stuck n)) /\ again (poll_of 0) (fun n => snd (ex_stuck n)) /\ passing ex_stuck /\ own_answered 0 ex_stuck /\
  now 1 = Some (Acquiring None) /\ now 2 = Some (Acquiring (Some (PConnect Never))) /\ now 6 = Some (Acquiring (Some (PConnect Never))) /\
  ex_stuck 6 = (6%Z, LPoll 0 ex_wire) /\ now 7 = Some (Broken Other) /\ seen 1000 true 5 ex_stuck 7 (tsys_new 1 5) = [EBlacklist 0 ex_a].
Proof.
  cbv zeta. split; [|split; [|split; [|split]]].
  - intros n. exists (S (n * 2)). split; [lia|]. cbn [ex_stuck snd]. rewrite Nat.mod_mul by discriminate. exact I.
  - intros n. exists (S (1 + n * 2)). split; [lia|]. cbn [ex_stuck snd]. rewrite Nat.mod_add by discriminate. reflexivity.
  - intros t. exists (Z.to_nat t). intros m L. cbn [ex_stuck fst]. lia.
  - intros n w E. unfold ex_stuck in E. cbn [snd] in E. destruct n as [|m]; [discriminate|]. destruct (m mod 2); [discriminate|]. injection E as <-. split; [|split]; intros; discriminate.
  - vm_compute. repeat split.
Qed.
