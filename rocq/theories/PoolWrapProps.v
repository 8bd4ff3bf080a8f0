(** * Property C63: the pool when more connections come back to it than its counter can number. *)
From Coq Require Import Sorting.Permutation.
From Verif Require Import Base Pool PoolSpec PoolProofs PoolProps PoolWrapSpec PoolWrap.
Open Scope N_scope.

(** The counter is the number of releases modulo 2^64, with or without overflow checks. *)
Theorem C63_counter {C} tmax checks size d (h : list (Z * command C)) xs p :
  run tmax checks h (pool_new size d) = Ok (xs, p) -> p_seq p = releases h mod 2 ^ 64.
Proof. exact (counter_wraps tmax checks size d h xs p). Qed.
Print Assumptions C63_counter.

(** Without overflow checks a time that cannot be represented is the only cause of a panic. *)
Theorem C63_without_overflow_checks {C} tmax size d (h : list (Z * command C)) :
  (run tmax false h (pool_new size d) = Panic <-> exists now a, In (now, AddToBlacklist a) h /\ (tmax < now + d)%Z) /\
  (forall e, run tmax false h (pool_new size d) <> Err e) /\ run tmax false h (pool_new size d) <> Diverge.
Proof. exact (panics_unchecked tmax size d h). Qed.
Print Assumptions C63_without_overflow_checks.

(** Every connection given to the pool is handed out at most once, and only to a call for its IP address and port. *)
Theorem C63_handed_out_once {C} tmax checks size d (h : list (Z * command C)) xs p : run tmax checks h (pool_new size d) = Ok (xs, p) ->
  exists lost, Permutation (map at_endpoint (given h)) (map at_endpoint (handed h xs) ++ map at_endpoint (kept p) ++ lost).
Proof. exact (kept_by_endpoint tmax checks size d h xs p). Qed.
Print Assumptions C63_handed_out_once.

(** If no two addresses differ only in scope or flow label, only to a call for its very address. *)
Theorem C63_handed_out_to_its_address {C} tmax checks size d (h : list (Z * command C)) xs p : unaliased h ->
  run tmax checks h (pool_new size d) = Ok (xs, p) -> exists lost, Permutation (given h) (handed h xs ++ kept p ++ lost).
Proof. exact (kept_by_address tmax checks size d h xs p). Qed.
Print Assumptions C63_handed_out_to_its_address.

(** Four connections given, three handed out, one lost for want of room; a smaller part of it leaves two. *)
Example C63_case : exists xs p, run 100 false ex_hist (pool_new 3 10) = Ok (xs, p) /\ unaliased ex_hist /\ releases ex_hist = 4 /\ p_seq p = 4 /\
  given ex_hist = [(ex_a, 10); (ex_b, 11); (ex_a, 12); (ex_a, 13)]%nat /\ handed ex_hist xs = [(ex_a, 12); (ex_a, 13); (ex_b, 11)]%nat /\ kept p = [].
Proof.
  eexists _, _. split; [vm_compute; reflexivity|]. split; [exact (proj2 (proj2 ex_hist_fits))|]. repeat split.
Qed.
Example C63_case_kept : exists xs p, run 100 false (firstn 9 ex_hist) (pool_new 3 10) = Ok (xs, p) /\
  handed (firstn 9 ex_hist) xs = [(ex_a, 12); (ex_a, 13)]%nat /\ kept p = [(ex_b, 11)]%nat.
Proof. eexists _, _. split; [vm_compute; reflexivity|]. split; reflexivity. Qed.

(** ** Once round *)
(** A connection to [ex_6'] stays idle while others come and go. *)
Definition ex_around : list (Z * command nat) := [(2%Z, ReleaseConnection ex_a 0%nat); (2%Z, AcquireConnection ex_a 0%nat)].
Definition ex_sits (s : N) : pool nat := mkPool 10 [(mkCid ex_6' 0, 10%nat)] [(0, ex_6')] s [] 10.
Fixpoint ex_rounds (n : nat) : list (Z * command nat) := match n with O => [] | S n => ex_around ++ ex_rounds n end.
Definition ex_long (n : nat) : list (Z * command nat) := (1%Z, ReleaseConnection ex_6' 10%nat) :: ex_rounds n ++ [(3%Z, ReleaseConnection ex_6 11%nat)].

Lemma ex_around_runs s n : 0 < s -> next_seq false s = Ok n -> run 100 false ex_around (ex_sits s) = Ok ([(0%nat, Idle 0%nat)], ex_sits n).
Proof.
  intros Hs En. destruct s as [|s]; [discriminate|]. unfold ex_around, ex_sits.
  cbn [run handle_command]. unfold release_connection. cbn [p_seq]. rewrite En. cbn. change (10 <? 2) with false. cbn. unfold acquire_connection. cbn. unfold cid_cmp. cbn. rewrite Pos.compare_refl. reflexivity.
Qed.
Lemma ex_rounds_run n : forall s, 0 < s -> s + N.of_nat n <= 2 ^ 64 -> exists xs,
  run 100 false (ex_rounds n) (ex_sits s) = Ok (xs, ex_sits ((s + N.of_nat n) mod 2 ^ 64)) \/ s = 2 ^ 64 /\ n = O.
Proof.
  induction n as [|n IH]; intros s Hs Hn; cbn [ex_rounds].
  - exists []. destruct (N.eq_dec s (2 ^ 64)) as [->|Ne]; [right; auto|]. left. cbn [run]. rewrite N.add_0_r, N.mod_small by (cbn [N.of_nat] in Hn; lia). reflexivity.
  - destruct (N.eq_dec s u64_max) as [->|Ne].
    + assert (n = O) as -> by (unfold u64_max in Hn; lia). exists [(0%nat, Idle 0%nat)]. left. cbn [ex_rounds]. rewrite app_nil_r. exact (ex_around_runs u64_max 0 ltac:(reflexivity) ltac:(reflexivity)).
    + assert (Ls : s < u64_max) by (unfold u64_max in *; lia).
      assert (En : next_seq false s = Ok (s + 1)) by (unfold next_seq; apply N.ltb_lt in Ls; rewrite Ls; reflexivity).
      destruct (IH (s + 1) ltac:(lia) ltac:(lia)) as (xs & [E|[E _]]); [|unfold u64_max in Ls; lia].
      exists ((0%nat, Idle 0%nat) :: xs). left. rewrite run_app, (ex_around_runs s (s + 1) Hs En). cbn [bind]. replace (s + N.of_nat (S n)) with (s + 1 + N.of_nat n) by lia. rewrite E. reflexivity.
Qed.
Lemma ex_rounds_releases n : forall now a c, In (now, ReleaseConnection a c) (ex_rounds n) -> a = ex_a.
Proof.
  induction n as [|n IH]; cbn [ex_rounds]; intros now a c I; [destruct I|].
  apply in_app_or in I. destruct I as [[[= <- <- <-]|[I|[]]]|I]; [reflexivity | discriminate | exact (IH _ _ _ I)].
Qed.

(** Exactly the address is no longer certain then: a connection to another scope is handed out. *)
Theorem C63_its_address_refuted : exists (h : list (Z * command nat)) xs p a i c now,
  run 100 false (h ++ [(now, AcquireConnection a i)]) (pool_new 10 10) = Ok (xs ++ [(i, Idle c)], p) /\ forall now', ~ In (now', ReleaseConnection a c) h.
Proof.
  destruct (ex_rounds_run (N.to_nat (2 ^ 64 - 1)) 1 ltac:(reflexivity)) as (xs & [E|[E _]]); [rewrite N2Nat.id; discriminate | | discriminate E].
  rewrite N2Nat.id in E. change ((1 + (2 ^ 64 - 1)) mod 2 ^ 64) with 0 in E. revert E. generalize (N.to_nat (2 ^ 64 - 1)). intros n E.
  exists (ex_long n), xs. eexists. exists ex_6', 1%nat, 11%nat, 4%Z. split.
  - unfold ex_long. change ((1%Z, ReleaseConnection ex_6' 10%nat) :: ex_rounds n ++ [(3%Z, ReleaseConnection ex_6 11%nat)]) with ([(1%Z, ReleaseConnection ex_6' 10%nat)] ++ ex_rounds n ++ [(3%Z, ReleaseConnection ex_6 11%nat)]).
    rewrite !run_app. change (run 100 false [(1%Z, ReleaseConnection ex_6' 10%nat)] (pool_new 10 10)) with (Ok (@nil (nat * answer nat), ex_sits 1)). cbn [bind]. rewrite run_app, E. cbn [bind].
    change (run 100 false [(3%Z, ReleaseConnection ex_6 11%nat)] (ex_sits 0)) with (Ok (@nil (nat * answer nat), mkPool 10 [(mkCid ex_6' 0, 11%nat)] [(0, ex_6)] 1 [] 10)).
    cbn [bind app]. rewrite app_nil_r. reflexivity.
  - intros now' [I|I]; [discriminate|]. apply in_app_or in I. destruct I as [I|[I|[]]]; [|discriminate]. apply ex_rounds_releases in I. discriminate.
Qed.
Print Assumptions C63_its_address_refuted.
