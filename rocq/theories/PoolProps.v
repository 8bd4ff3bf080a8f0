(** * Properties C33, C34, C37, C39 and C40: the pool. *)
From Coq Require Import Sorting.Permutation.
From Verif Require Import Base Pool PoolSpec PoolProofs.
Open Scope N_scope.

(** The cases use numbered connections and these addresses; [ex_6] and [ex_6'] differ only in the scope. *)
Definition ex_a : saddr := AddrV4 2130706433 80.
Definition ex_b : saddr := AddrV4 2130706433 81.
Definition ex_6 : saddr := AddrV6 1 80 0 0.
Definition ex_6' : saddr := AddrV6 1 80 0 2.
Definition ex_hist : list (Z * command nat) :=
  [(1, ReleaseConnection ex_a 10%nat); (2, ReleaseConnection ex_b 11%nat); (3, ReleaseConnection ex_a 12%nat); (4, ReleaseConnection ex_a 13%nat);
   (5, AddToBlacklist ex_b); (6, AcquireConnection ex_b 0); (6, AcquireConnection ex_a 1); (4, AcquireConnection ex_a 2); (7, AcquireConnection ex_a 3);
   (15, AcquireConnection ex_b 4); (16, AcquireConnection ex_b 5)]%Z.

(** ** C33 *)
Theorem C33_pool_size_bound {C} tmax checks size d (h : list (Z * command C)) xs p :
  run tmax checks h (pool_new size d) = Ok (xs, p) -> N.of_nat (length (p_conns p)) <= size.
Proof. intros E. destruct (run_bound tmax checks h (pool_new size d) xs p (N.le_0_l size) E) as [B S]. rewrite S in B. exact B. Qed.
Print Assumptions C33_pool_size_bound.

(** Three connections released to a pool of size 2, and a pool of size 0: *)
Example C33_case : exists p, run 100 true (firstn 4 ex_hist) (pool_new 2 10) = Ok ([], p) /\ length (p_conns p) = 2%nat.
Proof. eexists. split; vm_compute; reflexivity. Qed.
Example C33_case_zero : exists p, run 100 true (firstn 4 ex_hist) (pool_new 0 10) = Ok ([], p) /\ p_conns p = [].
Proof. eexists. split; vm_compute; reflexivity. Qed.

(** ** C34 *)
Theorem C34_pool_is_a_queue {C} tmax checks size d (h : list (Z * command C)) :
  releases h <= 2 ^ 64 - 1 -> representable tmax d h -> unaliased h -> exists p,
    run tmax checks h (pool_new size d) = Ok (fst (spec_run take_exact size d [] h []), p) /\
    Permutation (map (fun x => (id_addr (fst x), snd x)) (p_conns p)) (snd (spec_run take_exact size d [] h [])).
Proof. exact (pool_refines_exact tmax checks size d h). Qed.
Print Assumptions C34_pool_is_a_queue.

(** The same without a condition on the addresses. *)
Theorem C34_pool_is_a_queue_per_endpoint {C} tmax checks size d (h : list (Z * command C)) :
  releases h <= 2 ^ 64 - 1 -> representable tmax d h -> exists p,
    run tmax checks h (pool_new size d) = Ok (fst (spec_run take size d [] h []), p) /\
    Permutation (map (fun x => (id_addr (fst x), snd x)) (p_conns p)) (snd (spec_run take size d [] h [])).
Proof. exact (pool_refines tmax checks size d h). Qed.
Print Assumptions C34_pool_is_a_queue_per_endpoint.

(** What the queue hands out. *)
Theorem C34_oldest_first {C} a (l : list (saddr * C)) c l' : take_exact a l = (Some c, l') <->
  exists l1 l2, l = l1 ++ (a, c) :: l2 /\ l' = l1 ++ l2 /\ forall c', ~ In (a, c') l1.
Proof. exact (take_exact_oldest a l c l'). Qed.
Print Assumptions C34_oldest_first.
Theorem C34_connect_iff_none_idle {C} a (l l' : list (saddr * C)) : take_exact a l = (None, l') <-> l' = l /\ forall c, ~ In (a, c) l.
Proof. exact (take_exact_none a l l'). Qed.
Print Assumptions C34_connect_iff_none_idle.

Lemma ex_hist_fits : releases ex_hist <= 2 ^ 64 - 1 /\ representable 100 10 ex_hist /\ unaliased ex_hist.
Proof.
  split; [vm_compute; discriminate|]. split.
  - intros now a I. unfold ex_hist in I. cbn [In] in I. repeat (destruct I as [[= <- <-]|I] || destruct I as [[=]|I]); [vm_compute; discriminate | destruct I].
  - assert (A : forall x, In x ex_hist -> address (snd x) = ex_a \/ address (snd x) = ex_b).
    { apply Forall_forall. unfold ex_hist. repeat (apply Forall_cons; [cbn; auto|]). apply Forall_nil. }
    intros x y Ix Iy. destruct (A x Ix) as [-> | ->], (A y Iy) as [-> | ->]; intros E; try reflexivity; vm_compute in E; discriminate.
Qed.
(** With room for 3 of the 4 connections, the oldest one (10) is gone; [ex_b] is suspended until 15. *)
Example C34_case : (exists p, run 100 true ex_hist (pool_new 3 10) =
    Ok ([(0, Suspended 15); (1, Idle 12); (2, Idle 13); (3, Connect); (4, Idle 11); (5, Connect)]%nat, p)) /\
  fst (spec_run take_exact 3 10 [] ex_hist []) = [(0, Suspended 15); (1, Idle 12); (2, Idle 13); (3, Connect); (4, Idle 11); (5, Connect)]%nat /\
  releases ex_hist <= 2 ^ 64 - 1 /\ representable 100 10 ex_hist /\ unaliased ex_hist.
Proof. split; [eexists; vm_compute; reflexivity|]. split; [vm_compute; reflexivity | exact ex_hist_fits]. Qed.
Example C34_case_taken : take_exact ex_a [(ex_b, 1%nat); (ex_a, 2%nat); (ex_a, 3%nat)] = (Some 2%nat, [(ex_b, 1%nat); (ex_a, 3%nat)]) /\
  take_exact ex_6 [(ex_b, 1%nat); (ex_a, 2%nat)] = (None, [(ex_b, 1%nat); (ex_a, 2%nat)]).
Proof. split; reflexivity. Qed.

(** ** C37 *)
Theorem C37_suspended {C} tmax checks size d (past : list (Z * command C)) t a mid now i : let h := past ++ (t, AddToBlacklist a) :: mid in
  releases h <= 2 ^ 64 - 1 -> representable tmax d h -> Forall (quiet a (t + d)) mid -> (now < t + d)%Z -> exists xs p p',
    run tmax checks h (pool_new size d) = Ok (xs, p) /\
    run tmax checks (h ++ [(now, AcquireConnection a i)]) (pool_new size d) = Ok (xs ++ [(i, Suspended (t + d))], p') /\
    p_conns p' = p_conns p /\ p_lru p' = p_lru p.
Proof. exact (suspended tmax checks size d past t a mid now i). Qed.
Print Assumptions C37_suspended.

Theorem C37_served_again {C} tmax checks size d (past : list (Z * command C)) t a mid now i : let h := past ++ (t, AddToBlacklist a) :: mid in
  releases h <= 2 ^ 64 - 1 -> representable tmax d h -> Forall (quiet a (t + d)) mid -> (t + d <= now)%Z -> exists xs an p,
    run tmax checks (h ++ [(now, AcquireConnection a i)]) (pool_new size d) = Ok (xs ++ [(i, an)], p) /\ forall u, an <> Suspended u.
Proof. exact (served_again tmax checks size d past t a mid now i). Qed.
Print Assumptions C37_served_again.

(** Only a recorded failure of that very address makes it suspended, and only until that failure's time plus the duration. *)
Theorem C37_suspended_only_after_failure {C} tmax checks size d (h : list (Z * command C)) now a i xs t p :
  releases h <= 2 ^ 64 - 1 -> representable tmax d h ->
  run tmax checks (h ++ [(now, AcquireConnection a i)]) (pool_new size d) = Ok (xs ++ [(i, Suspended t)], p) ->
  (now < t)%Z /\ exists past n mid, h = past ++ (n, AddToBlacklist a) :: mid /\ t = (n + d)%Z /\ Forall (quiet a t) mid.
Proof. exact (suspended_only tmax checks size d h now a i xs t p). Qed.
Print Assumptions C37_suspended_only_after_failure.

(** [ex_hist] up to its acquisitions of [ex_b] at 6 and at 15. *)
Example C37_case : let mid := [(6, AcquireConnection ex_b 0%nat); (6, AcquireConnection ex_a 1%nat); (4, AcquireConnection ex_a 2%nat); (7, AcquireConnection ex_a 3%nat)]%Z in
  firstn 9 ex_hist = firstn 4 ex_hist ++ (5%Z, AddToBlacklist ex_b) :: mid /\ Forall (quiet ex_b (5 + 10)) mid /\
  releases (firstn 9 ex_hist) <= 2 ^ 64 - 1 /\ representable 100 10 (firstn 9 ex_hist) /\
  (exists xs p, run 100 true (firstn 9 ex_hist ++ [(14%Z, AcquireConnection ex_b 4%nat)]) (pool_new 3 10) = Ok (xs ++ [(4%nat, Suspended 15)], p)).
Proof.
  cbv zeta. split; [reflexivity|]. split; [|split; [vm_compute; discriminate|split]].
  - constructor; [right; reflexivity|]. repeat (constructor; [left; discriminate|]). constructor.
  - intros now a I. apply (proj1 (proj2 ex_hist_fits) now a). rewrite <- (firstn_skipn 9 ex_hist). apply in_or_app. left. exact I.
  - eexists [(0, Suspended 15); (1, Idle 12); (2, Idle 13); (3, Connect)]%nat, _. vm_compute. reflexivity.
Qed.

(** ** C39 *)
Theorem C39_panics_exactly_on_overflow {C} tmax checks size d (h : list (Z * command C)) : releases h <= 2 ^ 64 - 1 ->
  (run tmax checks h (pool_new size d) = Panic <-> exists now a, In (now, AddToBlacklist a) h /\ (tmax < now + d)%Z) /\
  (forall e, run tmax checks h (pool_new size d) <> Err e) /\ run tmax checks h (pool_new size d) <> Diverge.
Proof. exact (panics_iff tmax checks size d h). Qed.
Print Assumptions C39_panics_exactly_on_overflow.

(** With overflow checks, for any number of releases: the counter of releases is the only other cause. *)
Theorem C39_with_overflow_checks {C} tmax size d (h : list (Z * command C)) :
  (run tmax true h (pool_new size d) = Panic <-> (exists now a, In (now, AddToBlacklist a) h /\ (tmax < now + d)%Z) \/ 2 ^ 64 - 1 < releases h) /\
  (forall e, run tmax true h (pool_new size d) <> Err e) /\ run tmax true h (pool_new size d) <> Diverge.
Proof. exact (panics_checked tmax true size d h eq_refl). Qed.
Print Assumptions C39_with_overflow_checks.

(** A history with one release too many. *)
Example C39_counter_case : exists h : list (Z * command nat), 2 ^ 64 - 1 < releases h /\ run 100 true h (pool_new 1 10) = Panic.
Proof.
  assert (N : 2 ^ 64 - 1 < releases (repeat (0%Z, ReleaseConnection ex_a 0%nat) (N.to_nat (2 ^ 64 - 1 + 1)))).
  { assert (E : forall n, releases (repeat (0%Z, ReleaseConnection ex_a 0%nat) n) = N.of_nat n).
    { intros n. unfold releases. f_equal. induction n as [|n IH]; cbn [repeat filter is_release snd length]; congruence. }
    rewrite E, N2Nat.id. reflexivity. }
  exists (repeat (0%Z, ReleaseConnection ex_a 0%nat) (N.to_nat (2 ^ 64 - 1 + 1))). split; [exact N|].
  apply (proj2 (proj1 (C39_with_overflow_checks 100 1 10 _))). right. exact N.
Qed.

Example C39_case : run 14 true ex_hist (pool_new 3 10) = Panic /\ (exists x, run 15 true ex_hist (pool_new 3 10) = Ok x) /\ releases ex_hist <= 2 ^ 64 - 1.
Proof. split; [vm_compute; reflexivity|]. split; [eexists; vm_compute; reflexivity | vm_compute; discriminate]. Qed.

(** ** C40 *)
(** An idle connection to [ex_6] is passed over because an older one goes to [ex_6']. *)
Theorem C40_reuse_missed : exists (h : list (Z * command nat)) p p' a c xs,
  run 100 true h (pool_new 10 10) = Ok (xs, p) /\ In c (map snd (filter (fun x => saddr_eqb (id_addr (fst x)) a) (p_conns p))) /\
  run 100 true (h ++ [(3%Z, AcquireConnection a 0%nat)]) (pool_new 10 10) = Ok (xs ++ [(0%nat, Connect)], p').
Proof.
  exists [(1%Z, ReleaseConnection ex_6' 10%nat); (2%Z, ReleaseConnection ex_6 11%nat)]. eexists _, _, ex_6, 11%nat, [].
  split; [vm_compute; reflexivity|]. split; [left; reflexivity | vm_compute; reflexivity].
Qed.
Print Assumptions C40_reuse_missed.

(** Exactly when a new connection is made: none is idle, or an older one to an alias of the address is. *)
Theorem C40_missed_iff {C} a (l : list (saddr * C)) : fst (take a l) = None <->
  (forall c, ~ In (a, c) l) \/ exists l1 b c l2, l = l1 ++ (b, c) :: l2 /\ b <> a /\ same_endpoint b a = true /\ forall c', ~ In (a, c') l1.
Proof. exact (take_alias a l). Qed.
Print Assumptions C40_missed_iff.

Theorem C40_never_the_alias {C} tmax checks size d (h : list (Z * command C)) now a i xs c p : releases h <= 2 ^ 64 - 1 -> representable tmax d h ->
  run tmax checks (h ++ [(now, AcquireConnection a i)]) (pool_new size d) = Ok (xs ++ [(i, Idle c)], p) ->
  exists now', In (now', ReleaseConnection a c) h.
Proof. exact (idle_origin tmax checks size d h now a i xs c p). Qed.
Print Assumptions C40_never_the_alias.

Example C40_case : exists xs p, run 100 true (firstn 9 ex_hist ++ [(15%Z, AcquireConnection ex_b 4%nat)]) (pool_new 3 10) = Ok (xs ++ [(4%nat, Idle 11%nat)], p) /\
  In (2%Z, ReleaseConnection ex_b 11%nat) (firstn 9 ex_hist).
Proof. exists [(0, Suspended 15); (1, Idle 12); (2, Idle 13); (3, Connect)]%nat. eexists. split; [vm_compute; reflexivity|]. cbn; tauto. Qed.
