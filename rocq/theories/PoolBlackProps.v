(** * Property C81: which addresses the pool keeps as suspended. *)
From Verif Require Import Base Decimal Serde Procedure Router SerRequest DeHeader DeResponse DepUrl Error Client ClientSpec ClientProofs Pool PoolSpec PoolProofs PoolSystem PoolSystemSpec PoolSystemProofs PoolSystemInv PoolSystemReport PoolBlackSpec PoolBlack Exhibit PathProps RequestProps ClientProps PoolProps PoolSystemProps.
Open Scope N_scope.

Lemma bounded {C} tmax checks size d (h : list (Z * command C)) xs p known : run tmax checks h (pool_new size d) = Ok (xs, p) -> incl (reported h) known -> (length (p_black p) <= length known)%nat.
Proof.
  intros E I. rewrite <- (map_length fst). apply NoDup_incl_length; [exact (proj1 (black_exact tmax checks size d h xs p E))|]. intros a Ia. apply I. exact (black_bound tmax checks size d h xs p E a Ia).
Qed.

Section Lemmas.
Context {F : floatlib} {U : urlenv}.
Variables (tmax : Z) (checks : bool).
Lemma sent_reports a lg : forall n, In (AddToBlacklist a) (sent n lg) -> In a (reports (concat (map snd lg))).
Proof.
  assert (S : forall t, In (AddToBlacklist a) (flat_map says t) -> In a (reports t)).
  { intros t I. apply in_flat_map in I. destruct I as (e & Ie & I). apply in_flat_map. exists e. split; [exact Ie|]. destruct e; try contradiction; destruct I as [[=]|[]]. subst. left. reflexivity. }
  unfold reports in *. induction lg as [|[l t] lg IH]; intros n I; [destruct I|]. cbn [map concat snd]. rewrite flat_map_app. apply in_or_app.
  destruct l; cbn [sent] in I; try (apply in_app_or in I; destruct I as [I|I]; [left; apply S, I | right; apply (IH n I)]). destruct I as [[=]|I]. right. apply (IH _ I).
Qed.
Lemma calls_black size d ls s tr p : prun tmax checks ls (psys_new size d) = (s, tr) -> s_pool s = Some p -> incl (map fst (p_black p)) (reports tr) /\ NoDup (map fst (p_black p)).
Proof.
  intros E Ep. destruct (in_order tmax checks size d ls s tr p E Ep) as (_ & _ & xs & Er). split; [|exact (proj1 (black_exact _ _ _ _ _ _ _ Er))]. intros a I. apply (black_bound _ _ _ _ _ _ _ Er) in I.
  unfold reported in I. apply in_flat_map in I. destruct I as ([n c] & Ic & I). cbn [snd] in I. destruct c; try contradiction. destruct I as [<-|[]]. apply in_combine_r, sent_reports in Ic.
  pose proof (prun_log tmax checks ls (psys_new size d)) as Q. rewrite E in Q. cbn [snd] in Q. rewrite Q. exact Ic.
Qed.
Lemma calls_count size d ls s tr p : prun tmax checks ls (psys_new size d) = (s, tr) -> s_pool s = Some p ->
  (forall a t, In (a, t) (p_black p) -> exists i k, In (EBlacklist i a) tr /\ state_of i s = Some (Broken k)) /\ (length (p_black p) <= length (reports tr))%nat.
Proof.
  intros E Ep. destruct (calls_black size d ls s tr p E Ep) as [I Nd]. split; [|rewrite <- (map_length fst); apply NoDup_incl_length; assumption].
  intros a t Ia. apply (in_map fst) in Ia. cbn [fst] in Ia. apply I in Ia. apply in_flat_map in Ia. destruct Ia as (e & Ie & Ia). destruct e as [| | |i b]; try contradiction. destruct Ia as [<-|[]]. exists i.
  destruct (reported_once tmax checks ls size d s tr i b E Ie) as (_ & k & Es). exists k. auto.
Qed.
End Lemmas.

(** An address is kept, with the end of its suspension, exactly if its last report was followed by no request for it at or
    after that end: whatever else happened, and however long ago. *)
Theorem C81_exact {C} tmax checks size d (h : list (Z * command C)) xs p : run tmax checks h (pool_new size d) = Ok (xs, p) ->
  NoDup (map fst (p_black p)) /\ forall a t, In (a, t) (p_black p) <-> exists past n mid, h = past ++ (n, AddToBlacklist a) :: mid /\ t = (n + d)%Z /\ Forall (quiet a t) mid.
Proof. exact (black_exact tmax checks size d h xs p). Qed.
Print Assumptions C81_exact.

(** So there are no more than different addresses were reported. *)
Theorem C81_bounded {C} tmax checks size d (h : list (Z * command C)) xs p known : run tmax checks h (pool_new size d) = Ok (xs, p) -> incl (reported h) known -> (length (p_black p) <= length known)%nat.
Proof. exact (bounded tmax checks size d h xs p known). Qed.
Print Assumptions C81_bounded.

(** Nor more than calls of the pool failed to connect; for each there is one that failed to connect to it. *)
Theorem C81_from_failed_calls (F : floatlib) (U : urlenv) tmax checks size d ls s tr p : prun tmax checks ls (psys_new size d) = (s, tr) -> s_pool s = Some p ->
  (forall a t, In (a, t) (p_black p) -> exists i k, In (EBlacklist i a) tr /\ state_of i s = Some (Broken k)) /\ (length (p_black p) <= length (reports tr))%nat.
Proof. exact (calls_count tmax checks size d ls s tr p). Qed.
Print Assumptions C81_from_failed_calls.

(** ** That addresses are forgotten when their suspension is over *)
Definition v4 (k : nat) : saddr := AddrV4 (N.of_nat k) 80.
Definition many (n : nat) : list (Z * command nat) := map (fun k => (0, AddToBlacklist (v4 k))%Z) (seq 0 n).
Definition others (n : nat) : list (Z * command nat) := map (fun k => (Z.of_nat k, AcquireConnection (AddrV6 1 80 0 0) k)) (seq 0 n).
Lemma many_reported n : reported (many n) = map v4 (seq 0 n).
Proof. unfold reported, many. induction (seq 0 n) as [|k l IH]; [reflexivity|]. cbn [map flat_map snd app]. f_equal. exact IH. Qed.
Lemma others_reported n : reported (others n) = [].
Proof. unfold reported, others. induction (seq 0 n) as [|k l IH]; [reflexivity|]. cbn [map flat_map snd app]. exact IH. Qed.
Lemma many_run n m : exists xs p, run 100 true (many n ++ others m) (pool_new 3 10) = Ok (xs, p) /\ length (p_black p) = n.
Proof.
  assert (R : releases (many n ++ others m) <= 2 ^ 64 - 1).
  { unfold releases. replace (filter is_release (many n ++ others m)) with (@nil (Z * command nat)); [cbn; lia|]. rewrite filter_app. unfold many, others.
    replace (filter _ (map _ (seq 0 n))) with (@nil (Z * command nat)) by (induction (seq 0 n) as [|k l IH]; [reflexivity | exact IH]). induction (seq 0 m) as [|k l IH]; [reflexivity | exact IH]. }
  assert (Rp : representable 100 10 (many n ++ others m)).
  { intros now a I. apply in_app_or in I. unfold many, others in I. destruct I as [I|I]; apply in_map_iff in I; destruct I as (k & [=] & _). lia. }
  destruct (pool_refines 100 true 3 10 _ R Rp) as (p & E & _). exists (fst (spec_run take 3 10 [] (many n ++ others m) [])), p. split; [exact E|].
  apply Nat.le_antisymm.
  - rewrite <- (seq_length n 0), <- (map_length v4). apply (bounded 100 true 3 10 _ _ p _ E). unfold reported. rewrite flat_map_app. fold (reported (many n)) (reported (others m)). rewrite many_reported, others_reported, app_nil_r. apply incl_refl.
  - rewrite <- (seq_length n 0) at 1. rewrite <- (map_length v4), <- (map_length fst (p_black p)). apply NoDup_incl_length.
    + apply FinFun.Injective_map_NoDup; [|apply seq_NoDup]. intros x y [= Exy]. lia.
    + intros a I. apply in_map_iff in I. destruct I as (k & <- & Ik). apply in_seq in Ik. apply in_map_iff. exists (v4 k, 10%Z). split; [reflexivity|]. apply (black_exact 100 true 3 10 _ _ p E).
      exists (many k), 0%Z, (map (fun j => (0, AddToBlacklist (v4 j))%Z) (seq (S k) (n - S k)) ++ others m). split; [|split; [reflexivity|]].
      * unfold many. replace n with (k + S (n - S k))%nat at 1 by lia. rewrite seq_app, map_app, <- !app_assoc. cbn [seq map Nat.add app]. reflexivity.
      * apply Forall_app. split; apply Forall_forall; intros x Ix; apply in_map_iff in Ix; destruct Ix as (j & <- & Ij); left; cbn [snd address v4]; [|discriminate]. apply in_seq in Ij. intros [= Ex]. lia.
Qed.

(** For every number of addresses and every time [t] there is a history that reports this many, all at first, and then goes on
    with other addresses for so long after their suspensions are over, with all of them kept to the end: there is no bound but the number of addresses. *)
Theorem C81_forgotten_refuted : exists (tmax : Z) checks size d, forall n m, (N.of_nat n <= 2 ^ 32) -> exists (h : list (Z * command nat)) xs p, run tmax checks (h ++ others m) (pool_new size d) = Ok (xs, p) /\
  Forall (fun x => fst x = 0%Z) h /\ length (p_black p) = n /\ Forall (fun x => snd x <= d)%Z (p_black p).
Proof.
  exists 100%Z, true, 3, 10%Z. intros n m _. destruct (many_run n m) as (xs & p & E & L). exists (many n), xs, p. split; [exact E|]. split; [apply Forall_forall; intros x Ix; apply in_map_iff in Ix; destruct Ix as (k & <- & _); reflexivity|].
  split; [exact L|]. apply Forall_forall. intros [a t] I. apply (black_exact 100 true 3 10 _ xs p E) in I. destruct I as (past & k & mid & Eh & -> & _). cbn [snd].
  assert (I : In (k, AddToBlacklist a) (many n ++ others m)) by (rewrite Eh; apply in_or_app; right; left; reflexivity). apply in_app_or in I. unfold many, others in I.
  destruct I as [I|I]; apply in_map_iff in I; destruct I as (j & [=] & _). lia.
Qed.
Print Assumptions C81_forgotten_refuted.

(** ** A case *)
(** Two addresses reported at time 0; a request at 5 leaves the first, one at 20 makes the pool forget it; the second is still there. *)
Example C81_case : let h := [(0, AddToBlacklist ex_a); (0, AddToBlacklist ex_b); (5, AcquireConnection ex_a 0%nat)]%Z in
  match run 100 true (h : list (Z * command nat)) (pool_new 3 10), run 100 true (h ++ [(20, AcquireConnection ex_a 1%nat)])%Z (pool_new 3 10) with
  | Ok (xs, p), Ok (ys, q) => (xs = [(0%nat, Suspended 10)] /\ length (p_black p) = 2%nat /\ ys = [(0%nat, Suspended 10); (1%nat, Connect)] /\ p_black q = [(ex_b, 10%Z)])%type
  | _, _ => False
  end.
Proof. vm_compute. repeat split. Qed.
(** In [ex_first], call 3 fails to connect and its address is kept. *)
Example C81_case_calls : let U := ex_url in let F := ex_float in let '(s, tr) := prun 100 true ex_first (psys_new 3 10) in
  (reports tr = [ex_b] /\ match s_pool s with Some p => p_black p = [(ex_b, 16%Z)] | None => False end)%type.
Proof. vm_compute. repeat split. Qed.
