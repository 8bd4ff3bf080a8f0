(** * A pool that is gone, and calls that do not need it any more. *)
From Verif Require Import Base Serde Procedure Router SerRequest DeHeader DeResponse DepUrl Error Client ClientSpec ClientProofs Pool PoolSpec PoolProofs PoolSystem PoolSystemSpec PoolSystemProofs PoolSystemInv.
Open Scope N_scope.

Section Gone.
Context {F : floatlib} {U : urlenv}.
Variables (tmax : Z) (checks : bool).
Notation prun := (prun tmax checks).
Notation pstep := (pstep tmax checks).

(** ** The pool does not come back *)
Lemma step_gone l s s' t : s_pool s = None -> pstep l s = Some (s', t) -> s_pool s' = None.
Proof.
  intros G. destruct l as [addr p req|now f| |i w|i]; cbn [PoolSystem.pstep].
  - intros [= <- <-]. rewrite send_eq. exact G.
  - rewrite G. discriminate.
  - rewrite G. discriminate.
  - destruct (nth_error (s_calls s) i) as [pc|]; [|discriminate]. unfold poll_pooled.
    assert (I : forall c r s0, s_pool s0 = None -> s_pool (fst (inner_result i pc c r s0)) = None).
    { intros c [ts o] s0 G0. unfold inner_result. destruct o as [[k|v b c']|e| |]; try exact G0. cbn [fst]. rewrite send_eq. exact G0. }
    destruct (c_state pc) as [a|c k| | | |]; try discriminate.
    + destruct (acquire_poll i a s) as [c [|]|e b|a'].
      * pose proof (I c (poll_call w (c_proc pc) (call_new (c_req pc) (Ready c))) (mkPsys (s_pool s) (s_queue s) (s_calls s) (s_opened s ++ [c_addr pc])) G) as Q. cbv zeta.
        destruct (inner_result i pc c _ _) as [s1 t1]. intros [= <- <-]. exact Q.
      * pose proof (I c (poll_call w (c_proc pc) (call_new (c_req pc) (Ready c))) s G) as Q. destruct (inner_result i pc c _ _) as [s1 t1]. intros [= <- <-]. exact Q.
      * destruct b; intros [= <- <-]; [rewrite send_eq|]; exact G.
      * intros [= <- <-]. exact G.
    + pose proof (I c (poll_call w (c_proc pc) k) s G) as Q. destruct (inner_result i pc c _ _) as [s1 t1]. intros [= <- <-]. exact Q.
  - destruct (nth_error (s_calls s) i) as [pc|]; [|discriminate]. destruct (c_state pc); try discriminate; intros [= <- <-]; exact G.
Qed.
Theorem run_gone ls : forall s, s_pool s = None -> s_pool (fst (prun ls s)) = None.
Proof.
  induction ls as [|l ls IH]; intros s G; cbn [PoolSystem.prun]; [exact G|]. destruct (pstep l s) as [[s1 t]|] eqn:E; [|auto].
  specialize (IH s1 (step_gone _ _ _ _ G E)). destruct (prun ls s1). exact IH.
Qed.

(** ** Waiting calls *)
Theorem waiting_fails s tr i w : invA s tr -> s_pool s = None -> state_of i s = Some (Acquiring None) -> exists s',
  pstep (LPoll i w) s = Some (s', []) /\ state_of i s' = Some (Broken Other) /\ s_pool s' = None /\ (forall j, j <> i -> state_of j s' = state_of j s).
Proof.
  intros Iv G Es. cbn [PoolSystem.pstep]. pose proof Es as Es'. unfold state_of in Es'. destruct (nth_error (s_calls s) i) as [pc|] eqn:En; [|discriminate]. cbn [option_map] in Es'. injection Es' as Ec.
  unfold poll_pooled. rewrite Ec. cbn [acquire_poll]. rewrite (a_gone _ _ Iv G). cbn [pending existsb]. eexists. split; [reflexivity|]. rewrite put_moved. split; [|split; [exact G|]].
  - rewrite moved_state, Nat.eqb_refl, En. reflexivity.
  - intros j N. rewrite moved_state. destruct (Nat.eqb_spec i j); congruence.
Qed.

(** Handling what is queued answers every waiting call, or the pool is gone. *)
Definition turns (xs : list (Z * fut unit)) : list plabel := map (fun x => LPool (fst x) (snd x)) xs.
Lemma pool_turn now f s s' t : pstep (LPool now f) s = Some (s', t) -> (exists p c q o p', s_pool s = Some p /\ s_queue s = c :: q /\ handle_command tmax checks now c p = Ok (o, p') /\ s' = after_command s p' q o f) \/ s' = pool_gone s.
Proof.
  cbn [PoolSystem.pstep]. destruct (s_pool s) as [p|]; [|discriminate]. destruct (s_queue s) as [|c q]; [discriminate|].
  destruct (handle_command tmax checks now c p) as [[o p']|e| |] eqn:E; intros [= <- <-]; auto. left. exists p, c, q, o, p'. auto.
Qed.
Lemma after_command_queue s p' q o f : s_queue (after_command s p' q o f) = q.
Proof. unfold after_command. destruct o as [[j a]|]; [|reflexivity]. destruct (reply_cases j (to_pooled a f) (mkPsys (Some p') q (s_calls s) (s_opened s))) as [->|[_ ->]]; reflexivity. Qed.
Lemma not_pending s tr i : invA s tr -> s_pool s <> None -> pending i (s_queue s) = false -> state_of i s <> Some (Acquiring None).
Proof. intros Iv G P E. rewrite (a_wait _ _ Iv i G E) in P. discriminate. Qed.
Theorem turns_answer xs : forall s tr, invA s tr -> length xs = length (s_queue s) ->
  let s' := fst (prun (turns xs) s) in s_pool s' = None \/ s_queue s' = [] /\ forall i, state_of i s' <> Some (Acquiring None).
Proof.
  induction xs as [|[now f] xs IH]; intros s tr Iv L; cbn [turns map PoolSystem.prun].
  - cbn [fst]. destruct (s_pool s) eqn:G; [|auto]. destruct (s_queue s) eqn:Eq; [|discriminate]. right. split; [reflexivity|]. intros i. apply (not_pending s tr i Iv); [congruence | rewrite Eq; reflexivity].
  - destruct (pstep (LPool now f) s) as [[s1 t]|] eqn:E.
    + assert (Iv1 : invA s1 (tr ++ t)) by (apply (invA_step tmax checks s s1 t tr Iv), (effect_coarse tmax checks s (LPool now f)), (step_effect tmax checks (LPool now f) s s1 t (a_keeps _ _ Iv) I E)).
      destruct (pool_turn _ _ _ _ _ E) as [(p & c & q & o & p' & Ep & Eq & Eh & Es)|Es].
      * assert (L1 : length xs = length (s_queue s1)) by (rewrite Es; rewrite after_command_queue; rewrite Eq in L; cbn in L; lia).
        specialize (IH s1 (tr ++ t) Iv1 L1). cbn [fst snd]. rewrite E. unfold turns in IH. destruct (prun (map _ xs) s1) as [s' t']. exact IH.
      * left. pose proof (run_gone (turns xs) s1 ltac:(rewrite Es; reflexivity)) as G. cbn [fst snd]. rewrite E. unfold turns in G. destruct (prun (map _ xs) s1) as [s' t']. exact G.
    + left. cbn [fst snd]. rewrite E. assert (G : s_pool s = None).
      { revert E. cbn [PoolSystem.pstep]. destruct (s_pool s) as [p|]; [|reflexivity]. destruct (s_queue s) as [|c q]; [discriminate L|]. destruct (handle_command tmax checks now c p) as [[o p']|e| |]; discriminate. }
      apply run_gone. exact G.
Qed.

(** ** Calls with a connection *)
(** The call itself, without its state. *)
Definition same_job (a b : pcall) : Prop := c_addr a = c_addr b /\ c_proc a = c_proc b /\ c_req a = c_req b.
Lemma set_job i x l j pc : nth_error l j = Some pc -> exists pc', nth_error (set_state i x l) j = Some pc' /\ same_job pc pc' /\ c_state pc' = if Nat.eqb i j then x else c_state pc.
Proof.
  intros E. rewrite set_nth, E. destruct (Nat.eqb i j); cbn [option_map]; eexists; split; try reflexivity; split; try reflexivity; split; auto; split; reflexivity.
Qed.

(** A step that is not a poll or a drop of the call leaves it alone, unless it waits for the pool. *)
Lemma acts_app i t1 t2 : acts i (t1 ++ t2) = acts i t1 ++ acts i t2.
Proof. induction t1 as [|[] t1 IH]; cbn [app acts]; auto. destruct (Nat.eqb i i0); cbn [app]; congruence. Qed.
Lemma acts_map i j ts : acts i (map (EAct j) ts) = if Nat.eqb i j then ts else [].
Proof. induction ts as [|a ts IH]; cbn [map acts]; [destruct (Nat.eqb i j); reflexivity|]. rewrite IH. destruct (Nat.eqb i j); reflexivity. Qed.

Lemma inner_effect j pc0 c r s i pc : nth_error (s_calls s) i = Some pc -> exists pc' s' t',
  inner_result j pc0 c r s = (s', t') /\ nth_error (s_calls s') i = Some pc' /\ same_job pc pc' /\ (j <> i -> c_state pc' = c_state pc /\ acts i t' = []) /\
  (j = i -> acts i t' = fst r /\ match snd r with
     | Ok (Pending k) => c_state pc' = Talking c k
     | Ok (Done v b _) => c_state pc' = Finished v b
     | Err e => c_state pc' = Broken e
     | Panic | Diverge => c_state pc' = Panicked
     end).
Proof.
  intros En. destruct r as [ts o]. unfold inner_result.
  assert (A1 : j <> i -> acts i (map (EAct j) ts) = []) by (intros N; rewrite acts_map; destruct (Nat.eqb_spec i j); congruence).
  assert (A2 : j = i -> acts i (map (EAct j) ts) = ts) by (intros ->; rewrite acts_map, Nat.eqb_refl; reflexivity).
  cbn [fst snd].   destruct o as [[k|v b c']|e| |].
  - destruct (set_job j (Talking c k) (s_calls s) i pc En) as (pc' & E1 & E2 & E3). exists pc'. eexists. eexists. split; [reflexivity|]. split; [exact E1|]. split; [exact E2|]. rewrite E3.
    split; intros N; destruct (Nat.eqb_spec j i); try congruence; split; auto.
  - destruct (set_job j (Finished v b) (s_calls s) i pc En) as (pc' & E1 & E2 & E3). exists pc'. eexists. eexists. split; [reflexivity|]. rewrite send_eq. split; [exact E1|]. split; [exact E2|]. rewrite E3.
    rewrite acts_app. cbn [acts]. rewrite app_nil_r. split; intros N; destruct (Nat.eqb_spec j i); try congruence; split; auto.
  - destruct (set_job j (Broken e) (s_calls s) i pc En) as (pc' & E1 & E2 & E3). exists pc'. eexists. eexists. split; [reflexivity|]. split; [exact E1|]. split; [exact E2|]. rewrite E3.
    split; intros N; destruct (Nat.eqb_spec j i); try congruence; split; auto.
  - destruct (set_job j Panicked (s_calls s) i pc En) as (pc' & E1 & E2 & E3). exists pc'. eexists. eexists. split; [reflexivity|]. split; [exact E1|]. split; [exact E2|]. rewrite E3.
    split; intros N; destruct (Nat.eqb_spec j i); try congruence; split; auto.
  - destruct (set_job j Panicked (s_calls s) i pc En) as (pc' & E1 & E2 & E3). exists pc'. eexists. eexists. split; [reflexivity|]. split; [exact E1|]. split; [exact E2|]. rewrite E3.
    split; intros N; destruct (Nat.eqb_spec j i); try congruence; split; auto.
Qed.

Lemma frame l s s' t i pc : pstep l s = Some (s', t) -> nth_error (s_calls s) i = Some pc -> c_state pc <> Acquiring None -> undropped i l -> (forall w, l <> LPoll i w) ->
  exists pc', nth_error (s_calls s') i = Some pc' /\ same_job pc pc' /\ c_state pc' = c_state pc /\ acts i t = [].
Proof.
  intros E En Ns Ud Np. assert (Same : same_job pc pc) by (split; auto).
  destruct l as [addr p req|now f| |j w|j]; cbn [PoolSystem.pstep] in E.
  - injection E as <- <-. rewrite send_eq. cbn [s_calls]. exists pc. rewrite nth_snoc. destruct (Nat.eqb_spec i (length (s_calls s))) as [->|N]; [|auto].
    exfalso. assert (L : nth_error (s_calls s) (length (s_calls s)) <> None) by congruence. apply nth_error_Some in L. lia.
  - destruct (s_pool s) as [p|]; [|discriminate]. destruct (s_queue s) as [|c q]; [discriminate|]. destruct (handle_command tmax checks now c p) as [[o p']|e| |]; injection E as <- <-; try (exists pc; cbn; auto; fail).
    destruct o as [[j a]|]; [|exists pc; auto]. set (s1 := mkPsys (Some p') q (s_calls s) (s_opened s)). destruct (reply_cases j (to_pooled a f) s1) as [->|[Es ->]]; [exists pc; auto|].
    unfold put_state. cbn [s_calls]. destruct (set_job j (Acquiring (Some (to_pooled a f))) (s_calls s) i pc En) as (pc' & E1 & E2 & E3). exists pc'. split; [exact E1|]. split; [exact E2|]. split; [|reflexivity].
    rewrite E3. destruct (Nat.eqb_spec j i) as [->|]; [|reflexivity]. exfalso. unfold state_of in Es. cbn [s_calls s1] in Es. rewrite En in Es. cbn [option_map] in Es. congruence.
  - destruct (s_pool s); [|discriminate]. injection E as <- <-. exists pc. auto.
  - destruct (Nat.eq_dec j i) as [->|Nj]; [elim (Np w eq_refl)|]. destruct (nth_error (s_calls s) j) as [pj|]; [|discriminate]. unfold poll_pooled in E.
    destruct (c_state pj) as [a|c k| | | |]; try discriminate.
    + destruct (acquire_poll j a s) as [c [|]|e b|a'].
      * cbv zeta in E. destruct (inner_effect j pj c (poll_call w (c_proc pj) (call_new (c_req pj) (Ready c))) (mkPsys (s_pool s) (s_queue s) (s_calls s) (s_opened s ++ [c_addr pj])) i pc En) as (pc' & s2 & t2 & E1 & E2 & E3 & E4 & _).
        rewrite E1 in E. injection E as <- <-. destruct (E4 Nj). exists pc'. cbn [acts]. auto.
      * destruct (inner_effect j pj c (poll_call w (c_proc pj) (call_new (c_req pj) (Ready c))) s i pc En) as (pc' & s2 & t2 & E1 & E2 & E3 & E4 & _).
        rewrite E1 in E. injection E as <- <-. destruct (E4 Nj). exists pc'. auto.
      * assert (Es : s_calls s' = set_state j (Broken (error_of (FromPhase IxA (FromError (error_of e))))) (s_calls s) /\ acts i t = []) by (destruct b; injection E as <- <-; [rewrite send_eq|]; auto).
        destruct Es as [-> ->]. destruct (set_job j (Broken (error_of (FromPhase IxA (FromError (error_of e))))) (s_calls s) i pc En) as (pc' & E1 & E2 & E3). exists pc'. rewrite E3. destruct (Nat.eqb_spec j i); [congruence | auto].
      * injection E as <- <-. destruct (set_job j (Acquiring a') (s_calls s) i pc En) as (pc' & E1 & E2 & E3). exists pc'. rewrite E3. destruct (Nat.eqb_spec j i); [congruence | auto].
    + destruct (inner_effect j pj c (poll_call w (c_proc pj) k) s i pc En) as (pc' & s2 & t2 & E1 & E2 & E3 & E4 & _).
      rewrite E1 in E. injection E as <- <-. destruct (E4 Nj). exists pc'. auto.
  - cbn in Ud. destruct (nth_error (s_calls s) j) as [pj|]; [|discriminate]. destruct (set_job j Dropped (s_calls s) i pc En) as (pc' & E1 & E2 & E3). exists pc'.
    destruct (c_state pj); try discriminate; injection E as <- <-; rewrite E3; destruct (Nat.eqb_spec j i); try congruence; auto.
Qed.

(** A poll of a call with a connection. *)
Lemma own_poll s i pc k w : nth_error (s_calls s) i = Some pc -> inner pc k -> exists s' t pc', pstep (LPoll i w) s = Some (s', t) /\
  nth_error (s_calls s') i = Some pc' /\ same_job pc pc' /\ acts i t = fst (poll_call w (c_proc pc) k) /\ stands pc' (snd (poll_call w (c_proc pc) k)).
Proof.
  intros En In0. cbn [PoolSystem.pstep]. rewrite En. unfold poll_pooled.
  assert (St : forall c pc' (o : res (outcome conn)), match o with Ok (Pending k) => c_state pc' = Talking c k | Ok (Done v b _) => c_state pc' = Finished v b | Err e => c_state pc' = Broken e | Panic | Diverge => c_state pc' = Panicked end -> stands pc' o).
  { intros c pc' o. unfold stands. destruct o as [[k0|v b c']|e| |]; auto. intros E. right. exists c. exact E. }
  destruct In0 as [(c & -> & ->)|(c & ->)].
  - cbn [acquire_poll]. destruct (inner_effect i pc c (poll_call w (c_proc pc) (call_new (c_req pc) (Ready c))) s i pc En) as (pc' & s2 & t2 & E1 & E2 & E3 & _ & E4). rewrite E1.
    destruct (E4 eq_refl) as [E5 E6]. exists s2, t2, pc'. split; [reflexivity|]. split; [exact E2|]. split; [exact E3|]. split; [exact E5 | exact (St c pc' _ E6)].
  - destruct (inner_effect i pc c (poll_call w (c_proc pc) k) s i pc En) as (pc' & s2 & t2 & E1 & E2 & E3 & _ & E4). rewrite E1.
    destruct (E4 eq_refl) as [E5 E6]. exists s2, t2, pc'. split; [reflexivity|]. split; [exact E2|]. split; [exact E3|]. split; [exact E5 | exact (St c pc' _ E6)].
Qed.

Lemma inner_state pc k : inner pc k -> c_state pc <> Acquiring None.
Proof. intros [(c & E & _)|(c & E)]; rewrite E; discriminate. Qed.
Lemma polls_other i l ls : (forall w, l <> LPoll i w) -> polls i (l :: ls) = polls i ls.
Proof. intros N. destruct l as [addr p req|now f| |j w|j]; try reflexivity. cbn [polls]. destruct (Nat.eqb_spec i j) as [->|]; [elim (N w eq_refl) | reflexivity]. Qed.
Lemma poll_dec i l : (exists w, l = LPoll i w) \/ (forall w, l <> LPoll i w).
Proof. destruct l as [addr p req|now f| |j w|j]; try (right; discriminate). destruct (Nat.eq_dec j i) as [->|N]; [left; eauto | right; congruence]. Qed.

(** A call that is over stays as it is. *)
Definition final (x : cstate) : Prop := match x with Acquiring _ | Talking _ _ => False | _ => True end.
Lemma stays ls : forall s i pc, nth_error (s_calls s) i = Some pc -> final (c_state pc) -> exists pc', let '(s', t) := prun ls s in nth_error (s_calls s') i = Some pc' /\ same_job pc pc' /\ c_state pc' = c_state pc /\ acts i t = [].
Proof.
  induction ls as [|l ls IH]; intros s i pc En Fi; cbn [PoolSystem.prun]; [exists pc; repeat split; auto|].
  destruct (pstep l s) as [[s1 t]|] eqn:E; [|exact (IH s i pc En Fi)].
  assert (Np : forall w, l <> LPoll i w) by (intros w ->; revert E; cbn [PoolSystem.pstep]; rewrite En; unfold poll_pooled; destruct (c_state pc); try contradiction; discriminate).
  assert (Nd : undropped i l) by (destruct l as [| | | |j]; try exact I; intros ->; revert E; cbn [PoolSystem.pstep]; rewrite En; destruct (c_state pc); try contradiction; discriminate).
  destruct (frame l s s1 t i pc E En ltac:(destruct (c_state pc); try contradiction; discriminate) Nd Np) as (pc1 & E1 & (J1 & J2 & J3) & E3 & E4).
  destruct (IH s1 i pc1 E1 ltac:(rewrite E3; exact Fi)) as (pc' & Q). exists pc'. destruct (prun ls s1) as [s' t']. destruct Q as (Q1 & (K1 & K2 & K3) & Q3 & Q4).
  rewrite acts_app, E4, Q4. repeat split; congruence.
Qed.

Theorem as_alone ls : forall s i pc k, nth_error (s_calls s) i = Some pc -> inner pc k -> Forall (undropped i) ls -> exists pc',
  let '(s', tr) := prun ls s in let r := alone (c_proc pc) (polls i ls) k in nth_error (s_calls s') i = Some pc' /\ stands pc' (snd r) /\ acts i tr = fst r.
Proof.
  induction ls as [|l ls IH]; intros s i pc k En In0 Fu; cbn [PoolSystem.prun]; [exists pc; split; [exact En|]; split; [exact In0 | reflexivity]|].
  inversion Fu as [|? ? Ul Fu']; subst. destruct (poll_dec i l) as [(w & ->)|Np].
  - destruct (own_poll s i pc k w En In0) as (s1 & t1 & pc1 & E & E1 & (J1 & J2 & J3) & E3 & E4). rewrite E. cbn [polls]. rewrite Nat.eqb_refl. cbn [alone]. cbv zeta.
    destruct (poll_call w (c_proc pc) k) as [t o]. cbn [fst snd] in E3, E4. destruct o as [[k1|v b c']|e| |].
    + destruct (IH s1 i pc1 k1 E1 E4 Fu') as (pc' & Q). exists pc'. rewrite <- J2 in Q. destruct (prun ls s1) as [s' t']. cbv zeta in Q. destruct (alone (c_proc pc) (polls i ls) k1) as [t2 o2]. cbn [fst snd] in *.
      destruct Q as (Q1 & Q2 & Q3). split; [exact Q1|]. split; [exact Q2|]. rewrite acts_app, E3, Q3. reflexivity.
    + cbn in E4. destruct (stays ls s1 i pc1 E1 ltac:(rewrite E4; exact I)) as (pc' & Q). exists pc'. destruct (prun ls s1) as [s' t']. destruct Q as (Q1 & _ & Q3 & Q4). cbn [fst snd]. rewrite acts_app, E3, Q4, app_nil_r. split; [exact Q1|]. split; [|reflexivity]. cbn. congruence.
    + cbn in E4. destruct (stays ls s1 i pc1 E1 ltac:(rewrite E4; exact I)) as (pc' & Q). exists pc'. destruct (prun ls s1) as [s' t']. destruct Q as (Q1 & _ & Q3 & Q4). cbn [fst snd]. rewrite acts_app, E3, Q4, app_nil_r. split; [exact Q1|]. split; [|reflexivity]. cbn. congruence.
    + cbn in E4. destruct (stays ls s1 i pc1 E1 ltac:(rewrite E4; exact I)) as (pc' & Q). exists pc'. destruct (prun ls s1) as [s' t']. destruct Q as (Q1 & _ & Q3 & Q4). cbn [fst snd]. rewrite acts_app, E3, Q4, app_nil_r. split; [exact Q1|]. split; [|reflexivity]. cbn. congruence.
    + cbn in E4. destruct (stays ls s1 i pc1 E1 ltac:(rewrite E4; exact I)) as (pc' & Q). exists pc'. destruct (prun ls s1) as [s' t']. destruct Q as (Q1 & _ & Q3 & Q4). cbn [fst snd]. rewrite acts_app, E3, Q4, app_nil_r. split; [exact Q1|]. split; [|reflexivity]. cbn. congruence.
  - rewrite (polls_other i l ls Np). destruct (pstep l s) as [[s1 t]|] eqn:E; [|exact (IH s i pc k En In0 Fu')].
    destruct (frame l s s1 t i pc E En (inner_state pc k In0) Ul Np) as (pc1 & E1 & (J1 & J2 & J3) & E3 & E4).
    assert (In1 : inner pc1 k) by (destruct In0 as [(c & A & B)|(c & A)]; [left; exists c; rewrite E3, <- J3; auto | right; exists c; congruence]).
    destruct (IH s1 i pc1 k E1 In1 Fu') as (pc' & Q). exists pc'. rewrite <- J2 in Q. destruct (prun ls s1) as [s' t']. rewrite acts_app, E4. exact Q.
Qed.

Lemma alone_drive w p n : forall k, alone p (repeat w n) k = drive w p n k.
Proof. induction n as [|n IH]; intros k; cbn [repeat alone drive]; [reflexivity|]. destruct (poll_call w p k) as [t [[k'|]| | |]]; try reflexivity. rewrite IH. reflexivity. Qed.

(** ** Without looking at the pool *)
Theorem pool_irrelevant s i w pl q : state_of i s <> Some (Acquiring None) ->
  option_map (fun r => (s_calls (fst r), s_opened (fst r), snd r)) (pstep (LPoll i w) s) =
  option_map (fun r => (s_calls (fst r), s_opened (fst r), snd r)) (pstep (LPoll i w) (mkPsys pl q (s_calls s) (s_opened s))).
Proof.
  intros N. cbn [PoolSystem.pstep s_calls]. unfold state_of in N. destruct (nth_error (s_calls s) i) as [pc|]; [|reflexivity]. cbn [option_map] in N. unfold poll_pooled.
  assert (R : forall c r s1 s2, s_calls s1 = s_calls s2 -> s_opened s1 = s_opened s2 -> s_calls (fst (inner_result i pc c r s1)) = s_calls (fst (inner_result i pc c r s2)) /\
     s_opened (fst (inner_result i pc c r s1)) = s_opened (fst (inner_result i pc c r s2)) /\ snd (inner_result i pc c r s1) = snd (inner_result i pc c r s2)).
  { intros c [ts o] s1 s2 E1 E2. unfold inner_result. destruct o as [[k|v b c']|e| |]; cbn [fst snd]; rewrite ?send_eq; unfold put_state; cbn [s_calls s_opened]; rewrite E1, E2; auto. }
  destruct (c_state pc) as [[[|c|f]|]|c k| | | |]; cbn [acquire_poll s_queue s_opened option_map]; try reflexivity; try congruence.
  - destruct (R c (poll_call w (c_proc pc) (call_new (c_req pc) (Ready c))) s (mkPsys pl q (s_calls s) (s_opened s)) eq_refl eq_refl) as (-> & -> & ->). reflexivity.
  - destruct (fpoll f) as [x|e|f'].
    + cbv zeta. cbn [s_pool s_calls s_opened s_queue].
      destruct (R (length (s_opened s)) (poll_call (Conn := conn) w (c_proc pc) (call_new (Conn := conn) (c_req pc) (Ready (A := conn) (length (s_opened s))))) (mkPsys (s_pool s) (s_queue s) (s_calls s) (s_opened s ++ [c_addr pc])) (mkPsys pl q (s_calls s) (s_opened s ++ [c_addr pc])) eq_refl eq_refl) as (A & B & C). revert A B C.
      destruct (inner_result i pc (length (s_opened s)) _ (mkPsys (s_pool s) _ _ _)) as [s1 t1]. destruct (inner_result i pc (length (s_opened s)) _ (mkPsys pl _ _ _)) as [s2 t2]. cbn [fst snd option_map]. intros -> -> ->. reflexivity.
    + rewrite !send_eq. reflexivity.
    + reflexivity.
  - destruct (R c (poll_call w (c_proc pc) k) s (mkPsys pl q (s_calls s) (s_opened s)) eq_refl eq_refl) as (-> & -> & ->). reflexivity.
Qed.
End Gone.
