(** * With a timeout for connecting, a call ends whatever becomes of the connections being opened. *)
From Verif Require Import Base Serde Procedure Router SerRequest DeHeader DeResponse DepUrl Error Client ClientSpec Pool PoolSystem PoolSystemSpec PoolSystemProofs PoolSystemInv PoolFairSpec PoolFair Timeout TimeoutSpec TimeoutProofs.
Local Open Scope nat_scope.

Section TimeoutFair.
Context `{floatlib} `{urlenv}.

(** ** A measure in which connecting counts for one, as long as it may last *)
Definition tleft (x : cstate) (q : nat) : nat * nat := match x with Acquiring (Some (PConnect _)) => (6, 0) | x => left x q end.
Definition tends (x : cstate) : Prop := match x with Talking _ k => phase_ends (k_phase k) | _ => True end.
Definition tbetter (i : nat) (x : cstate) (s s' : psys) : Prop :=
  over (state_of i s') \/ exists x', state_of i s' = Some x' /\ tends x' /\ lt2 (tleft x' (place i (s_queue s'))) (tleft x (place i (s_queue s))).
Definition tsame (i : nat) (x : cstate) (s s' : psys) : Prop :=
  exists x', state_of i s' = Some x' /\ like_state x x' /\ tleft x' (place i (s_queue s')) = tleft x (place i (s_queue s)).
Definition known (f : fut unit) : Prop := match f with Ready _ | Failed _ => True | _ => False end.
Definition thelps (i : nat) (x : cstate) (q : nat) (l : plabel) : Prop :=
  match x, q with Acquiring None, S _ => pool_turn l | Acquiring (Some (PConnect f)), _ => poll_of i l /\ known f | _, _ => poll_of i l end.
Lemma thelps_turn i x q l : (~ pool_turn l) -> (~ poll_of i l) -> ~ thelps i x q l.
Proof. intros A B. unfold thelps. destruct x as [[[| |f]|]| | | | |]; try exact B; [intros [C _]; exact (B C)|]. destruct q; assumption. Qed.
Lemma tleft_known x q q' : x <> Acquiring None -> tleft x q = tleft x q'.
Proof. destruct x as [[[| |f]|]| | | | |]; intros N; try reflexivity. destruct (N eq_refl). Qed.
Lemma like_refl x : like_state x x.
Proof. destruct x as [[[| |f]|]| | | | |]; reflexivity || exact I. Qed.
Lemma tsame_intro i x s s' : state_of i s' = Some x -> tleft x (place i (s_queue s')) = tleft x (place i (s_queue s)) -> tsame i x s s'.
Proof. intros E L. exists x. split; [exact E|]. split; [apply like_refl | exact L]. Qed.
Lemma tinner_own i pc c r s m : nth_error (s_calls s) i <> None -> goes m r -> let s' := fst (inner_result i pc c r s) in
  over (state_of i s') \/ exists x', state_of i s' = Some x' /\ tends x' /\ lt2 (tleft x' (place i (s_queue s'))) m.
Proof.
  intros N G s'. destruct (inner_own i pc c r s m N G) as [O|(x' & Sx & E & L)]; [left; exact O|]. fold s' in Sx, L. right. exists x'. split; [exact Sx|].
  subst s'. destruct x' as [a|c' k| | | |]; [destruct (inner_on i pc c r s a Sx)|..]; split; assumption.
Qed.
Lemma tpoll_own i w pc s s' t : answering w -> nth_error (s_calls s) i = Some pc -> tends (c_state pc) -> poll_pooled i w pc s = Some (s', t) ->
  tbetter i (c_state pc) s s' \/ tsame i (c_state pc) s s' /\ (c_state pc = Acquiring None /\ place i (s_queue s) <> 0 \/ exists f, c_state pc = Acquiring (Some (PConnect f)) /\ ~ known f).
Proof.
  intros W N E. assert (Nn : nth_error (s_calls s) i <> None) by congruence.
  assert (P : forall x, state_of i (put_state i x s) = Some x) by (intros x; rewrite state_put, Nat.eqb_refl; unfold state_of; rewrite N; reflexivity).
  assert (G0 : forall c, goes (4, 0) (poll_call w (c_proc pc) (call_new (c_req pc) (Ready c)))) by (intros c; apply (poll_goes w (c_proc pc) W 5 (call_new (c_req pc) (Ready c))); discriminate).
  unfold poll_pooled, tbetter. destruct (c_state pc) as [a|c k| | | |] eqn:S; try discriminate.
  - destruct a as [[|c|f]|]; cbn [acquire_poll].
    + intros [= <- <-]. left. left. rewrite P. exact I.
    + intros [= Q]. left. match type of Q with inner_result _ _ _ ?r ?s0 = _ => pose proof (tinner_own i pc c r s0 (4, 0) Nn (G0 c)) as R end. rewrite Q in R. cbn [fst] in R.
      destruct R as [R|(x' & Sx & Ex & L)]; [left; exact R|]. right. exists x'. split; [exact Sx|]. split; [exact Ex|]. eapply lt2_trans; [exact L|]. left. cbn. lia.
    + cbn [tends] in E. destruct f as [[]|e|f|]; cbn [fpoll].
      * destruct (inner_result i pc _ _ _) as [s2 t2] eqn:Q. intros [= <- <-]. left.
        match type of Q with inner_result _ _ ?c ?r ?s0 = _ => pose proof (tinner_own i pc c r s0 (4, 0) Nn (G0 c)) as R end. rewrite Q in R. cbn [fst] in R.
        destruct R as [R|(x' & Sx & Ex & L)]; [left; exact R|]. right. exists x'. split; [exact Sx|]. split; [exact Ex|]. eapply lt2_trans; [exact L|]. left. cbn. lia.
      * intros [= <- <-]. left. left. rewrite state_send, P. exact I.
      * intros [= <- <-]. right. split; [exists (Acquiring (Some (PConnect f))); split; [apply P|]; split; [exact I | reflexivity]|]. right. exists (Later f). split; [reflexivity | intros []].
      * intros [= <- <-]. right. split; [exists (Acquiring (Some (PConnect Never))); split; [apply P|]; split; [exact I | reflexivity]|]. right. exists Never. split; [reflexivity | intros []].
    + rewrite place_pending. destruct (place i (s_queue s)) as [|n] eqn:Pl.
      * intros [= <- <-]. left. left. rewrite P. exact I.
      * intros [= <- <-]. right. split; [exists (Acquiring None); split; [apply P|]; split; reflexivity|]. left. split; [reflexivity | discriminate].
  - intros [= Q]. left. pose proof (poll_goes w (c_proc pc) W 5 k E) as G.
    match type of Q with inner_result _ _ ?c ?r ?s0 = _ => pose proof (tinner_own i pc c r s0 _ Nn G) as R end. rewrite Q in R. exact R.
Qed.


Variables (tmax : Z) (checks : bool).
Notation pnext := (pnext tmax checks).
Definition own_label (i : nat) (l : plabel) : Prop := forall w, l = LPoll i w -> answering w.
Lemma tgone_call i l s x : state_of i s = Some x -> tends x -> ~ poll_of i l ->
  tbetter i x s (pool_gone s) \/ tsame i x s (pool_gone s) /\ ~ thelps i x (place i (s_queue s)) l.
Proof.
  intros Sx E B. unfold tbetter. change (state_of i (pool_gone s)) with (state_of i s). cbn [pool_gone s_queue place]. destruct (waiting_dec x) as [->|N].
  - destruct (place i (s_queue s)) as [|n] eqn:P; [right; split; [apply tsame_intro; [exact Sx | cbn [pool_gone s_queue place]; rewrite P; reflexivity] | exact B]|]. left. right. exists (Acquiring None). split; [exact Sx|]. split; [exact I|]. right. split; [reflexivity|]. cbn. lia.
  - right. split; [apply tsame_intro; [exact Sx | apply tleft_known, N]|]. unfold thelps. destruct x as [[[| |f]|]| | | | |]; try exact B; [intros [C _]; exact (B C)|]. destruct (N eq_refl).
Qed.

Lemma tstep_call i l s x : (s_pool s = None -> s_queue s = []) -> own_label i l -> state_of i s = Some x -> tends x -> ~ over (Some x) ->
  let s' := pnext l s in tbetter i x s s' \/ tsame i x s s' /\ ~ thelps i x (place i (s_queue s)) l.
Proof.
  intros Gq A Sx E O s'. assert (Ri : (i < length (s_calls s))%nat) by (apply nth_error_Some; unfold state_of in Sx; destruct (nth_error (s_calls s) i); [discriminate | discriminate Sx]).
  subst s'. unfold pnext. destruct l as [addr p req|now f| |j w|j]; cbn [pstep own_label] in *.
  - right. split; [|apply thelps_turn; intros []]. apply tsame_intro.
    + rewrite state_send. unfold state_of in *. cbn [s_calls]. rewrite nth_error_app1 by exact Ri. exact Sx.
    + rewrite place_send; [reflexivity|]. cbn. lia.
  - assert (St : forall s0, s_queue s = [] -> s0 = s -> tbetter i x s s0 \/ tsame i x s s0 /\ ~ thelps i x (place i (s_queue s)) (LPool now f)).
    { intros s0 Eq ->. right. split; [apply tsame_intro; [exact Sx | reflexivity]|]. rewrite Eq. cbn [place]. unfold thelps. destruct x as [[[| |g]|]| | | | |]; cbn [poll_of pool_turn]; tauto. }
    destruct (s_pool s) as [p|] eqn:Ep; [|apply St; auto]. destruct (s_queue s) as [|c q] eqn:Eq; [apply St; auto|]. clear St.
    destruct (handle_command tmax checks now c p) as [[o p']| | |] eqn:Eh; rewrite <- Eq; try (apply tgone_call; [exact Sx | exact E | intros []]).
    pose proof (handle_reply tmax checks now c p o p' Eh) as R. unfold tbetter.
    set (s1 := mkPsys (Some p') q (s_calls s) (s_opened s)). assert (S1 : state_of i s1 = Some x) by exact Sx.
    set (s' := match o with Some (i0, a) => reply i0 (to_pooled a f) s1 | None => s1 end).
    assert (Q' : s_queue s' = q) by (subst s' s1; destruct o as [[j a]|]; [|reflexivity]; unfold reply; cbn [s_calls]; destruct (nth_error (s_calls s) j) as [pc|]; [destruct (c_state pc) as [[|]| | | | |]|]; reflexivity).
    assert (Hc : (exists a y, c = AcquireConnection a i /\ o = Some (i, y)) \/ other i c /\ match o with Some (j, _) => j <> i | None => True end).
    { destruct c as [a j|a c|a]; [|right; split; [exact I | rewrite R; exact I]..]. destruct R as [y ->]. destruct (Nat.eq_dec j i) as [->|Nj]; [left; eauto | right; split; assumption]. }
    destruct Hc as [(a & y & -> & ->)|(Oc & Oo)].
    + destruct (waiting_dec x) as [->|N].
      * left. right. exists (Acquiring (Some (to_pooled y f))). split; [|split; [exact I | left; destruct y; cbn; lia]].
        subst s'. cbv iota. unfold reply. assert (Si := Sx). unfold state_of in Si. change (nth_error (s_calls s1) i) with (nth_error (s_calls s) i).
        destruct (nth_error (s_calls s) i) as [pc|] eqn:Np; [|discriminate]. cbn [option_map] in Si. injection Si as Si. rewrite Si. rewrite state_put, Nat.eqb_refl, S1. reflexivity.
      * right. split; [apply tsame_intro; [|apply tleft_known, N]|].
        -- subst s'. cbv iota. unfold reply. assert (Si := Sx). unfold state_of in Si. change (nth_error (s_calls s1) i) with (nth_error (s_calls s) i).
           destruct (nth_error (s_calls s) i) as [pc|] eqn:Np; [|discriminate]. cbn [option_map] in Si. injection Si as Si. rewrite Si. destruct x as [[|]| | | | |]; try exact S1. destruct (N eq_refl).
        -- unfold thelps. destruct x as [[[| |g]|]| | | | |]; cbn [poll_of pool_turn]; tauto.
    + assert (Sx' : state_of i s' = Some x).
      { subst s'. destruct o as [[j a]|]; [|exact S1]. unfold reply. destruct (nth_error (s_calls s1) j) as [pc|]; [|exact S1]. destruct (c_state pc) as [[|]| | | | |]; try exact S1.
        rewrite state_put. destruct (Nat.eqb_spec j i); [destruct (Oo e) | exact S1]. }
      rewrite Eq, Q', (place_tail i c q Oc). destruct (waiting_dec x) as [->|N].
      * destruct (place i q) as [|n] eqn:Pq; [right; split; [apply tsame_intro; [exact Sx' | rewrite Q', Eq, (place_tail i c q Oc), Pq; reflexivity] | intros []]|]. left. right. exists (Acquiring None). split; [exact Sx'|]. split; [exact I|]. right. split; [reflexivity|]. cbn. lia.
      * right. split; [apply tsame_intro; [exact Sx' | apply tleft_known, N]|]. unfold thelps. destruct x as [[[| |g]|]| | | | |]; cbn [poll_of pool_turn]; tauto.
  - destruct (s_pool s) as [p|]; [apply tgone_call; [exact Sx | exact E | intros []]|]. right. split; [apply tsame_intro; [exact Sx | reflexivity] | apply thelps_turn; intros []].
  - destruct (nth_error (s_calls s) j) as [pc|] eqn:N.
    + destruct (Nat.eq_dec j i) as [->|Nj].
      * assert (Si := Sx). unfold state_of in Si. rewrite N in Si. injection Si as <-. destruct (poll_pooled i w pc s) as [[s' t]|] eqn:Ep.
        -- destruct (tpoll_own i w pc s s' t (A w eq_refl) N E Ep) as [B|(B & [[Ex P]|(f & Ex & K)])]; [left; exact B|..]; right; (split; [exact B|]); unfold thelps; rewrite Ex; [|intros [_ C]; exact (K C)]. destruct (place i (s_queue s)); [congruence|]. intros [].
        -- revert Ep. unfold poll_pooled. destruct (c_state pc) as [a|c k| | | |]; try (destruct (O I)); [|discriminate].
           destruct (acquire_poll i a s) as [c []|e b|a']; try discriminate. destruct (inner_result i pc c _ _) as [s2 t2]. discriminate.
      * assert (B : ~ thelps i x (place i (s_queue s)) (LPoll j w)) by (apply thelps_turn; [intros [] | exact Nj]). right. split; [|exact B].
        destruct (poll_pooled j w pc s) as [[s' t]|] eqn:Ep; [|apply tsame_intro; [exact Sx | reflexivity]]. destruct (poll_other i j w pc s s' t Nj Ep) as [P Q]. apply tsame_intro; [congruence | rewrite Q; reflexivity].
    + right. split; [apply tsame_intro; [exact Sx | reflexivity]|]. apply thelps_turn; [intros []|]. intros B. cbn [poll_of] in B. subst. unfold state_of in Sx. rewrite N in Sx. discriminate.
  - assert (B : ~ thelps i x (place i (s_queue s)) (LDrop j)) by (apply thelps_turn; intros []).
    destruct (nth_error (s_calls s) j) as [pc|] eqn:N; [|right; split; [apply tsame_intro; [exact Sx | reflexivity] | exact B]].
    assert (D : tbetter i x s (put_state j Dropped s) \/ tsame i x s (put_state j Dropped s) /\ ~ thelps i x (place i (s_queue s)) (LDrop j)).
    { unfold tbetter. rewrite state_put, Sx. destruct (Nat.eqb j i) eqn:Ej; [left; left; exact I | right; split; [apply tsame_intro; [rewrite state_put, Sx, Ej; reflexivity | reflexivity] | exact B]]. }
    destruct (c_state pc); try exact D; right; (split; [apply tsame_intro; [exact Sx | reflexivity] | exact B]).
Qed.

Lemma put_nth i x s pc : nth_error (s_calls s) i = Some pc -> nth_error (s_calls (put_state i x s)) i = Some (with_state x pc).
Proof.
  unfold put_state. cbn [s_calls]. revert i. generalize (s_calls s). intros cs. induction cs as [|d cs IH]; intros [|i] N; try discriminate; cbn [set_state nth_error] in *.
  - injection N as ->. reflexivity.
  - apply IH, N.
Qed.
(** ** One step with the clock *)
Variable wait : Z.
Definition tnext (x : Z * plabel) (s : tsys) : tsys := match tstep tmax checks wait (fst x) (snd x) s with Some (s', _) => s' | None => s end.
Definition before (x : Z * plabel) (s : tsys) : psys := match snd x with LPoll i _ => look i (t_due s i) (fst x) (t_sys s) | _ => t_sys s end.
Lemma poll_none i w pc s : poll_pooled i w pc s = None -> over (Some (c_state pc)).
Proof.
  unfold poll_pooled. destruct (c_state pc) as [a|c k| | | |]; try (intros; exact I); [|discriminate].
  destruct (acquire_poll i a s) as [c []|e b|a']; try discriminate. destruct (inner_result i pc c _ _). discriminate.
Qed.
Lemma tnext_sys x s : t_sys (tnext x s) = pnext (snd x) (before x s).
Proof.
  unfold tnext, tstep, before, PoolFair.pnext. destruct x as [now l]. cbn [fst snd]. destruct l as [addr p req|c f| |j w|j]; try (destruct (pstep tmax checks _ (t_sys s)) as [[s1 t]|]; reflexivity).
  destruct (pstep tmax checks (LPoll j w) (look j (t_due s j) now (t_sys s))) as [[s1 t]|] eqn:E; [reflexivity|]. cbn [pstep] in E. rewrite look_nth in E. unfold look.
  destruct (nth_error (s_calls (t_sys s)) j) as [pc|]; [|reflexivity]. cbn [option_map] in E. apply poll_none in E. cbn [with_state c_state] in E. destruct (c_state pc) as [[[| |f]|]| | | | |]; try reflexivity. destruct E.
Qed.
Lemma tnext_due x s i : t_due (tnext x s) i = if received i (before x s) (t_sys (tnext x s)) then (fst x + wait)%Z else t_due s i.
Proof.
  rewrite tnext_sys. unfold tnext, tstep, PoolFair.pnext. destruct x as [now l]. cbn [fst snd]. unfold before. cbn [fst snd].
  destruct (pstep tmax checks l (match l with LPoll i0 _ => look i0 (t_due s i0) now (t_sys s) | _ => t_sys s end)) as [[s1 t]|]; [reflexivity|].
  match goal with |- _ = if received i ?z ?z then _ else _ => assert (R : received i z z = false) end; [|rewrite R; reflexivity].
  rewrite received_state. destruct (state_of i _) as [[[|]| | | | |]|]; reflexivity.
Qed.
Lemma before_state x s i : state_of i (before x s) = match snd x with
  | LPoll j _ => if Nat.eqb j i then option_map (fun y => match y with Acquiring (Some (PConnect f)) => Acquiring (Some (PConnect (timeout_poll (t_due s i) (fst x) f))) | y => y end) (state_of i (t_sys s)) else state_of i (t_sys s)
  | _ => state_of i (t_sys s) end.
Proof. unfold before. destruct (snd x); try reflexivity. rewrite look_state. match goal with |- context [Nat.eqb ?j i] => destruct (Nat.eqb_spec j i) as [->|]; reflexivity end. Qed.
Lemma before_like x s i : match state_of i (t_sys s), state_of i (before x s) with Some a, Some b => like_state a b | None, None => True | _, _ => False end.
Proof.
  rewrite before_state. destruct (state_of i (t_sys s)) as [y|]; destruct (snd x) as [| | |j w|]; try apply like_refl; try exact I; destruct (Nat.eqb j i); cbn [option_map]; try exact I; try apply like_refl.
  destruct y as [[[| |f]|]| | | | |]; try apply like_refl; exact I.
Qed.
Lemma before_rest x s : s_pool (before x s) = s_pool (t_sys s) /\ s_queue (before x s) = s_queue (t_sys s).
Proof.
  unfold before. destruct (snd x) as [| | |j w|]; try (split; reflexivity). unfold look. destruct (nth_error _ j) as [pc|]; [|split; reflexivity]. destruct (c_state pc) as [[[| |f]|]| | | | |]; split; reflexivity.
Qed.
(** Where connecting comes from. *)
Lemma came i l s : connecting (state_of i (pnext l s)) -> connecting (state_of i s) \/ state_of i s = Some (Acquiring None).
Proof.
  unfold PoolFair.pnext. destruct l as [addr p req|now f| |j w|j]; cbn [pstep].
  - rewrite state_send. unfold state_of. cbn [s_calls]. rewrite nth_snoc. destruct (Nat.eqb i (length (s_calls s))); [intros []|]. auto.
  - destruct (s_pool s) as [p|]; [|auto]. destruct (s_queue s) as [|c q]; [auto|]. destruct (handle_command tmax checks now c p) as [[o p']| | |]; try (intros C; left; exact C).
    destruct o as [[j a]|]; [|intros C; left; exact C]. unfold reply. destruct (nth_error _ j) as [pc|] eqn:N; [|intros C; left; exact C]. destruct (c_state pc) as [[|]| | | | |] eqn:Es; try (intros C; left; exact C).
    rewrite state_put. change (state_of i (mkPsys (Some p') q (s_calls s) (s_opened s))) with (state_of i s). destruct (Nat.eqb_spec j i) as [->|]; [|intros C; left; exact C].
    intros _. right. unfold state_of. change (s_calls s) with (s_calls (mkPsys (Some p') q (s_calls s) (s_opened s))). rewrite N, <- Es. reflexivity.
  - destruct (s_pool s); intros C; left; exact C.
  - destruct (nth_error (s_calls s) j) as [pc|] eqn:Nj; [|auto]. destruct (poll_pooled j w pc s) as [[s' t]|] eqn:E; [|auto].
    destruct (Nat.eq_dec j i) as [->|Nij]; [|destruct (poll_other i j w pc s s' t Nij E) as [Q _]; rewrite Q; auto].
    assert (Sx : state_of i s = Some (c_state pc)) by (unfold state_of; rewrite Nj; reflexivity). rewrite Sx. intros C.
    revert E. unfold poll_pooled. destruct (c_state pc) as [a|c k| | | |]; try discriminate.
    + destruct a as [[| |f]|]; [|..|right; reflexivity]; [| |left; exact I]; cbn [acquire_poll]; intros [= E]; exfalso.
      * rewrite <- E, state_put, Nat.eqb_refl, Sx in C. destruct C.
      * match type of E with inner_result _ _ ?c ?r ?s1 = _ => pose proof (inner_on i pc c r s1) as Q end. rewrite E in Q. cbn [fst] in Q. destruct (state_of i s') as [[[[| |f]|]| | | | |]|]; try destruct C. exact (Q _ eq_refl).
    + intros [= E]. exfalso. match type of E with inner_result _ _ ?c ?r ?s1 = _ => pose proof (inner_on i pc c r s1) as Q end. rewrite E in Q. cbn [fst] in Q. destruct (state_of i s') as [[[[| |f]|]| | | | |]|]; try destruct C. exact (Q _ eq_refl).
  - destruct (nth_error (s_calls s) j) as [pc|]; [|auto]. assert (Q : connecting (state_of i (put_state j Dropped s)) -> connecting (state_of i s)) by (rewrite state_put; destruct (Nat.eqb j i); [destruct (state_of i s); intros [] | auto]).
    destruct (c_state pc); auto.
Qed.

(** ** The endless run *)
Variables (sched : nat -> Z * plabel) (s0 : tsys).
Hypothesis start_tidy : tidy (t_sys s0).
Hypothesis start_none : s_calls (t_sys s0) = [].
Definition upto (n : nat) : tsys := fst (trun tmax checks wait (map sched (seq 0 n)) s0).
Notation at_ n := (then_ tmax checks wait sched n s0).

Lemma trun_snoc ls x s : trun tmax checks wait (ls ++ [x]) s = (tnext x (fst (trun tmax checks wait ls s)), snd (trun tmax checks wait ls s) ++ match tstep tmax checks wait (fst x) (snd x) (fst (trun tmax checks wait ls s)) with Some (_, t) => t | None => [] end).
Proof.
  revert s. induction ls as [|[now l] ls IH]; intros s; cbn [app trun].
  - unfold tnext. destruct x as [now l]. cbn [fst snd]. destruct (tstep tmax checks wait now l s) as [[s' t]|]; [rewrite app_nil_r|]; reflexivity.
  - destruct (tstep tmax checks wait now l s) as [[s' t]|]; [|apply IH]. specialize (IH s'). rewrite IH. destruct (trun tmax checks wait ls s') as [x' y']. cbn [fst snd]. rewrite app_assoc. reflexivity.
Qed.
Lemma upto_S n : upto (S n) = tnext (sched n) (upto n).
Proof. unfold upto. rewrite seq_S, map_app. cbn [map]. rewrite trun_snoc. reflexivity. Qed.
Lemma seen_S n : seen tmax checks wait sched (S n) s0 = seen tmax checks wait sched n s0 ++ match tstep tmax checks wait (fst (sched n)) (snd (sched n)) (upto n) with Some (_, t) => t | None => [] end.
Proof. unfold seen, upto. rewrite seq_S, map_app. cbn [map]. rewrite trun_snoc. reflexivity. Qed.
Lemma then_S n : at_ (S n) = pnext (snd (sched n)) (before (sched n) (upto n)).
Proof. change (at_ (S n)) with (t_sys (upto (S n))). rewrite upto_S. apply tnext_sys. Qed.

(** A call that is connecting was handed the connection at some step, and its timer has run since. *)
Lemma timer i n : connecting (state_of i (at_ n)) -> exists m, handed tmax checks wait sched s0 i m n /\ t_due (upto n) i = (fst (sched m) + wait)%Z.
Proof.
  induction n as [|n IH]; intros C.
  - unfold then_ in C. cbn [seq map trun fst] in C. unfold state_of in C. rewrite start_none, nth_nil in C. destruct C.
  - assert (C' := C). rewrite then_S in C'. apply came in C'. pose proof (before_like (sched n) (upto n) i) as L. change (t_sys (upto n)) with (at_ n) in L.
    rewrite upto_S, tnext_due, received_state. rewrite <- upto_S. change (t_sys (upto (S n))) with (at_ (S n)). destruct C' as [C'|C'].
    + assert (Cn : connecting (state_of i (at_ n))).
      { destruct (state_of i (before (sched n) (upto n))) as [[[[| |f]|]| | | | |]|]; try destruct C'. destruct (state_of i (at_ n)) as [[[[| |g]|]| | | | |]|]; try discriminate L; try destruct L; exact I. }
      destruct (IH Cn) as (m & (Lm & Nm & Cm) & D). exists m. split.
      * split; [lia|]. split; [exact Nm|]. intros k Lk. destruct (Nat.eq_dec k (S n)) as [->|]; [exact C | apply Cm; lia].
      * rewrite D. destruct (state_of i (before (sched n) (upto n))) as [[[[| |f]|]| | | | |]|]; try destruct C'. reflexivity.
    + rewrite C' in *. exists n. split.
      * split; [lia|]. split.
        -- destruct (state_of i (at_ n)) as [[[[| |g]|]| | | | |]|]; try discriminate L; try destruct L; reflexivity.
        -- intros k Lk. replace k with (S n) by lia. exact C.
      * destruct (state_of i (at_ (S n))) as [[[[| |f]|]| | | | |]|]; try destruct C. reflexivity.
Qed.

(** What a poll makes of a call that is connecting. *)
Theorem polled n i w t f : sched n = (t, LPoll i w) -> state_of i (at_ n) = Some (Acquiring (Some (PConnect f))) ->
  exists m, handed tmax checks wait sched s0 i m n /\
    let seen := fun n => seen tmax checks wait sched n s0 in
    let broken k := state_of i (at_ (S n)) = Some (Broken k) /\ exists a, addr_of i (at_ n) = Some a /\ seen (S n) = seen n ++ [EBlacklist i a] in
    let waits g := if (fst (sched m) + wait <=? t)%Z then broken Other else state_of i (at_ (S n)) = Some (Acquiring (Some (PConnect g))) /\ seen (S n) = seen n in
    match f with
    | Ready _ => (forall a, state_of i (at_ (S n)) <> Some (Acquiring a)) /\ exists a more, addr_of i (at_ n) = Some a /\ seen (S n) = seen n ++ EOpen (length (s_opened (at_ n))) a :: more
    | Failed e => broken (error_of e)
    | Later g => waits g
    | Never => waits Never
    end.
Proof.
  intros E Sx. destruct (timer i n) as (m & Hm & D); [rewrite Sx; exact I|]. exists m. split; [exact Hm|]. cbv beta zeta. rewrite seen_S, then_S, E. cbn [fst snd].
  assert (N : exists pc, nth_error (s_calls (at_ n)) i = Some pc /\ c_state pc = Acquiring (Some (PConnect f))) by (unfold state_of in Sx; destruct (nth_error (s_calls (at_ n)) i) as [pc|]; [|discriminate]; injection Sx as Sx; eauto).
  destruct N as (pc & N & Es). unfold addr_of. rewrite N. cbn [option_map].
  assert (Be : before (t, LPoll i w) (upto n) = put_state i (Acquiring (Some (PConnect (timeout_poll (fst (sched m) + wait) t f)))) (at_ n)).
  { unfold before, look. cbn [fst snd]. change (t_sys (upto n)) with (at_ n). rewrite N, Es, D. reflexivity. }
  unfold tstep. cbv beta iota zeta. change (look i (t_due (upto n) i) t (t_sys (upto n))) with (before (t, LPoll i w) (upto n)). unfold PoolFair.pnext. rewrite Be.
  set (s1 := put_state _ _ _). cbn [pstep]. pose proof (put_nth i (Acquiring (Some (PConnect (timeout_poll (fst (sched m) + wait) t f)))) (at_ n) pc N) as N1. fold s1 in N1. rewrite N1.
  assert (P : forall x, state_of i (put_state i x s1) = Some x) by (intros x; rewrite state_put, Nat.eqb_refl; unfold state_of; rewrite N1; reflexivity).
  unfold poll_pooled. cbn [with_state c_state c_addr c_proc c_req acquire_poll].
  destruct f as [[]|e|g|]; cbn [timeout_poll fpoll].
  - set (r := poll_call _ _ _). match goal with |- context [inner_result i ?p ?c r ?z] => pose proof (inner_on i p c r z) as Q; destruct (inner_result i p c r z) as [s2 t2] end. cbn [fst] in Q. split; [exact Q|]. exists (c_addr pc), t2. split; reflexivity.
  - rewrite state_send, P. split; [reflexivity|]. exists (c_addr pc). split; reflexivity.
  - destruct (fst (sched m) + wait <=? t)%Z; cbn [fpoll].
    + rewrite state_send, P. split; [reflexivity|]. exists (c_addr pc). split; reflexivity.
    + rewrite P. split; [reflexivity | apply app_nil_r].
  - destruct (fst (sched m) + wait <=? t)%Z; cbn [fpoll].
    + rewrite state_send, P. split; [reflexivity|]. exists (c_addr pc). split; reflexivity.
    + rewrite P. split; [reflexivity | apply app_nil_r].
Qed.

(** ** The end of a call *)
Variable i : nat.
Hypothesis pool_fair : again pool_turn (fun n => snd (sched n)).
Hypothesis call_fair : again (poll_of i) (fun n => snd (sched n)).
Hypothesis clock : passing sched.
Hypothesis answered : own_answered i sched.

Lemma upto_tidy n : tidy (at_ n).
Proof.
  induction n as [|n IH]; [exact start_tidy|]. rewrite then_S. apply tidy_step. unfold tidy. destruct (before_rest (sched n) (upto n)) as [-> ->]. exact IH.
Qed.
Lemma tends_like x y : like_state x y -> tends x -> tends y.
Proof. unfold like_state. destruct x as [[[| |f]|]| | | | |]; intros L; try (subst y; exact (fun z => z)). destruct y as [[[| |g]|]| | | | |]; try discriminate L. exact (fun z => z). Qed.
Lemma over_like x y : like_state x y -> over (Some x) <-> over (Some y).
Proof. unfold like_state. destruct x as [[[| |f]|]| | | | |]; intros L; try (subst y; reflexivity). destruct y as [[[| |g]|]| | | | |]; try discriminate L. reflexivity. Qed.
Lemma tleft_like x y q : like_state x y -> tleft x q = tleft y q.
Proof. unfold like_state. destruct x as [[[| |f]|]| | | | |]; intros L; try (subst y; reflexivity). destruct y as [[[| |g]|]| | | | |]; try discriminate L. reflexivity. Qed.
Lemma like_trans x y z : like_state x y -> like_state y z -> like_state x z.
Proof. unfold like_state. destruct x as [[[| |f]|]| | | | |]; intros L; try (subst y; exact (fun z => z)). destruct y as [[[| |g]|]| | | | |]; try discriminate L. destruct z as [[[| |h]|]| | | | |]; try discriminate; exact (fun z => z). Qed.

(** What moves a call on; [due] is when its timer runs out. *)
Definition moves (x : cstate) (q : nat) (due : Z) (l : Z * plabel) : Prop :=
  match x, q with
  | Acquiring None, S _ => pool_turn (snd l)
  | Acquiring (Some (PConnect _)), _ => poll_of i (snd l) /\ (due <= fst l)%Z
  | _, _ => poll_of i (snd l)
  end.
(** One step of the run, seen from call [i]. *)
Lemma once_more n x : state_of i (at_ n) = Some x -> tends x -> ~ over (Some x) ->
  tbetter i x (at_ n) (at_ (S n)) \/ tsame i x (at_ n) (at_ (S n)) /\
    ~ moves x (place i (s_queue (at_ n))) (t_due (upto n) i) (sched n).
Proof.
  intros Sx Ex O. pose proof (before_like (sched n) (upto n) i) as L. change (t_sys (upto n)) with (at_ n) in L. rewrite Sx in L.
  destruct (state_of i (before (sched n) (upto n))) as [y|] eqn:Sy; [|destruct L].
  destruct (before_rest (sched n) (upto n)) as [Bp Bq]. change (t_sys (upto n)) with (at_ n) in Bp, Bq.
  assert (T : s_pool (before (sched n) (upto n)) = None -> s_queue (before (sched n) (upto n)) = []) by (rewrite Bp, Bq; apply upto_tidy).
  assert (Oy : ~ over (Some y)) by (intros Oy; apply O, (over_like x y L), Oy).
  pose proof (tstep_call i (snd (sched n)) (before (sched n) (upto n)) y T (fun w E => answered n w E) Sy (tends_like x y L Ex) Oy) as Q. cbv zeta in Q. rewrite <- then_S in Q.
  unfold tbetter, tsame in *. rewrite Bq in Q. rewrite (tleft_like x y _ L). destruct Q as [Q|[(z & Sz & Lz & Tz) Nh]]; [left; exact Q|]. right.
  split; [exists z; split; [exact Sz|]; split; [exact (like_trans x y z L Lz) | exact Tz]|].
  unfold thelps in Nh. unfold moves. unfold like_state in L. destruct x as [[[| |f]|]| | | | |]; try (subst y; exact Nh).
  intros [Pi Du]. rewrite before_state in Sy. destruct (snd (sched n)) as [| | |j w|]; try (exfalso; exact Pi). cbn [poll_of] in Pi. subst j. rewrite Nat.eqb_refl in Sy. change (t_sys (upto n)) with (at_ n) in Sy. rewrite Sx in Sy. cbn [option_map] in Sy. injection Sy as <-.
  apply Nh. split; [reflexivity|]. unfold timeout_poll. apply Z.leb_le in Du. rewrite Du. destruct f; exact I.
Qed.
Lemma upto_tends n : match state_of i (at_ n) with Some x => tends x | None => True end.
Proof.
  induction n as [|n IH]; [unfold then_; cbn [seq map trun fst]; unfold state_of; rewrite start_none, nth_nil; exact I|].
  destruct (state_of i (at_ n)) as [x|] eqn:Sx.
  - destruct (over_dec x) as [O|O].
    + rewrite then_S. pose proof (before_like (sched n) (upto n) i) as L. change (t_sys (upto n)) with (at_ n) in L. rewrite Sx in L. destruct (state_of i (before (sched n) (upto n))) as [y|] eqn:Sy; [|destruct L].
      apply (over_like x y L) in O. rewrite <- Sy in O. apply (over_stays tmax checks i (snd (sched n))) in O. destruct (state_of i (pnext (snd (sched n)) (before (sched n) (upto n)))) as [z|]; [|exact I]. destruct z as [[|]| | | | |]; try destruct O; exact I.
    + destruct (once_more n x Sx IH O) as [[B|(y & Sy & Ey & _)]|[(y & Sy & L & _) _]].
      * destruct (state_of i (at_ (S n))) as [z|]; [|exact I]. destruct z as [[|]| | | | |]; try destruct B; exact I.
      * rewrite Sy. exact Ey.
      * rewrite Sy. exact (tends_like x y L IH).
  - rewrite then_S. pose proof (before_like (sched n) (upto n) i) as L. change (t_sys (upto n)) with (at_ n) in L. rewrite Sx in L. destruct (state_of i (before (sched n) (upto n))) as [y|] eqn:Sy; [destruct L|].
    destruct (state_new tmax checks i (snd (sched n)) _ Sy) as [->| ->]; exact I.
Qed.
Lemma moved_on x q due n : exists m, n <= m /\ moves x q due (sched m).
Proof.
  unfold moves. destruct x as [[[| |f]|]| | | | |]; try apply call_fair; [|destruct q; [apply call_fair | apply pool_fair]].
  destruct (clock due) as (k & C). destruct (call_fair (n + k)) as (m & L & P). exists m. split; [lia|]. split; [exact P | apply C; lia].
Qed.
Lemma moves_same x q due y q' due' l : like_state x y -> tleft y q' = tleft x q -> (match x with Acquiring (Some (PConnect _)) => due' = due | _ => True end) -> moves x q due l -> moves y q' due' l.
Proof.
  unfold moves, like_state. destruct x as [[[| |f]|]| | | | |]; intros L T D; try (subst y; exact (fun z => z)).
  - destruct y as [[[| |g]|]| | | | |]; try discriminate L. subst due'. exact (fun z => z).
  - subst y. cbn [tleft left] in T. injection T as ->. exact (fun z => z).
Qed.
Lemma due_stays n x y : state_of i (at_ n) = Some x -> state_of i (at_ (S n)) = Some y -> match x with Acquiring (Some (PConnect _)) => t_due (upto (S n)) i = t_due (upto n) i | _ => True end.
Proof.
  intros Sx Sy. destruct x as [[[| |f]|]| | | | |]; try exact I. rewrite upto_S, tnext_due, received_state. pose proof (before_like (sched n) (upto n) i) as L. change (t_sys (upto n)) with (at_ n) in L. rewrite Sx in L.
  destruct (state_of i (before (sched n) (upto n))) as [[[[| |g]|]| | | | |]|]; try discriminate L; try destruct L. reflexivity.
Qed.
Lemma tends_from m : forall n x, state_of i (at_ n) = Some x -> ~ over (Some x) -> tleft x (place i (s_queue (at_ n))) = m -> exists n', n <= n' /\ over (state_of i (at_ n')).
Proof.
  induction (lt2_wf m) as [m _ IH]. intros n x Sx O Em. destruct (moved_on x (place i (s_queue (at_ n))) (t_due (upto n) i) n) as (h & L & Hh).
  remember (h - n) as d eqn:Ed. revert n x Sx O Em L Hh Ed. induction d as [|d IHd]; intros n x Sx O Em L Hh Ed.
  all: pose proof (upto_tends n) as Ex; rewrite Sx in Ex; pose proof (once_more n x Sx Ex O) as St.
  all: assert (Bt : tbetter i x (at_ n) (at_ (S n)) -> exists n', n <= n' /\ over (state_of i (at_ n'))).
  1,3: intros [B|(y & Sy & _ & Ly)]; [exists (S n); split; [lia | exact B]|]; destruct (over_dec y) as [Oy|Oy]; [exists (S n); rewrite Sy; split; [lia | exact Oy]|];
    rewrite Em in Ly; destruct (IH _ Ly (S n) y Sy Oy eq_refl) as (n' & L' & Q); exists n'; split; [lia | exact Q].
  - destruct St as [B|[_ B]]; [exact (Bt B)|]. assert (h = n) by lia. subst h. destruct (B Hh).
  - destruct St as [B|[(y & Sy & Ly & Ty) _]]; [exact (Bt B)|]. destruct (over_dec y) as [Oy|Oy]; [exists (S n); rewrite Sy; split; [lia | exact Oy]|].
    destruct (IHd (S n) y Sy Oy) as (n' & L' & Q); [rewrite Ty; exact Em | lia | eapply moves_same; [exact Ly | exact Ty | exact (due_stays n x y Sx Sy) | exact Hh] | lia|]. exists n'. split; [lia | exact Q].
Qed.
Lemma over_then n k : over (state_of i (at_ n)) -> over (state_of i (at_ (k + n))).
Proof.
  intros O. induction k as [|k IH]; [exact O|]. cbn [Nat.add]. rewrite then_S. apply over_stays. pose proof (before_like (sched (k + n)) (upto (k + n)) i) as L. change (t_sys (upto (k + n))) with (at_ (k + n)) in L.
  destruct (state_of i (at_ (k + n))) as [x|]; [|destruct IH]. destruct (state_of i (before _ _)) as [y|]; [|destruct L]. apply (over_like x y L), IH.
Qed.
Theorem timely n : state_of i (at_ n) <> None -> exists n', n <= n' /\ forall m, n' <= m -> over (state_of i (at_ m)).
Proof.
  intros N. destruct (state_of i (at_ n)) as [x|] eqn:Sx; [|congruence].
  assert (Q : exists n', n <= n' /\ over (state_of i (at_ n'))).
  { destruct (over_dec x) as [O|O]; [exists n; rewrite Sx; auto | exact (tends_from _ n x Sx O eq_refl)]. }
  destruct Q as (n' & L & O). exists n'. split; [exact L|]. intros m Lm. replace m with ((m - n') + n') by lia. apply over_then, O.
Qed.
End TimeoutFair.
