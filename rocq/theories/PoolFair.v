(** * Under a fair schedule every call ends. *)
From Verif Require Import Base Serde Procedure Router SerRequest DeHeader DeResponse DepUrl Error Client ClientSpec Pool PoolSystem PoolSystemSpec PoolSystemProofs PoolSystemInv PoolFairSpec.
Local Open Scope nat_scope.

(** ** A measure: pairs of numbers in lexicographic order *)
Definition lt2 (a b : nat * nat) : Prop := fst a < fst b \/ fst a = fst b /\ snd a < snd b.
Lemma lt2_wf : well_founded lt2.
Proof.
  intros [a b]. revert b. induction (lt_wf a) as [a _ IHa]. intros b. induction (lt_wf b) as [b _ IHb]. constructor. intros [a' b'] [L|[E L]]; cbn [fst snd] in *.
  - apply IHa, L.
  - subst. apply IHb, L.
Qed.
Lemma lt2_trans a b c : lt2 a b -> lt2 b c -> lt2 a c.
Proof. unfold lt2. lia. Qed.

Definition phase_left (p : cphase conn) : nat * nat :=
  match p with PhA f => (4, waits f) | PhB f => (3, waits f) | PhC f => (2, waits f) | PhD f => (1, waits f) end.
Definition phase_ends (p : cphase conn) : Prop := match p with PhA f => ends f | PhB f => ends f | PhC f => ends f | PhD f => ends f end.

Section Fair.
Context `{floatlib} `{urlenv}.

Definition goes (m : nat * nat) (r : list (act conn) * res (outcome conn)) : Prop :=
  match snd r with Ok (Pending k) => phase_ends (k_phase k) /\ lt2 (phase_left (k_phase k)) m | _ => True end.
Lemma goes_less m m' r : goes m r -> lt2 m m' -> goes m' r.
Proof. unfold goes. destruct (snd r) as [[k|]| | |]; try tauto. intros [E L] M. split; [exact E | eapply lt2_trans; eassumption]. Qed.
Lemma goes_cons m a r : goes m r -> goes m (let '(t, o) := r in (a :: t, o)).
Proof. destruct r as [t o]. exact (fun Q => Q). Qed.

Lemma poll_goes w p : answering w -> forall fuel k, phase_ends (k_phase k) -> goes (phase_left (k_phase k)) (poll w p fuel k).
Proof.
  intros (W1 & W2 & W3). induction fuel as [|fuel IH]; intros [rq ph] E; [exact I|]. cbn [poll k_phase k_request] in *.
  destruct ph as [f|f|f|f]; destruct f as [x|e|f|]; cbn [phase_poll fpoll phase_left waits] in *; try exact I; try (destruct (E eq_refl));
    try (split; [exact E | right; split; [reflexivity | cbn [fst snd]; auto]]).
  - destruct (on_connected p rq x) as [[r b]| | |]; try exact I. apply goes_cons. eapply goes_less; [apply IH; cbn [k_phase]; apply W1|]. left. cbn. lia.
  - apply goes_cons. eapply goes_less; [apply IH; cbn [k_phase]; apply W2|]. left. cbn. lia.
  - destruct (is_head p); [|apply goes_cons]; (eapply goes_less; [apply IH; cbn [k_phase]; try apply W3; discriminate|]; left; cbn; lia).
  - destruct x as [r b]. destruct (on_received p r); exact I.
Qed.

(** ** What a step does to one call *)
Fixpoint place (i : nat) (q : list (command conn)) : nat :=
  match q with
  | [] => 0
  | AcquireConnection _ j :: r => if Nat.eqb i j then 1 else match place i r with O => O | n => S n end
  | _ :: r => match place i r with O => O | n => S n end
  end.
Definition left (x : cstate) (q : nat) : nat * nat :=
  match x with
  | Acquiring None => (7, q)
  | Acquiring (Some (PConnect f)) => (6, waits f)
  | Acquiring (Some _) => (5, 0)
  | Talking _ k => phase_left (k_phase k)
  | _ => (0, 0)
  end.
Definition state_ends (x : cstate) : Prop :=
  match x with
  | Acquiring (Some (PConnect f)) => ends f
  | Talking _ k => phase_ends (k_phase k)
  | _ => True
  end.

Definition other (i : nat) (c : command conn) : Prop := match c with AcquireConnection _ j => j <> i | _ => True end.
Lemma place_snoc i q c : other i c -> place i (q ++ [c]) = place i q.
Proof.
  intros O. induction q as [|d q IH]; cbn [app place].
  - destruct c; try reflexivity. cbn [other] in O. destruct (Nat.eqb_spec i reply); [congruence | reflexivity].
  - destruct d; [destruct (Nat.eqb i reply); [reflexivity|]| |]; rewrite IH; reflexivity.
Qed.
Lemma place_pending i q : pending i q = match place i q with O => false | _ => true end.
Proof.
  induction q as [|c q IH]; [reflexivity|]. unfold pending in *. cbn [existsb place]. destruct c; cbn [orb]; [destruct (Nat.eqb i reply); [reflexivity|]| |];
    cbn [orb]; rewrite IH; destruct (place i q); reflexivity.
Qed.
Lemma place_send i c s : other i c -> place i (s_queue (send c s)) = place i (s_queue s).
Proof. intros O. unfold send. destruct (s_pool s); [apply place_snoc, O | reflexivity]. Qed.
Lemma state_send i c s : state_of i (send c s) = state_of i s.
Proof. unfold send. destruct (s_pool s); reflexivity. Qed.
Lemma state_put i j x s : state_of i (put_state j x s) = if Nat.eqb j i then option_map (fun _ => x) (state_of i s) else state_of i s.
Proof. rewrite put_moved, moved_state. unfold state_of. destruct (Nat.eqb j i); [|reflexivity]. destruct (nth_error (s_calls s) i); reflexivity. Qed.

(** How the state of call [i] and its place in the queue can change. *)
Definition better (i : nat) (x : cstate) (s s' : psys) : Prop :=
  over (state_of i s') \/ exists x', state_of i s' = Some x' /\ state_ends x' /\ lt2 (left x' (place i (s_queue s'))) (left x (place i (s_queue s))).
Definition same (i : nat) (x : cstate) (s s' : psys) : Prop :=
  state_of i s' = Some x /\ left x (place i (s_queue s')) = left x (place i (s_queue s)).

Lemma inner_other i j pc c r s : j <> i -> state_of i (fst (inner_result j pc c r s)) = state_of i s /\ place i (s_queue (fst (inner_result j pc c r s))) = place i (s_queue s).
Proof.
  intros N. assert (P : forall x, state_of i (put_state j x s) = state_of i s) by (intros x; rewrite state_put; destruct (Nat.eqb_spec j i); [congruence | reflexivity]).
  destruct r as [t [[k|v b c']| | |]]; cbn [inner_result fst]; try (split; [apply P | reflexivity]). rewrite state_send, place_send by exact I. split; [apply P | reflexivity].
Qed.
Lemma inner_own i pc c r s m : nth_error (s_calls s) i <> None -> goes m r -> let s' := fst (inner_result i pc c r s) in
  over (state_of i s') \/ exists x', state_of i s' = Some x' /\ state_ends x' /\ lt2 (left x' (place i (s_queue s'))) m.
Proof.
  intros N G s'. assert (P : forall x, state_of i (put_state i x s) = Some x).
  { intros x. rewrite state_put, Nat.eqb_refl. unfold state_of. destruct (nth_error (s_calls s) i); [reflexivity | congruence]. }
  subst s'. destruct r as [t [[k|v b c']| | |]]; cbn [inner_result fst].
  - right. exists (Talking c k). split; [apply P|]. exact G.
  - left. rewrite state_send, P. exact I.
  - left. rewrite P. exact I.
  - left. rewrite P. exact I.
  - left. rewrite P. exact I.
Qed.

Lemma poll_other i j w pc s s' t : j <> i -> poll_pooled j w pc s = Some (s', t) -> state_of i s' = state_of i s /\ place i (s_queue s') = place i (s_queue s).
Proof.
  intros N. assert (P : forall x, state_of i (put_state j x s) = state_of i s) by (intros x; rewrite state_put; destruct (Nat.eqb_spec j i); [congruence | reflexivity]).
  unfold poll_pooled. destruct (c_state pc) as [a|c k| | | |]; try discriminate.
  - destruct (acquire_poll j a s) as [c []|e b|a'].
    + destruct (inner_result j pc c _ _) as [s2 t2] eqn:E. intros [= <- <-].
      match type of E with inner_result _ _ _ ?r ?s0 = _ => pose proof (inner_other i j pc c r s0 N) as Q end. rewrite E in Q. exact Q.
    + intros [= E]. match type of E with inner_result _ _ _ ?r ?s0 = _ => pose proof (inner_other i j pc c r s0 N) as Q end. rewrite E in Q. exact Q.
    + destruct b; intros [= <- <-]; [rewrite state_send, place_send by exact I|]; (split; [apply P | reflexivity]).
    + intros [= <- <-]. split; [apply P | reflexivity].
  - intros [= E]. match type of E with inner_result _ _ _ ?r ?s0 = _ => pose proof (inner_other i j pc c r s0 N) as Q end. rewrite E in Q. exact Q.
Qed.

Lemma poll_own i w pc s s' t : answering w -> nth_error (s_calls s) i = Some pc -> state_ends (c_state pc) -> poll_pooled i w pc s = Some (s', t) ->
  better i (c_state pc) s s' \/ same i (c_state pc) s s' /\ c_state pc = Acquiring None /\ place i (s_queue s) <> 0.
Proof.
  intros W N E. assert (Nn : nth_error (s_calls s) i <> None) by congruence.
  assert (P : forall x, state_of i (put_state i x s) = Some x) by (intros x; rewrite state_put, Nat.eqb_refl; unfold state_of; rewrite N; reflexivity).
  assert (G0 : forall c, goes (4, 0) (poll_call w (c_proc pc) (call_new (c_req pc) (Ready c)))) by (intros c; apply (poll_goes w (c_proc pc) W 5 (call_new (c_req pc) (Ready c))); discriminate).
  unfold poll_pooled, better. destruct (c_state pc) as [a|c k| | | |] eqn:S; try discriminate.
  - destruct a as [[|c|f]|]; cbn [acquire_poll].
    + intros [= <- <-]. left. left. rewrite P. exact I.
    + intros [= Q]. left. match type of Q with inner_result _ _ _ ?r ?s0 = _ => pose proof (inner_own i pc c r s0 (4, 0) Nn (G0 c)) as R end. rewrite Q in R. cbn [fst] in R.
      destruct R as [R|(x' & Sx & Ex & L)]; [left; exact R|]. right. exists x'. split; [exact Sx|]. split; [exact Ex|]. eapply lt2_trans; [exact L|]. left. cbn. lia.
    + cbn [state_ends] in E. destruct f as [[]|e|f|]; cbn [fpoll].
      * destruct (inner_result i pc _ _ _) as [s2 t2] eqn:Q. intros [= <- <-]. left.
        match type of Q with inner_result _ _ ?c ?r ?s0 = _ => pose proof (inner_own i pc c r s0 (4, 0) Nn (G0 c)) as R end. rewrite Q in R. cbn [fst] in R.
        destruct R as [R|(x' & Sx & Ex & L)]; [left; exact R|]. right. exists x'. split; [exact Sx|]. split; [exact Ex|]. eapply lt2_trans; [exact L|]. left. cbn. lia.
      * intros [= <- <-]. left. left. rewrite state_send, P. exact I.
      * intros [= <- <-]. left. right. exists (Acquiring (Some (PConnect f))). split; [apply P|]. split; [exact E|]. right. split; [reflexivity|]. cbn. lia.
      * destruct (E eq_refl).
    + rewrite place_pending. destruct (place i (s_queue s)) as [|n] eqn:Pl.
      * intros [= <- <-]. left. left. rewrite P. exact I.
      * intros [= <- <-]. right. split; [split; [apply P | reflexivity]|]. split; [reflexivity | discriminate].
  - intros [= Q]. left. pose proof (poll_goes w (c_proc pc) W 5 k E) as G.
    match type of Q with inner_result _ _ ?c ?r ?s0 = _ => pose proof (inner_own i pc c r s0 _ Nn G) as R end. rewrite Q in R. exact R.
Qed.

Variables (tmax : Z) (checks : bool).
Definition pnext (l : plabel) (s : psys) : psys := match pstep tmax checks l s with Some (s', _) => s' | None => s end.

Lemma over_stays i l s : over (state_of i s) -> over (state_of i (pnext l s)).
Proof.
  intros O. assert (X : state_of i (pnext l s) = state_of i s); [|rewrite X; exact O].
  unfold pnext. destruct l as [addr p req|now f| |j w|j]; cbn [pstep].
  - rewrite state_send. unfold state_of in *. cbn [s_calls]. destruct (nth_error (s_calls s) i) eqn:N; [|destruct O]. rewrite nth_error_app1; [rewrite N; reflexivity|]. apply nth_error_Some. congruence.
  - destruct (s_pool s) as [p|]; [|reflexivity]. destruct (s_queue s) as [|c q]; [reflexivity|]. destruct (handle_command tmax checks now c p) as [[o p']| | |]; try reflexivity.
    destruct o as [[j a]|]; [|reflexivity]. unfold reply. cbn [s_calls]. destruct (nth_error (s_calls s) j) as [pc|] eqn:N; [|reflexivity]. destruct (c_state pc) as [[|]| | | | |] eqn:S; try reflexivity.
    rewrite state_put. destruct (Nat.eqb_spec j i); [|reflexivity]. subst. unfold state_of in *. rewrite N in O. cbn [option_map] in O. rewrite S in O. destruct O.
  - destruct (s_pool s); reflexivity.
  - destruct (nth_error (s_calls s) j) as [pc|] eqn:N; [|reflexivity]. destruct (Nat.eq_dec j i) as [->|Nj].
    + unfold state_of in *. rewrite N in O. cbn [option_map] in O. unfold poll_pooled. destruct (c_state pc); try destruct O; reflexivity.
    + destruct (poll_pooled j w pc s) as [[s' t]|] eqn:E; [|reflexivity]. apply (poll_other i j w pc s s' t Nj E).
  - destruct (nth_error (s_calls s) j) as [pc|] eqn:N; [|reflexivity].
    assert (Q : state_of i (put_state j Dropped s) = state_of i s \/ j = i) by (rewrite state_put; destruct (Nat.eqb_spec j i); auto).
    destruct Q as [Q| ->]; [destruct (c_state pc); try reflexivity; exact Q|]. unfold state_of in *. rewrite N in O. cbn [option_map] in O. destruct (c_state pc); try destruct O; rewrite ?N; reflexivity.
Qed.

(** Which label moves a call on. *)
Definition helps (i : nat) (x : cstate) (q : nat) (l : plabel) : Prop :=
  match x, q with Acquiring None, S _ => pool_turn l | _, _ => poll_of i l end.
Lemma helps_turn i x q l : (~ pool_turn l) -> (~ poll_of i l) -> ~ helps i x q l.
Proof. intros A B. unfold helps. destruct x as [[|]| | | | |]; try exact B. destruct q; assumption. Qed.
Lemma left_known x q q' : x <> Acquiring None -> left x q = left x q'.
Proof. destruct x as [[|]| | | | |]; intros N; try reflexivity. destruct (N eq_refl). Qed.
Lemma waiting_dec (x : cstate) : x = Acquiring None \/ x <> Acquiring None.
Proof. destruct x as [[|]| | | | |]; try (right; discriminate). left. reflexivity. Qed.

Lemma place_tail i c q : other i c -> place i (c :: q) = match place i q with O => O | n => S n end.
Proof. intros O. cbn [place]. destruct c; try reflexivity. cbn [other] in O. destruct (Nat.eqb_spec i reply); [congruence | reflexivity]. Qed.

Lemma gone_call i l s x : state_of i s = Some x -> state_ends x -> ~ poll_of i l ->
  better i x s (pool_gone s) \/ same i x s (pool_gone s) /\ ~ helps i x (place i (s_queue s)) l.
Proof.
  intros Sx E B. unfold better, same. change (state_of i (pool_gone s)) with (state_of i s). cbn [pool_gone s_queue place]. destruct (waiting_dec x) as [->|N].
  - destruct (place i (s_queue s)) as [|n] eqn:P; [right; auto|]. left. right. exists (Acquiring None). split; [exact Sx|]. split; [exact I|]. right. split; [reflexivity|]. cbn. lia.
  - right. split; [split; [exact Sx | apply left_known, N]|]. unfold helps. destruct x as [[|]| | | | |]; try exact B. destruct (N eq_refl).
Qed.

Lemma step_call i l s x : (s_pool s = None -> s_queue s = []) -> answering_label l -> state_of i s = Some x -> state_ends x -> ~ over (Some x) ->
  let s' := pnext l s in better i x s s' \/ same i x s s' /\ ~ helps i x (place i (s_queue s)) l.
Proof.
  intros Gq A Sx E O s'. assert (Ri : (i < length (s_calls s))%nat) by (apply nth_error_Some; unfold state_of in Sx; destruct (nth_error (s_calls s) i); [discriminate | discriminate Sx]).
  subst s'. unfold pnext. destruct l as [addr p req|now f| |j w|j]; cbn [pstep answering_label] in *.
  - right. split; [|apply helps_turn; intros []]. split.
    + rewrite state_send. unfold state_of in *. cbn [s_calls]. rewrite nth_error_app1 by exact Ri. exact Sx.
    + rewrite place_send; [reflexivity|]. cbn. lia.
  - assert (St : forall s0, s_queue s = [] -> s0 = s -> better i x s s0 \/ same i x s s0 /\ ~ helps i x (place i (s_queue s)) (LPool now f)).
    { intros s0 Eq ->. right. split; [split; [exact Sx | reflexivity]|]. rewrite Eq. cbn [place]. unfold helps. destruct x as [[|]| | | | |]; intros []. }
    destruct (s_pool s) as [p|] eqn:Ep; [|apply St; auto]. destruct (s_queue s) as [|c q] eqn:Eq; [apply St; auto|]. clear St.
    destruct (handle_command tmax checks now c p) as [[o p']| | |] eqn:Eh; rewrite <- Eq; try (apply gone_call; [exact Sx | exact E | intros []]).
    pose proof (handle_reply tmax checks now c p o p' Eh) as R. unfold better, same.
    set (s1 := mkPsys (Some p') q (s_calls s) (s_opened s)). assert (S1 : state_of i s1 = Some x) by exact Sx.
    set (s' := match o with Some (i0, a) => reply i0 (to_pooled a f) s1 | None => s1 end).
    assert (Q' : s_queue s' = q) by (subst s' s1; destruct o as [[j a]|]; [|reflexivity]; unfold reply; cbn [s_calls]; destruct (nth_error (s_calls s) j) as [pc|]; [destruct (c_state pc) as [[|]| | | | |]|]; reflexivity).
    assert (Hc : (exists a y, c = AcquireConnection a i /\ o = Some (i, y)) \/ other i c /\ match o with Some (j, _) => j <> i | None => True end).
    { destruct c as [a j|a c|a]; [|right; split; [exact I | rewrite R; exact I]..]. destruct R as [y ->]. destruct (Nat.eq_dec j i) as [->|Nj]; [left; eauto | right; split; assumption]. }
    destruct Hc as [(a & y & -> & ->)|(Oc & Oo)].
    + destruct (waiting_dec x) as [->|N].
      * left. right. exists (Acquiring (Some (to_pooled y f))). split; [|split; [destruct y; try exact I; exact A | left; destruct y; cbn; lia]].
        subst s'. cbv iota. unfold reply. assert (Si := Sx). unfold state_of in Si. change (nth_error (s_calls s1) i) with (nth_error (s_calls s) i).
        destruct (nth_error (s_calls s) i) as [pc|] eqn:Np; [|discriminate]. cbn [option_map] in Si. injection Si as Si. rewrite Si. rewrite state_put, Nat.eqb_refl, S1. reflexivity.
      * right. split; [split; [|apply left_known, N]|].
        -- subst s'. cbv iota. unfold reply. assert (Si := Sx). unfold state_of in Si. change (nth_error (s_calls s1) i) with (nth_error (s_calls s) i).
           destruct (nth_error (s_calls s) i) as [pc|] eqn:Np; [|discriminate]. cbn [option_map] in Si. injection Si as Si. rewrite Si. destruct x as [[|]| | | | |]; try exact S1. destruct (N eq_refl).
        -- unfold helps. destruct x as [[|]| | | | |]; try (intros []). destruct (N eq_refl).
    + assert (Sx' : state_of i s' = Some x).
      { subst s'. destruct o as [[j a]|]; [|exact S1]. unfold reply. destruct (nth_error (s_calls s1) j) as [pc|]; [|exact S1]. destruct (c_state pc) as [[|]| | | | |]; try exact S1.
        rewrite state_put. destruct (Nat.eqb_spec j i); [destruct (Oo e) | exact S1]. }
      rewrite Eq, Q', (place_tail i c q Oc). destruct (waiting_dec x) as [->|N].
      * destruct (place i q) as [|n]; [right; split; [split; [exact Sx' | reflexivity] | intros []]|]. left. right. exists (Acquiring None). split; [exact Sx'|]. split; [exact I|]. right. split; [reflexivity|]. cbn. lia.
      * right. split; [split; [exact Sx' | apply left_known, N]|]. unfold helps. destruct x as [[|]| | | | |]; try (intros []). destruct (N eq_refl).
  - destruct (s_pool s) as [p|]; [apply gone_call; [exact Sx | exact E | intros []]|]. right. split; [split; [exact Sx | reflexivity] | apply helps_turn; intros []].
  - destruct (nth_error (s_calls s) j) as [pc|] eqn:N.
    + destruct (Nat.eq_dec j i) as [->|Nj].
      * assert (Si := Sx). unfold state_of in Si. rewrite N in Si. injection Si as <-. destruct (poll_pooled i w pc s) as [[s' t]|] eqn:Ep.
        -- destruct (poll_own i w pc s s' t A N E Ep) as [B|(B & Ex & P)]; [left; exact B|]. right. split; [exact B|]. unfold helps. rewrite Ex. destruct (place i (s_queue s)); [congruence|]. intros [].
        -- revert Ep. unfold poll_pooled. destruct (c_state pc) as [a|c k| | | |]; try (destruct (O I)); [|discriminate].
           destruct (acquire_poll i a s) as [c []|e b|a']; try discriminate. destruct (inner_result i pc c _ _) as [s2 t2]. discriminate.
      * assert (B : ~ helps i x (place i (s_queue s)) (LPoll j w)) by (apply helps_turn; [intros [] | exact Nj]). right. split; [|exact B].
        destruct (poll_pooled j w pc s) as [[s' t]|] eqn:Ep; [|split; [exact Sx | reflexivity]]. destruct (poll_other i j w pc s s' t Nj Ep) as [P Q]. split; [congruence | rewrite Q; reflexivity].
    + right. split; [split; [exact Sx | reflexivity]|]. apply helps_turn; [intros []|]. intros B. cbn [poll_of] in B. subst. unfold state_of in Sx. rewrite N in Sx. discriminate.
  - assert (B : ~ helps i x (place i (s_queue s)) (LDrop j)) by (apply helps_turn; intros []).
    destruct (nth_error (s_calls s) j) as [pc|] eqn:N; [|right; split; [split; [exact Sx | reflexivity] | exact B]].
    assert (D : better i x s (put_state j Dropped s) \/ same i x s (put_state j Dropped s) /\ ~ helps i x (place i (s_queue s)) (LDrop j)).
    { unfold better, same. rewrite state_put, Sx. destruct (Nat.eqb j i); [left; left; exact I | right; split; [split; reflexivity | exact B]]. }
    destruct (c_state pc); try exact D; right; (split; [split; [exact Sx | reflexivity] | exact B]).
Qed.

Definition tidy (s : psys) : Prop := s_pool s = None -> s_queue s = [].
Lemma tidy_send c s : tidy s -> tidy (send c s).
Proof. unfold tidy, send. destruct (s_pool s) eqn:E; [discriminate | rewrite E; auto]. Qed.
Lemma tidy_put i x s : tidy s -> tidy (put_state i x s).
Proof. exact (fun Q => Q). Qed.
Lemma tidy_inner i pc c r s : tidy s -> tidy (fst (inner_result i pc c r s)).
Proof. intros T. destruct r as [t [[k|v b c']| | |]]; cbn [inner_result fst]; try exact T. apply tidy_send. exact T. Qed.
Lemma tidy_step l s : tidy s -> tidy (pnext l s).
Proof.
  intros T. unfold pnext. destruct l as [addr p req|now f| |j w|j]; cbn [pstep].
  - apply tidy_send. exact T.
  - destruct (s_pool s) as [p|] eqn:Ep; [|exact T]. destruct (s_queue s) as [|c q]; [exact T|]. destruct (handle_command tmax checks now c p) as [[o p']| | |]; try (intros _; reflexivity).
    assert (T1 : tidy (mkPsys (Some p') q (s_calls s) (s_opened s))) by discriminate. destruct o as [[j a]|]; [|exact T1]. unfold reply. destruct (nth_error _ j) as [pc|]; [|exact T1].
    destruct (c_state pc) as [[|]| | | | |]; exact T1.
  - destruct (s_pool s); [intros _; reflexivity | exact T].
  - destruct (nth_error (s_calls s) j) as [pc|]; [|exact T]. destruct (poll_pooled j w pc s) as [[s' t]|] eqn:E; [|exact T]. revert E. unfold poll_pooled.
    destruct (c_state pc) as [a|c k| | | |]; try discriminate.
    + destruct (acquire_poll j a s) as [c []|e b|a'].
      * destruct (inner_result j pc c _ _) as [s2 t2] eqn:E. intros [= <- <-]. match type of E with inner_result _ _ _ ?r ?s0 = _ => pose proof (tidy_inner j pc c r s0 T) as Q end. rewrite E in Q. exact Q.
      * intros [= E]. match type of E with inner_result _ _ _ ?r ?s0 = _ => pose proof (tidy_inner j pc c r s0 T) as Q end. rewrite E in Q. exact Q.
      * destruct b; intros [= <- <-]; [apply tidy_send|]; exact T.
      * intros [= <- <-]. exact T.
    + intros [= E]. match type of E with inner_result _ _ _ ?r ?s0 = _ => pose proof (tidy_inner j pc c r s0 T) as Q end. rewrite E in Q. exact Q.
  - destruct (nth_error (s_calls s) j) as [pc|]; [|exact T]. destruct (c_state pc); exact T.
Qed.

Lemma state_new i l s : state_of i s = None -> state_of i (pnext l s) = None \/ state_of i (pnext l s) = Some (Acquiring None).
Proof.
  intros N. unfold pnext. destruct l as [addr p req|now f| |j w|j]; cbn [pstep].
  - rewrite state_send. unfold state_of in *. cbn [s_calls]. rewrite nth_snoc. destruct (Nat.eqb i (length (s_calls s))); [right; reflexivity | left; exact N].
  - left. destruct (s_pool s) as [p|]; [|exact N]. destruct (s_queue s) as [|c q]; [exact N|]. destruct (handle_command tmax checks now c p) as [[o p']| | |]; try exact N.
    destruct o as [[j a]|]; [|exact N]. unfold reply. destruct (nth_error _ j) as [pc|]; [|exact N]. destruct (c_state pc) as [[|]| | | | |]; try exact N.
    rewrite state_put. change (state_of i (mkPsys (Some p') q (s_calls s) (s_opened s))) with (state_of i s). rewrite N. destruct (Nat.eqb j i); reflexivity.
  - left. destruct (s_pool s); exact N.
  - left. destruct (nth_error (s_calls s) j) as [pc|] eqn:Nj; [|exact N]. destruct (poll_pooled j w pc s) as [[s' t]|] eqn:E; [|exact N].
    assert (D : j <> i) by (intros ->; unfold state_of in N; rewrite Nj in N; discriminate). destruct (poll_other i j w pc s s' t D E) as [Q _]. congruence.
  - left. destruct (nth_error (s_calls s) j) as [pc|]; [|exact N]. destruct (c_state pc); try exact N; rewrite state_put, N; destruct (Nat.eqb j i); reflexivity.
Qed.

Lemma drop_effect i s : match state_of i s with
  | Some (Acquiring _) | Some (Talking _ _) => exists s', pstep tmax checks (LDrop i) s = Some (s', []) /\ state_of i s' = Some Dropped /\
      (forall j, j <> i -> state_of j s' = state_of j s) /\ s_pool s' = s_pool s /\ s_queue s' = s_queue s
  | x => pstep tmax checks (LDrop i) s = None /\ (x = None \/ over x)
  end.
Proof.
  assert (Q : forall x pc, nth_error (s_calls s) i = Some pc -> state_of i (put_state i x s) = Some x /\ forall j, j <> i -> state_of j (put_state i x s) = state_of j s).
  { intros x pc E. split; [|intros j N]; rewrite state_put.
    - rewrite Nat.eqb_refl. unfold state_of. rewrite E. reflexivity.
    - destruct (Nat.eqb_spec i j); [congruence | reflexivity]. }
  unfold state_of at 1. cbn [pstep]. destruct (nth_error (s_calls s) i) as [pc|] eqn:E; cbn [option_map]; [|auto].
  destruct (Q Dropped pc eq_refl) as [Q1 Q2]. destruct (c_state pc) eqn:Es; try (split; [reflexivity | right; exact I]); exists (put_state i Dropped s); auto.
Qed.
Lemma step_dropped i l s : ~ drop_of i l -> state_of i s <> Some Dropped -> state_of i (pnext l s) <> Some Dropped.
Proof.
  intros D N. unfold pnext. destruct l as [addr p req|now f| |j w|j]; cbn [pstep drop_of] in *.
  - rewrite state_send. unfold state_of in *. cbn [s_calls]. rewrite nth_snoc. destruct (Nat.eqb i (length (s_calls s))); [discriminate | exact N].
  - destruct (s_pool s) as [p|]; [|exact N]. destruct (s_queue s) as [|c q]; [exact N|]. destruct (handle_command tmax checks now c p) as [[o p']| | |]; try exact N.
    destruct o as [[j a]|]; [|exact N]. unfold reply. destruct (nth_error _ j) as [pc|]; [|exact N]. destruct (c_state pc) as [[|]| | | | |]; try exact N.
    rewrite state_put. change (state_of i (mkPsys (Some p') q (s_calls s) (s_opened s))) with (state_of i s). destruct (Nat.eqb j i); [|exact N]. destruct (state_of i s); discriminate.
  - destruct (s_pool s); exact N.
  - destruct (nth_error (s_calls s) j) as [pc|] eqn:Nj; [|exact N]. destruct (poll_pooled j w pc s) as [[s' t]|] eqn:E; [|exact N].
    destruct (Nat.eq_dec j i) as [->|Nij]; [|destruct (poll_other i j w pc s s' t Nij E) as [Q _]; congruence].
    assert (P : forall x s1, x <> Dropped -> state_of i (put_state i x s1) <> Some Dropped) by (intros x s1 Nx; rewrite state_put, Nat.eqb_refl; destruct (state_of i s1); cbn; congruence).
    assert (R : forall c r s1, state_of i (fst (inner_result i pc c r s1)) <> Some Dropped).
    { intros c [t1 [[k|v b c']| | |]] s1; cbn [inner_result fst]; try (apply P; discriminate). rewrite state_send. apply P. discriminate. }
    revert E. unfold poll_pooled. destruct (c_state pc) as [a|c k| | | |]; try discriminate.
    + destruct (acquire_poll i a s) as [c []|e b|a'].
      * destruct (inner_result i pc c _ _) as [s2 t2] eqn:E. intros [= <- <-]. match type of E with inner_result _ _ _ ?r ?s1 = _ => pose proof (R c r s1) as Q end. rewrite E in Q. exact Q.
      * intros [= E]. match type of E with inner_result _ _ _ ?r ?s1 = _ => pose proof (R c r s1) as Q end. rewrite E in Q. exact Q.
      * destruct b; intros [= <- <-]; [rewrite state_send|]; apply P; discriminate.
      * intros [= <- <-]. apply P. discriminate.
    + intros [= E]. match type of E with inner_result _ _ _ ?r ?s1 = _ => pose proof (R c r s1) as Q end. rewrite E in Q. exact Q.
  - destruct (nth_error (s_calls s) j) as [pc|]; [|exact N]. assert (Q : state_of i (put_state j Dropped s) <> Some Dropped) by (rewrite state_put; destruct (Nat.eqb_spec j i); [congruence | exact N]).
    destruct (c_state pc); assumption.
Qed.

(** ** The endless run *)
Variables (sched : nat -> plabel) (s0 : psys).
Hypothesis start_tidy : tidy s0.
Hypothesis start_none : s_calls s0 = [].
Hypothesis answered : forall n, answering_label (sched n).
Notation at_ n := (at_time tmax checks sched n s0).

Lemma prun_snoc ls l s : fst (prun tmax checks (ls ++ [l]) s) = pnext l (fst (prun tmax checks ls s)).
Proof.
  revert s. induction ls as [|a ls IH]; intros s; cbn [app prun].
  - unfold pnext. cbn [fst]. destruct (pstep tmax checks l s) as [[s' t]|]; reflexivity.
  - destruct (pstep tmax checks a s) as [[s' t]|]; [|apply IH]. specialize (IH s'). destruct (prun tmax checks (ls ++ [l]) s') as [x y]. destruct (prun tmax checks ls s') as [x' y']. exact IH.
Qed.
Lemma at_S n : at_ (S n) = pnext (sched n) (at_ n).
Proof. unfold at_time. rewrite seq_S, map_app. apply prun_snoc. Qed.
Lemma at_tidy n : tidy (at_ n).
Proof. induction n as [|n IH]; [exact start_tidy | rewrite at_S; apply tidy_step, IH]. Qed.

Lemma over_dec (x : cstate) : over (Some x) \/ ~ over (Some x).
Proof. destruct x as [[|]| | | | |]; try (left; exact I); right; intros []. Qed.
Lemma over_ends x : over (Some x) -> state_ends x.
Proof. destruct x as [[|]| | | | |]; intros []; exact I. Qed.
Lemma at_ends i n : match state_of i (at_ n) with Some x => state_ends x | None => True end.
Proof.
  induction n as [|n IH]; [unfold at_time; cbn [seq map prun fst]; unfold state_of; rewrite start_none, nth_nil; exact I|]. rewrite at_S.
  destruct (state_of i (at_ n)) as [x|] eqn:Sx.
  - destruct (over_dec x) as [O|O].
    + rewrite <- Sx in O. apply (over_stays i (sched n)) in O. destruct (state_of i (pnext (sched n) (at_ n))) as [y|]; [apply over_ends, O | exact I].
    + destruct (step_call i (sched n) (at_ n) x (at_tidy n) (answered n) Sx IH O) as [[B|(y & Sy & Ey & _)]|[[B _] _]].
      * destruct (state_of i (pnext (sched n) (at_ n))) as [y|]; [apply over_ends, B | exact I].
      * rewrite Sy. exact Ey.
      * rewrite B. exact IH.
  - destruct (state_new i (sched n) (at_ n) Sx) as [->| ->]; exact I.
Qed.

Variable i : nat.
Hypothesis pool_fair : again pool_turn sched.
Hypothesis call_fair : again (poll_of i) sched.

Lemma helped x q n : exists m, n <= m /\ helps i x q (sched m).
Proof. unfold helps. destruct x as [[|]| | | | |]; try apply call_fair. destruct q; [apply call_fair | apply pool_fair]. Qed.
Lemma helps_same x q q' l : left x q = left x q' -> helps i x q l -> helps i x q' l.
Proof. unfold helps. destruct x as [[|]| | | | |]; try tauto. cbn [left]. intros [= ->]. tauto. Qed.

Lemma ends_from m : forall n x, state_of i (at_ n) = Some x -> ~ over (Some x) -> left x (place i (s_queue (at_ n))) = m -> exists n', n <= n' /\ over (state_of i (at_ n')).
Proof.
  induction (lt2_wf m) as [m _ IH]. intros n x Sx O Em. destruct (helped x (place i (s_queue (at_ n))) n) as (h & L & Hh).
  remember (h - n) as d eqn:Ed. revert n Sx Em L Hh Ed. induction d as [|d IHd]; intros n Sx Em L Hh Ed.
  all: pose proof (at_ends i n) as Ex; rewrite Sx in Ex; pose proof (step_call i (sched n) (at_ n) x (at_tidy n) (answered n) Sx Ex O) as St; cbv zeta in St; rewrite <- at_S in St.
  all: assert (Bt : better i x (at_ n) (at_ (S n)) -> exists n', n <= n' /\ over (state_of i (at_ n'))).
  1,3: intros [B|(y & Sy & _ & Ly)]; [exists (S n); split; [lia | exact B]|]; destruct (over_dec y) as [Oy|Oy]; [exists (S n); rewrite Sy; split; [lia | exact Oy]|];
    rewrite Em in Ly; destruct (IH _ Ly (S n) y Sy Oy eq_refl) as (n' & L' & Q); exists n'; split; [lia | exact Q].
  - destruct St as [B|[_ B]]; [exact (Bt B)|]. assert (h = n) by lia. subst h. destruct (B Hh).
  - destruct St as [B|[[Sa La] _]]; [exact (Bt B)|]. destruct (IHd (S n) Sa) as (n' & L' & Q); [rewrite La; exact Em | lia | eapply helps_same; [symmetry; exact La | exact Hh] | lia|]. exists n'. split; [lia | exact Q].
Qed.

Lemma over_for_good n k : over (state_of i (at_ n)) -> over (state_of i (at_ (k + n))).
Proof. intros O. induction k as [|k IH]; [exact O|]. cbn [Nat.add]. rewrite at_S. apply over_stays, IH. Qed.

Theorem fair_ends n : state_of i (at_ n) <> None -> exists n', n <= n' /\ forall m, n' <= m -> over (state_of i (at_ m)).
Proof.
  intros N. destruct (state_of i (at_ n)) as [x|] eqn:Sx; [|congruence].
  assert (Q : exists n', n <= n' /\ over (state_of i (at_ n'))).
  { destruct (over_dec x) as [O|O]; [exists n; rewrite Sx; auto | exact (ends_from _ n x Sx O eq_refl)]. }
  destruct Q as (n' & L & O). exists n'. split; [exact L|]. intros m Lm. replace m with ((m - n') + n') by lia. apply over_for_good, O.
Qed.
Theorem never_dropped n : (forall n, ~ drop_of i (sched n)) -> state_of i (at_ n) <> Some Dropped.
Proof.
  intros D. induction n as [|n IH]; [unfold at_time; cbn [seq map prun fst]; unfold state_of; rewrite start_none, nth_nil; discriminate|]. rewrite at_S. apply step_dropped; auto.
Qed.
End Fair.
