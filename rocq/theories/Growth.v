(** * Proofs for C99: what one more procedure does to the requests of the others. *)
From Verif Require Import Base Procedure Router RouterSpec RouterProofs GrowthSpec.

Section Growth.
Context {H : Type}.
Notation table := (list (method * entry_point * H)).

Lemma with_const_app s (a b : table) : with_const s (a ++ b) = with_const s a ++ with_const s b.
Proof. apply flat_map_app. Qed.
Lemma with_var_app (a b : table) : with_var (a ++ b) = with_var a ++ with_var b.
Proof. apply flat_map_app. Qed.
Lemma ends_here_app m (a b : table) : ends_here m (a ++ b) = ends_here m a ++ ends_here m b.
Proof. apply flat_map_app. Qed.

Lemma accepted_snoc (gs : table) g : accepted (gs ++ [g]) = accepted gs \/ accepted (gs ++ [g]) = accepted gs ++ [g].
Proof.
  unfold accepted. rewrite fold_left_app. cbn [fold_left].
  generalize (fold_left accept gs []). intros tb. unfold accept.
  destruct (taken _ _ _); [left | right]; reflexivity.
Qed.
Lemma accepted_one (g : method * entry_point * H) : accepted [g] = [g].
Proof. reflexivity. Qed.

(** Who serves a request is the accepted entry point that matches and is not shadowed. *)
Lemma route_spec_by : forall segs (tb : table) m h, route_spec tb m segs = inl h ->
  exists ep, In (m, ep, h) tb /\ matches ep segs /\ unshadowed tb ep segs.
Proof.
  induction segs as [|s r IH]; intros tb m h; cbn [route_spec].
  - destruct (ends_here m tb) as [|x l] eqn:E; [discriminate|]. intros [= ->].
    exists []. split; [|split; exact I]. apply ends_here_In. rewrite E. left; reflexivity.
  - destruct (with_const s tb) eqn:C.
    + destruct (with_var tb) eqn:V; [discriminate|]. rewrite <- V. intros R.
      apply IH in R. destruct R as (ep & I & M & U). apply (sel_In None) in I.
      destruct I as ([c|] & E & I); [discriminate|]. exists (Var :: ep). split; [exact I|].
      split; [exact M | split; [exact C | exact U]].
    + rewrite <- C. intros R. apply IH in R. destruct R as (ep & I & M & U). apply (sel_In (Some s)) in I.
      destruct I as ([c|] & E & I); [|discriminate]. injection E as ->.
      exists (Val s :: ep). split; [exact I | split; [split; [reflexivity | exact M] | exact U]].
Qed.

Lemma served_by_iff (gs : table) m segs h : route (build gs) m (Some segs) = Ok (inl h) <->
  exists ep, In (m, ep, h) (accepted gs) /\ matches ep segs /\ unshadowed (accepted gs) ep segs.
Proof.
  split.
  - rewrite routing_refines. intros [= E]. apply route_spec_by, E.
  - intros (ep & I & M & U). exact (routing_complete gs m ep h segs I M U).
Qed.

(** ** Any request *)
Lemma route_spec_snoc : forall segs (tb : table) g m, tb <> [] ->
  route_spec (tb ++ [g]) m segs = route_spec tb m segs \/ route_spec (tb ++ [g]) m segs = route_spec [g] m segs.
Proof.
  induction segs as [|s r IH]; intros tb g m NE; cbn [route_spec].
  - rewrite ends_here_app. destruct (ends_here m tb) as [|x l]; [right; reflexivity | left; reflexivity].
  - rewrite with_const_app, with_var_app. destruct g as [[m' [|[c|] e]] h'].
    + left. change (with_const s [(m', [], h')]) with (@nil (method * entry_point * H)).
      change (with_var [(m', [], h')]) with (@nil (method * entry_point * H)). rewrite !app_nil_r. reflexivity.
    + change (with_var [(m', Val c :: e, h')]) with (@nil (method * entry_point * H)). rewrite app_nil_r.
      match goal with |- context[with_const s [?x]] =>
        replace (with_const s [x]) with (if ustr_eqb s c then [(m', e, h')] else [])
          by (cbn; destruct (ustr_eqb s c); reflexivity) end.
      destruct (ustr_eqb s c); cbn [app].
      * destruct (with_const s tb) as [|x l] eqn:C; [right; reflexivity|].
        apply (IH (x :: l) (m', e, h') m). discriminate.
      * rewrite app_nil_r. left. reflexivity.
    + change (with_const s [(m', Var :: e, h')]) with (@nil (method * entry_point * H)). rewrite app_nil_r.
      change (with_var [(m', Var :: e, h')]) with [(m', e, h')].
      destruct (with_const s tb) as [|x l] eqn:C; [|left; reflexivity].
      destruct (with_var tb) as [|x l] eqn:V; [right; reflexivity|].
      apply (IH (x :: l) (m', e, h') m). discriminate.
Qed.

Lemma one_or_other (gs : table) g m path :
  route (build (gs ++ [g])) m path = route (build gs) m path \/ route (build (gs ++ [g])) m path = route (build [g]) m path.
Proof.
  destruct path as [segs|]; [|left; reflexivity]. rewrite !routing_refines, accepted_one.
  destruct (accepted_snoc gs g) as [-> | ->]; [left; reflexivity|].
  destruct (accepted gs) as [|x l]; [right; reflexivity|].
  destruct (route_spec_snoc segs (x :: l) g m) as [-> | ->]; [discriminate | left; reflexivity | right; reflexivity].
Qed.

(** ** A request that was served *)
Lemma unshadowed_snoc : forall ep segs (tb : table) m' ep' h', matches ep segs ->
  unshadowed tb ep segs -> ~ diverts ep ep' segs -> unshadowed (tb ++ [(m', ep', h')]) ep segs.
Proof.
  induction ep as [|[c|] ep IH]; intros [|s r] tb m' ep' h' M U D; cbn [matches unshadowed] in *; try contradiction.
  - exact I.
  - destruct M as [-> M]. rewrite with_const_app. destruct ep' as [|[c'|] e'].
    + cbn. rewrite app_nil_r. exact U.
    + match goal with |- context[with_const s [?x]] =>
        replace (with_const s [x]) with (if ustr_eqb s c' then [(m', e', h')] else [])
          by (cbn; destruct (ustr_eqb s c'); reflexivity) end.
      destruct (ustr_eqb s c') eqn:E.
      * apply IH; [exact M | exact U|]. intros X. apply D. cbn. split; [|exact X].
        apply ustr_eqb_eq, E.
      * rewrite app_nil_r. exact U.
    + cbn. rewrite app_nil_r. exact U.
  - destruct U as [C U]. rewrite with_const_app, with_var_app, C. destruct ep' as [|[c'|] e'].
    + cbn. rewrite app_nil_r. split; [reflexivity | exact U].
    + change (with_var [(m', Val c' :: e', h')]) with (@nil (method * entry_point * H)). rewrite app_nil_r.
      split; [|exact U]. cbn. destruct (ustr_eqb s c') eqn:E; [|reflexivity].
      exfalso. apply D. cbn. symmetry. apply ustr_eqb_eq, E.
    + split; [reflexivity|]. change (with_var [(m', Var :: e', h')]) with [(m', e', h')].
      apply IH; [exact M | exact U | exact D].
Qed.

Lemma unshadowed_accept (gs : table) g ep segs : matches ep segs -> unshadowed (accepted gs) ep segs ->
  ~ diverts ep (snd (fst g)) segs -> unshadowed (accepted (gs ++ [g])) ep segs.
Proof.
  intros M U D. destruct g as [[m' ep'] h']. destruct (accepted_snoc gs (m', ep', h')) as [-> | ->]; [exact U|].
  apply unshadowed_snoc; assumption.
Qed.

Lemma kept (gs : table) : forall gs' m ep h segs, In (m, ep, h) (accepted gs) -> matches ep segs ->
  unshadowed (accepted gs) ep segs -> (forall g, In g gs' -> ~ diverts ep (snd (fst g)) segs) ->
  route (build (gs ++ gs')) m (Some segs) = Ok (inl h).
Proof.
  intros gs' m ep h segs I M U D. apply served_by_iff. exists ep.
  split; [apply never_replaced, I | split; [exact M|]]. clear I h m.
  induction gs' as [|g gs' IH] using rev_ind; [rewrite app_nil_r; exact U|].
  rewrite app_assoc. apply unshadowed_accept; [exact M | |].
  - apply IH. intros x X. apply D, in_app_iff. left; exact X.
  - apply D, in_app_iff. right; left; reflexivity.
Qed.

(** An entry point of the table does not divert a request of an entry point that is not shadowed. *)
Lemma present_no_divert : forall ep segs (tb : table) g, In g tb -> matches ep segs -> unshadowed tb ep segs ->
  ~ diverts ep (snd (fst g)) segs.
Proof.
  induction ep as [|[c|] ep IH]; intros [|s r] tb [[m' ep'] h'] J M U D; cbn [matches unshadowed fst snd] in *;
    try contradiction.
  - destruct M as [-> M]. destruct ep' as [|[c'|] e']; cbn in D; try contradiction. destruct D as [<- D].
    apply (IH r (with_const s tb) (m', e', h')); [|exact M | exact U | exact D].
    apply (sel_In (Some s)). exists (Val s). split; [reflexivity | exact J].
  - destruct U as [C U]. destruct ep' as [|[c'|] e']; cbn in D; try contradiction.
    + subst c'. assert (X : In (m', e', h') (with_const s tb)).
      { apply (sel_In (Some s)). exists (Val s). split; [reflexivity | exact J]. }
      rewrite C in X. exact X.
    + apply (IH r (with_var tb) (m', e', h')); [|exact M | exact U | exact D].
      apply (sel_In None). exists Var. split; [reflexivity | exact J].
Qed.

Lemma route_spec_diverted : forall ep segs (tb : table) m m' ep' h', matches ep segs -> unshadowed tb ep segs ->
  diverts ep ep' segs -> route_spec (tb ++ [(m', ep', h')]) m segs = route_spec [(m', ep', h')] m segs.
Proof.
  induction ep as [|[c|] ep IH]; intros [|s r] tb m m' ep' h' M U D; cbn [matches unshadowed] in *; try contradiction.
  - destruct M as [-> M]. destruct ep' as [|[c'|] e']; cbn in D; try contradiction. destruct D as [<- D].
    transitivity (route_spec (with_const s tb ++ [(m', e', h')]) m r).
    + cbn [route_spec]. rewrite with_const_app.
      match goal with |- context[with_const s [?x]] =>
        replace (with_const s [x]) with [(m', e', h')] by (cbn; rewrite ustr_eqb_refl; reflexivity) end.
      destruct (with_const s tb); reflexivity.
    + etransitivity; [exact (IH r (with_const s tb) m m' e' h' M U D)|]. cbn. rewrite ustr_eqb_refl. reflexivity.
  - destruct U as [C U]. destruct ep' as [|[c'|] e']; cbn in D; try contradiction.
    + subst c'. cbn [route_spec]. rewrite with_const_app, C.
      match goal with |- context[with_const s [?x]] =>
        replace (with_const s [x]) with [(m', e', h')] by (cbn; rewrite ustr_eqb_refl; reflexivity) end.
      reflexivity.
    + transitivity (route_spec (with_var tb ++ [(m', e', h')]) m r).
      * cbn [route_spec]. rewrite with_const_app, with_var_app, C.
        change (with_const s [(m', Var :: e', h')]) with (@nil (method * entry_point * H)).
        change (with_var [(m', Var :: e', h')]) with [(m', e', h')]. cbn [app].
        destruct (with_var tb); reflexivity.
      * exact (IH r (with_var tb) m m' e' h' M U D).
Qed.

Lemma route_one m m' ep' h' segs :
  (m' = m /\ matches ep' segs -> route (build [(m', ep', h' : H)]) m (Some segs) = Ok (inl h')) /\
  (~ (m' = m /\ matches ep' segs) -> exists e, route (build [(m', ep', h')]) m (Some segs) = Ok (inr e)).
Proof.
  split.
  - intros [-> M]. apply served_by_iff. exists ep'. rewrite accepted_one.
    split; [left; reflexivity | split; [exact M|]].
    revert segs M. induction ep' as [|[c|] e IH]; intros [|s r] M; cbn in M; try contradiction; cbn.
    + exact I.
    + destruct M as [-> M]. rewrite ustr_eqb_refl. apply IH, M.
    + split; [reflexivity | apply IH, M].
  - intros N. rewrite routing_refines, accepted_one. destruct (route_spec [(m', ep', h')] m segs) as [h|e] eqn:E.
    + exfalso. apply N. apply route_spec_sound in E. destruct E as (ep & [X|[]] & M). injection X as -> -> ->.
      split; [reflexivity | exact M].
    + exists e. reflexivity.
Qed.

Lemma diverted (gs : table) m ep h segs m' ep' h' : In (m, ep, h) (accepted gs) -> matches ep segs ->
  unshadowed (accepted gs) ep segs -> diverts ep ep' segs ->
  (m' = m /\ matches ep' segs -> route (build (gs ++ [(m', ep', h')])) m (Some segs) = Ok (inl h')) /\
  (~ (m' = m /\ matches ep' segs) ->
     exists e, route (build (gs ++ [(m', ep', h')])) m (Some segs) = Ok (inr e)).
Proof.
  intros I M U D.
  assert (E : route (build (gs ++ [(m', ep', h')])) m (Some segs) = route (build [(m', ep', h')]) m (Some segs)).
  { rewrite !routing_refines, accepted_one. f_equal.
    assert (T : taken (accepted gs) m' ep' = false).
    { destruct (taken (accepted gs) m' ep') eqn:T; [|reflexivity]. apply taken_In in T. destruct T as [x J].
      destruct (present_no_divert ep segs (accepted gs) _ J M U D). }
    unfold accepted. rewrite fold_left_app. cbn [fold_left]. unfold accept at 1. cbn [fst snd].
    fold (accepted gs). rewrite T. exact (route_spec_diverted ep segs (accepted gs) m m' ep' h' M U D). }
  rewrite E. apply route_one.
Qed.

Lemma constants_safe : forall ep ep' segs, all_constants ep -> ~ diverts ep ep' segs.
Proof.
  unfold all_constants. induction ep as [|[c|] ep IH]; intros [|[c'|] e'] segs A; cbn; auto;
    try (destruct segs; auto; fail).
  - destruct segs as [|s r]; [auto|]. intros [_ D]. apply (IH e' r); [|exact D]. intros X. apply A. right; exact X.
  - intros _. apply A. left; reflexivity.
  - intros _. apply A. left; reflexivity.
Qed.

Lemma variables_harmless : forall ep ep' segs, no_more_constants ep ep' -> ~ diverts ep ep' segs.
Proof.
  induction ep as [|[c|] ep IH]; intros [|[c'|] e'] [|s r] A; cbn in *; auto.
  - intros [_ D]. exact (IH e' r A D).
Qed.

Lemma constants_unshadowed : forall ep segs (tb : table), all_constants ep -> matches ep segs -> unshadowed tb ep segs.
Proof.
  unfold all_constants. induction ep as [|[c|] ep IH]; intros [|s r] tb A M; cbn in *; try contradiction; auto.
  - apply IH; [|apply M]. intros X. apply A. right; exact X.
  - exfalso. apply A. left; reflexivity.
Qed.

Lemma constants_keep (gs gs' : table) m ep h segs : In (m, ep, h) (accepted gs) -> matches ep segs -> all_constants ep ->
  unshadowed (accepted gs) ep segs /\ route (build (gs ++ gs')) m (Some segs) = Ok (inl h).
Proof.
  intros I M A. pose proof (constants_unshadowed ep segs (accepted gs) A M) as U. split; [exact U|].
  apply (kept gs gs' m ep h segs I M U). intros g _. apply constants_safe, A.
Qed.

Lemma no_constant_no_loss (gs gs' : table) m ep h segs : In (m, ep, h) (accepted gs) -> matches ep segs ->
  unshadowed (accepted gs) ep segs -> (forall g, In g gs' -> no_more_constants ep (snd (fst g))) ->
  route (build (gs ++ gs')) m (Some segs) = Ok (inl h).
Proof.
  intros I M U A. apply (kept gs gs' m ep h segs I M U). intros g J. apply variables_harmless, A, J.
Qed.
End Growth.
