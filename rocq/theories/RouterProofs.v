(** * Proofs about routing. *)
From Verif Require Import Base Procedure Router RouterSpec.
From Coq Require Import Permutation.

Lemma key_eqb_eq a b : key_eqb a b = true <-> a = b.
Proof.
  destruct a as [a|], b as [b|]; cbn; split; intros E; try discriminate; try reflexivity.
  - apply ustr_eqb_eq in E. congruence.
  - injection E as ->. apply ustr_eqb_refl.
Qed.
Lemma key_eqb_refl a : key_eqb a a = true.
Proof. apply key_eqb_eq; reflexivity. Qed.
Lemma key_eqb_neq a b : a <> b -> key_eqb a b = false.
Proof. intros N. destruct (key_eqb a b) eqn:E; [|reflexivity]. apply key_eqb_eq in E. contradiction. Qed.

Lemma method_eqb_eq a b : method_eqb a b = true <-> a = b.
Proof. unfold method_eqb. destruct (method_eq_dec a b); split; congruence. Qed.
Lemma method_eqb_refl a : method_eqb a a = true.
Proof. apply method_eqb_eq; reflexivity. Qed.

Lemma as_option_inj a b : as_option a = as_option b -> a = b.
Proof. destruct a, b; cbn; congruence. Qed.

Lemma same_entry_eq : forall a b, same_entry a b = true <-> a = b.
Proof.
  induction a as [|x a IH]; intros [|y b]; cbn; split; intros E; try discriminate; try reflexivity.
  - apply andb_true_iff in E. destruct E as [E1 E2]. apply key_eqb_eq, as_option_inj in E1.
    apply IH in E2. congruence.
  - injection E as -> ->. rewrite key_eqb_refl. apply IH. reflexivity.
Qed.

Section Proofs.
Context {H : Type}.
Notation table := (list (method * entry_point * H)).

Definition sel (k : option ustr) (tb : table) : table :=
  match k with Some s => with_const s tb | None => with_var tb end.

Lemma sel_app k a b : sel k (a ++ b) = sel k a ++ sel k b.
Proof. destruct k; apply flat_map_app. Qed.
Lemma sel_cons k g b : sel k (g :: b) = sel k [g] ++ sel k b.
Proof. apply (sel_app k [g] b). Qed.

Lemma sel_one k m ep h :
  sel k [(m, ep, h)] =
  match ep with
  | [] => []
  | sg :: r => if key_eqb k (as_option sg) then [(m, r, h)] else []
  end.
Proof.
  destruct k as [s|], ep as [|[c|] r]; cbn; try reflexivity.
  destruct (ustr_eqb s c); reflexivity.
Qed.

Lemma sel_In k m ep h tb :
  In (m, ep, h) (sel k tb) <-> exists sg, as_option sg = k /\ In (m, sg :: ep, h) tb.
Proof.
  induction tb as [|[[m' ep'] h'] tb IH].
  - split; [destruct k; intros [] | intros (sg & _ & [])].
  - rewrite sel_cons, in_app_iff, sel_one, IH. split.
    + intros [I|(sg & E & I)].
      * destruct ep' as [|sg r]; [destruct I|].
        destruct (key_eqb k (as_option sg)) eqn:E; [|destruct I].
        apply key_eqb_eq in E. destruct I as [I|[]]. injection I as -> -> ->.
        exists sg. split; [congruence | left; reflexivity].
      * exists sg. split; [exact E | right; exact I].
    + intros (sg & E & [I|I]).
      * injection I as -> -> ->. left. subst k. rewrite key_eqb_refl. left; reflexivity.
      * right. exists sg. auto.
Qed.

Lemma taken_In (tb : table) m ep : taken tb m ep = true <-> exists h, In (m, ep, h) tb.
Proof.
  unfold taken. rewrite existsb_exists. split.
  - intros ([[m' ep'] h] & I & E). cbn in E. apply andb_true_iff in E. destruct E as [E1 E2].
    apply method_eqb_eq in E1. apply same_entry_eq in E2. subst. exists h. exact I.
  - intros (h & I). exists (m, ep, h). split; [exact I|]. cbn.
    rewrite method_eqb_refl. apply same_entry_eq. reflexivity.
Qed.

Lemma taken_sel tb m sg r : taken (sel (as_option sg) tb) m r = taken tb m (sg :: r).
Proof.
  apply eq_true_iff_eq. rewrite !taken_In. split; intros (h & I); exists h.
  - apply sel_In in I. destruct I as (sg' & E & I). apply as_option_inj in E. subst. exact I.
  - apply sel_In. exists sg. auto.
Qed.

Lemma ends_here_app m (a b : table) : ends_here m (a ++ b) = ends_here m a ++ ends_here m b.
Proof. apply flat_map_app. Qed.

Lemma ends_here_In m h (tb : table) : In h (ends_here m tb) <-> In (m, [], h) tb.
Proof.
  unfold ends_here. rewrite in_flat_map. split.
  - intros ([[m' [|sg ep]] h'] & I & J); [|destruct J].
    destruct (method_eqb m m') eqn:E; [|destruct J]. apply method_eqb_eq in E.
    destruct J as [->|[]]. congruence.
  - intros I. exists (m, [], h). split; [exact I|]. rewrite method_eqb_refl. left; reflexivity.
Qed.

(** The trie represents the table. *)
Inductive rep : trie H -> table -> Prop :=
| rep_intro t tb :
    (forall m, get_leaf m (leafs t) = hd_error (ends_here m tb)) ->
    (forall k c, get_key k (children t) = Some c -> sel k tb <> []) ->
    (forall k c, get_key k (children t) = Some c -> rep c (sel k tb)) ->
    (forall k, get_key k (children t) = None -> sel k tb = []) ->
    rep t tb.

Lemma rep_new : rep trie_new [].
Proof. constructor; cbn; try discriminate; [reflexivity|]. intros [k|] _; reflexivity. Qed.

Lemma get_set_same k c (l : list (option ustr * trie H)) : get_key k (set_key k c l) = Some c.
Proof.
  induction l as [|[k' t] l IH]; cbn.
  - rewrite key_eqb_refl. reflexivity.
  - destruct (key_eqb k k') eqn:E; cbn; rewrite E; [reflexivity | exact IH].
Qed.
Lemma get_set_other k k' c (l : list (option ustr * trie H)) :
  k' <> k -> get_key k' (set_key k c l) = get_key k' l.
Proof.
  intros N. induction l as [|[k2 t] l IH]; cbn.
  - rewrite key_eqb_neq by exact N. reflexivity.
  - destruct (key_eqb k k2) eqn:E; cbn.
    + apply key_eqb_eq in E. subst k2. rewrite key_eqb_neq by exact N. reflexivity.
    + destruct (key_eqb k' k2); [reflexivity | exact IH].
Qed.
Lemma set_get k c (l : list (option ustr * trie H)) : get_key k l = Some c -> set_key k c l = l.
Proof.
  induction l as [|[k' t] l IH]; cbn; [discriminate|].
  destruct (key_eqb k k'); intros E.
  - injection E as ->. reflexivity.
  - rewrite IH by exact E. reflexivity.
Qed.

Lemma insert_free : forall ep t tb m h, rep t tb -> taken tb m ep = false ->
  snd (trie_insert t m ep h) = Ok tt /\ rep (fst (trie_insert t m ep h)) (tb ++ [(m, ep, h)]).
Proof.
  induction ep as [|sg r IH]; intros t tb m h R F; cbn [trie_insert].
  - inversion R as [? ? Hl Hc Hr Hn]; subst.
    assert (E : ends_here m tb = []).
    { destruct (ends_here m tb) as [|x l] eqn:E; [reflexivity|].
      assert (I : In x (ends_here m tb)) by (rewrite E; left; reflexivity).
      apply ends_here_In in I. assert (T : taken tb m [] = true) by (apply taken_In; eauto). congruence. }
    rewrite Hl, E. cbn. split; [reflexivity|]. constructor; cbn.
    + intros m'. rewrite ends_here_app. cbn. destruct (method_eqb m' m) eqn:M.
      * apply method_eqb_eq in M. subst m'. rewrite E. reflexivity.
      * rewrite Hl. rewrite app_nil_r. reflexivity.
    + intros k c G. rewrite sel_app, sel_one, app_nil_r. apply (Hc k c G).
    + intros k c G. rewrite sel_app, sel_one, app_nil_r. apply (Hr k c G).
    + intros k G. rewrite sel_app, sel_one, app_nil_r. apply (Hn k G).
  - inversion R as [? ? Hl Hc Hr Hn]; subst.
    set (key := as_option sg) in *.
    set (child := match get_key key (children t) with Some c => c | None => trie_new end).
    assert (RC : rep child (sel key tb)).
    { unfold child. destruct (get_key key (children t)) as [c|] eqn:G.
      - apply (Hr key c G).
      - rewrite (Hn key G). apply rep_new. }
    specialize (IH child (sel key tb) m h RC).
    assert (F' : taken (sel key tb) m r = false) by (unfold key; rewrite taken_sel; exact F).
    specialize (IH F'). destruct (trie_insert child m r h) as [c e]. cbn in *.
    destruct IH as [IH1 IH2]. split; [exact IH1|].
    constructor; cbn.
    + intros m'. rewrite ends_here_app. cbn. rewrite app_nil_r. apply Hl.
    + intros k c' G. rewrite sel_app, sel_one. fold key.
      destruct (key_eqb k key) eqn:K.
      * destruct (sel k tb); discriminate.
      * rewrite app_nil_r. rewrite get_set_other in G; [apply (Hc k c' G)|].
        intros ->. rewrite key_eqb_refl in K. discriminate.
    + intros k c' G. rewrite sel_app, sel_one. fold key.
      destruct (key_eqb k key) eqn:K.
      * apply key_eqb_eq in K. subst k. rewrite get_set_same in G. injection G as <-. exact IH2.
      * rewrite app_nil_r. rewrite get_set_other in G; [apply (Hr k c' G)|].
        intros ->. rewrite key_eqb_refl in K. discriminate.
    + intros k G. rewrite sel_app, sel_one. fold key.
      destruct (key_eqb k key) eqn:K.
      * apply key_eqb_eq in K. subst k. rewrite get_set_same in G. discriminate.
      * rewrite app_nil_r. rewrite get_set_other in G; [apply (Hn k G)|].
        intros ->. rewrite key_eqb_refl in K. discriminate.
Qed.

Lemma insert_taken : forall ep t tb m h, rep t tb -> taken tb m ep = true ->
  trie_insert t m ep h = (t, Err Invalid).
Proof.
  induction ep as [|sg r IH]; intros t tb m h R F; cbn [trie_insert];
    inversion R as [? ? Hl Hc Hr Hn]; subst.
  - apply taken_In in F. destruct F as [x I]. apply ends_here_In in I.
    rewrite Hl. destruct (ends_here m tb); [destruct I | reflexivity].
  - rewrite <- taken_sel in F. set (key := as_option sg) in *.
    destruct (get_key key (children t)) as [c|] eqn:G.
    + rewrite (IH c (sel key tb)); [| apply (Hr key c G) | exact F].
      rewrite (set_get _ _ _ G). destruct t; reflexivity.
    + rewrite (Hn key G) in F. discriminate.
Qed.

Lemma register_rep t tb g : rep t tb -> rep (register t g) (accept tb g).
Proof.
  intros R. destruct g as [[m ep] h]. unfold register, accept. cbn [fst snd].
  destruct (taken tb m ep) eqn:T.
  - rewrite (insert_taken _ _ _ _ h R T). exact R.
  - apply (insert_free ep t tb m h R T).
Qed.

Lemma build_rep_from gs : forall t tb, rep t tb -> rep (fold_left register gs t) (fold_left accept gs tb).
Proof.
  induction gs as [|g gs IH]; intros t tb R; cbn; [exact R|]. apply IH, register_rep, R.
Qed.
Lemma build_rep gs : rep (build gs) (accepted gs).
Proof. apply build_rep_from, rep_new. Qed.

Lemma route_rep : forall segs t tb m, rep t tb -> route_segs t m segs = route_spec tb m segs.
Proof.
  induction segs as [|s r IH]; intros t tb m R; inversion R as [? ? Hl Hc Hr Hn]; subst;
    cbn [route_segs route_spec].
  - rewrite Hl. destruct (ends_here m tb); reflexivity.
  - unfold get_child. destruct (get_key (Some s) (children t)) as [c|] eqn:G.
    + specialize (Hc _ _ G). specialize (Hr _ _ G). cbn in Hc, Hr.
      rewrite (IH c _ m Hr). destruct (with_const s tb); [contradiction | reflexivity].
    + pose proof (Hn _ G) as E. cbn in E. rewrite E.
      destruct (get_key None (children t)) as [c|] eqn:G'.
      * specialize (Hc _ _ G'). specialize (Hr _ _ G'). cbn in Hc, Hr.
        rewrite (IH c _ m Hr). destruct (with_var tb); [contradiction | reflexivity].
      * pose proof (Hn _ G') as E'. cbn in E'. rewrite E'. reflexivity.
Qed.

(** ** The table of accepted registrations *)
Definition gkey (g : method * entry_point * H) : method * entry_point := fst g.

Lemma accept_NoDup tb g : NoDup (map gkey tb) -> NoDup (map gkey (accept tb g)).
Proof.
  intros N. unfold accept. destruct (taken tb (fst (fst g)) (snd (fst g))) eqn:T; [exact N|].
  rewrite map_app. cbn. apply NoDup_Add with (a := gkey g) (l := map gkey tb).
  - rewrite <- (app_nil_r (map gkey tb)) at 1. apply Add_app.
  - split; [exact N|]. intros I. apply in_map_iff in I. destruct I as ([k h] & E & I).
    cbn in E. subst k. assert (taken tb (fst (fst g)) (snd (fst g)) = true).
    { apply taken_In. exists h. destruct g as [[? ?] ?]. exact I. }
    congruence.
Qed.
Lemma accepted_NoDup_from gs : forall tb, NoDup (map gkey tb) -> NoDup (map gkey (fold_left accept gs tb)).
Proof. induction gs as [|g gs IH]; intros tb N; cbn; [exact N|]. apply IH, accept_NoDup, N. Qed.
Lemma accepted_NoDup gs : NoDup (map gkey (accepted gs)).
Proof. apply accepted_NoDup_from. constructor. Qed.

Lemma accept_extends (tb : table) g : exists l, accept tb g = tb ++ l.
Proof. unfold accept. destruct (taken _ _ _); [exists [] | exists [g]]; [symmetry; apply app_nil_r | reflexivity]. Qed.
Lemma accepted_extends_from (gs : table) : forall tb, exists l, fold_left accept gs tb = tb ++ l.
Proof.
  induction gs as [|g gs IH]; intros tb; cbn.
  - exists []. symmetry; apply app_nil_r.
  - destruct (accept_extends tb g) as [l ->]. destruct (IH (tb ++ l)) as [l' ->].
    exists (l ++ l'). symmetry; apply app_assoc.
Qed.

Lemma accepted_no_conflict (gs : table) : forall tb, NoDup (map gkey (tb ++ gs)) -> fold_left accept gs tb = tb ++ gs.
Proof.
  induction gs as [|g gs IH]; intros tb N; cbn.
  - symmetry; apply app_nil_r.
  - assert (E : accept tb g = tb ++ [g]).
    { unfold accept. destruct (taken tb (fst (fst g)) (snd (fst g))) eqn:T; [|reflexivity].
      apply taken_In in T. destruct T as [h I]. rewrite map_app in N. cbn in N.
      apply NoDup_remove_2 in N. exfalso. apply N. apply in_app_iff. left.
      apply in_map_iff. exists (fst (fst g), snd (fst g), h). split; [|exact I].
      destruct g as [[? ?] ?]. reflexivity. }
    rewrite E, IH.
    + rewrite <- app_assoc. reflexivity.
    + rewrite <- app_assoc. exact N.
Qed.

(** ** Soundness and completeness of the specification's walk *)
Lemma route_spec_sound : forall segs (tb : table) m h, route_spec tb m segs = inl h ->
  exists ep, In (m, ep, h) tb /\ matches ep segs.
Proof.
  induction segs as [|s r IH]; intros tb m h; cbn [route_spec].
  - destruct (ends_here m tb) as [|x l] eqn:E; [discriminate|]. intros [= ->].
    exists []. split; [|exact I]. apply ends_here_In. rewrite E. left; reflexivity.
  - destruct (with_const s tb) eqn:C.
    + destruct (with_var tb) eqn:V; [discriminate|]. rewrite <- V. intros R.
      apply IH in R. destruct R as (ep & I & M). apply (sel_In None) in I.
      destruct I as ([c|] & E & I); [discriminate|]. exists (Var :: ep). split; [exact I | exact M].
    + rewrite <- C. intros R. apply IH in R. destruct R as (ep & I & M). apply (sel_In (Some s)) in I.
      destruct I as ([c|] & E & I); [|discriminate]. injection E as ->.
      exists (Val s :: ep). split; [exact I | split; [reflexivity | exact M]].
Qed.

Lemma sel_NoDup k tb : NoDup (map gkey tb) -> NoDup (map gkey (sel k tb)).
Proof.
  induction tb as [|[[m ep] h] tb IH]; intros N; [destruct k; constructor|].
  rewrite sel_cons, sel_one. inversion N as [|? ? N1 N2]; subst.
  destruct ep as [|sg r]; [apply IH, N2|].
  destruct (key_eqb k (as_option sg)) eqn:E; [|apply IH, N2].
  cbn. constructor; [|apply IH, N2].
  intros I. apply in_map_iff in I. destruct I as ([[m' ep'] h'] & E' & I). cbn in E'.
  injection E' as -> ->. apply sel_In in I. destruct I as (sg' & E2 & I).
  apply key_eqb_eq in E. rewrite E in E2. apply as_option_inj in E2. subst sg'.
  apply N1. apply in_map_iff. exists (m, sg :: r, h'). split; [reflexivity | exact I].
Qed.

Lemma NoDup_key_unique (tb : table) m ep h h' :
  NoDup (map gkey tb) -> In (m, ep, h) tb -> In (m, ep, h') tb -> h = h'.
Proof.
  induction tb as [|g tb IH]; intros N I J; [destruct I|]. inversion N as [|? ? N1 N2]; subst.
  destruct I as [->|I], J as [J|J].
  - congruence.
  - exfalso. apply N1. apply in_map_iff. exists (m, ep, h'). auto.
  - exfalso. apply N1. subst g. apply in_map_iff. exists (m, ep, h). auto.
  - apply IH; assumption.
Qed.

Lemma route_spec_complete : forall ep segs (tb : table) m h, NoDup (map gkey tb) -> In (m, ep, h) tb ->
  matches ep segs -> unshadowed tb ep segs -> route_spec tb m segs = inl h.
Proof.
  induction ep as [|sg ep IH]; intros [|s r] tb m h N I M U; cbn in M; try destruct sg; try contradiction;
    cbn [route_spec unshadowed] in *.
  - apply ends_here_In in I. destruct (ends_here m tb) as [|x l] eqn:E; [destruct I|].
    f_equal. assert (Hx : In (m, [], x) tb) by (apply ends_here_In; rewrite E; left; reflexivity).
    assert (Hh : In (m, [], h) tb) by (apply ends_here_In; rewrite E; exact I).
    apply (NoDup_key_unique tb m [] x h N Hx Hh).
  - destruct M as [-> M].
    assert (J : In (m, ep, h) (with_const s tb)) by (apply (sel_In (Some s)); exists (Val s); auto).
    destruct (with_const s tb) eqn:C; [destruct J|]. rewrite <- C in *.
    apply IH; [apply (sel_NoDup (Some s)), N | exact J | exact M | exact U].
  - destruct U as [C U]. rewrite C.
    assert (J : In (m, ep, h) (with_var tb)) by (apply (sel_In None); exists Var; auto).
    destruct (with_var tb) eqn:V; [destruct J|]. rewrite <- V in *.
    apply IH; [apply (sel_NoDup None), N | exact J | exact M | exact U].
Qed.

(** ** Order of registration *)
Lemma flat_map_perm {A B} (f : A -> list B) a b : Permutation a b -> Permutation (flat_map f a) (flat_map f b).
Proof. intros P. apply Permutation_flat_map, P. Qed.

Lemma route_spec_perm : forall segs (a b : table) m, Permutation a b -> NoDup (map gkey a) ->
  route_spec a m segs = route_spec b m segs.
Proof.
  induction segs as [|s r IH]; intros a b m P N; cbn [route_spec].
  - destruct (ends_here m a) as [|x l] eqn:A; destruct (ends_here m b) as [|y l'] eqn:B; try reflexivity.
    + exfalso. assert (J : In y (ends_here m b)) by (rewrite B; left; reflexivity).
      apply ends_here_In in J. apply (Permutation_in _ (Permutation_sym P)) in J.
      apply ends_here_In in J. rewrite A in J. destruct J.
    + exfalso. assert (J : In x (ends_here m a)) by (rewrite A; left; reflexivity).
      apply ends_here_In in J. apply (Permutation_in _ P) in J.
      apply ends_here_In in J. rewrite B in J. destruct J.
    + f_equal. assert (J : In x (ends_here m a)) by (rewrite A; left; reflexivity).
      assert (K : In y (ends_here m b)) by (rewrite B; left; reflexivity).
      apply ends_here_In in J. apply ends_here_In in K.
      apply (Permutation_in _ (Permutation_sym P)) in K. apply (NoDup_key_unique a m [] x y N J K).
  - assert (PC : Permutation (with_const s a) (with_const s b)) by (apply flat_map_perm, P).
    assert (PV : Permutation (with_var a) (with_var b)) by (apply flat_map_perm, P).
    destruct (with_const s a) as [|g l] eqn:A.
    + apply Permutation_nil in PC. rewrite PC.
      destruct (with_var a) as [|g l] eqn:V.
      * apply Permutation_nil in PV. rewrite PV. reflexivity.
      * destruct (with_var b) as [|g' l'] eqn:V'.
        { apply Permutation_sym, Permutation_nil in PV. discriminate. }
        rewrite <- V, <- V' in *. apply IH; [exact PV | apply (sel_NoDup None), N].
    + destruct (with_const s b) as [|g' l'] eqn:B.
      { apply Permutation_sym, Permutation_nil in PC. discriminate. }
      rewrite <- A, <- B in *. apply IH; [exact PC | apply (sel_NoDup (Some s)), N].
Qed.

(** Which registrations are accepted: the first ones for their method and entry point. *)
Lemma accepted_from_In (gs : table) : forall tb g, In g (fold_left accept gs tb) <->
  In g tb \/ exists l1 l2, gs = l1 ++ g :: l2 /\ ~ In (gkey g) (map gkey (tb ++ l1)).
Proof.
  induction gs as [|x gs IH]; intros tb g; cbn.
  - split; [auto|]. intros [I|(l1 & l2 & E & _)]; [exact I|]. destruct l1; discriminate.
  - rewrite IH. unfold accept. destruct (taken tb (fst (fst x)) (snd (fst x))) eqn:T.
    + assert (X : In (gkey x) (map gkey tb)).
      { apply taken_In in T. destruct T as [h I]. apply in_map_iff. eexists. split; [|exact I].
        destruct x as [[? ?] ?]. reflexivity. }
      split; intros [I|(l1 & l2 & E & F)]; try (left; exact I).
      * right. exists (x :: l1), l2. split; [rewrite E; reflexivity|].
        intros J. apply F. rewrite map_app in *. cbn in J. apply in_app_iff in J. apply in_app_iff.
        destruct J as [J|[J|J]]; [left; exact J | left; rewrite <- J; exact X | right; exact J].
      * destruct l1 as [|y l1]; injection E as -> ->.
        { exfalso. apply F. rewrite app_nil_r. exact X. }
        right. exists l1, l2. split; [reflexivity|]. intros J. apply F.
        rewrite map_app in *. apply in_app_iff in J. apply in_app_iff.
        destruct J as [J|J]; [left; exact J | right; right; exact J].
    + assert (X : ~ In (gkey x) (map gkey tb)).
      { intros J. apply in_map_iff in J. destruct J as ([k h] & E & J). cbn in E. subst k.
        assert (taken tb (fst (fst x)) (snd (fst x)) = true); [|congruence].
        apply taken_In. exists h. destruct x as [[? ?] ?]. exact J. }
      split.
      * intros [I|(l1 & l2 & E & F)].
        -- apply in_app_iff in I. destruct I as [I|[->|[]]]; [left; exact I|].
           right. exists [], gs. split; [reflexivity|]. rewrite app_nil_r. exact X.
        -- right. exists (x :: l1), l2. split; [rewrite E; reflexivity|].
           rewrite <- app_assoc in F. exact F.
      * intros [I|(l1 & l2 & E & F)].
        -- left. apply in_app_iff. left; exact I.
        -- destruct l1 as [|y l1]; injection E as -> ->.
           { left. apply in_app_iff. right. left. reflexivity. }
           right. exists l1, l2. split; [reflexivity|]. rewrite <- app_assoc. exact F.
Qed.
End Proofs.

Section Final.
Context {H : Type}.
Implicit Types gs : list (method * entry_point * H).

Lemma routing_refines gs m segs : route (build gs) m (Some segs) = Ok (route_spec (accepted gs) m segs).
Proof. cbn. rewrite (route_rep segs _ _ m (build_rep gs)). reflexivity. Qed.

Lemma build_snoc gs g : build (gs ++ [g]) = register (build gs) g.
Proof. unfold build. rewrite fold_left_app. reflexivity. Qed.

Lemma accepted_spec gs g : In g (accepted gs) <->
  exists l1 l2, gs = l1 ++ g :: l2 /\ forall h, ~ In (fst g, h) l1.
Proof.
  unfold accepted. rewrite accepted_from_In. split.
  - intros [[]|(l1 & l2 & E & F)]. exists l1, l2. split; [exact E|]. intros h I. apply F.
    cbn. apply in_map_iff. exists (fst g, h). auto.
  - intros (l1 & l2 & E & F). right. exists l1, l2. split; [exact E|]. cbn. intros I.
    apply in_map_iff in I. destruct I as ([k h] & K & I). cbn in K. subst k. apply (F h), I.
Qed.

Lemma registered_accepted gs m ep h : In (m, ep, h) gs -> exists h', In (m, ep, h') (accepted gs).
Proof.
  induction gs as [|g gs IH] using rev_ind; [intros []|].
  unfold accepted in *. intros J. rewrite fold_left_app. cbn. unfold accept at 1.
  apply in_app_iff in J. destruct J as [J|[J|[]]].
  - destruct (IH J) as [h3 Q]. exists h3. destruct (taken _ _ _); [exact Q|].
    apply in_app_iff. left. exact Q.
  - subst g. cbn. destruct (taken _ m ep) eqn:T.
    + apply taken_In in T. exact T.
    + exists h. apply in_app_iff. right. left. reflexivity.
Qed.

Lemma conflict_iff gs m ep h :
  snd (trie_insert (build gs) m ep h) = Err Invalid <-> exists h', In (m, ep, h') gs.
Proof.
  assert (E : (exists h', In (m, ep, h') gs) <-> taken (accepted gs) m ep = true).
  { rewrite taken_In. split; intros [h' I].
    - apply (registered_accepted gs m ep h' I).
    - apply accepted_spec in I. destruct I as (l1 & l2 & -> & _). exists h'.
      apply in_app_iff. right. left. reflexivity. }
  rewrite E. split; intros T.
  - destruct (taken (accepted gs) m ep) eqn:F; [reflexivity|].
    destruct (insert_free ep _ _ m h (build_rep gs) F) as [G _]. congruence.
  - rewrite (insert_taken ep _ _ m h (build_rep gs) T). reflexivity.
Qed.

Lemma failed_registration_unchanged gs m ep h :
  (exists h', In (m, ep, h') gs) -> build (gs ++ [(m, ep, h)]) = build gs.
Proof.
  intros X. apply (conflict_iff gs m ep h) in X. rewrite build_snoc. unfold register.
  destruct (taken (accepted gs) m ep) eqn:F.
  - rewrite (insert_taken ep _ _ m h (build_rep gs) F). reflexivity.
  - destruct (insert_free ep _ _ m h (build_rep gs) F) as [G _]. congruence.
Qed.

Lemma no_other_outcome gs m ep h :
  snd (trie_insert (build gs) m ep h) = Ok tt \/ snd (trie_insert (build gs) m ep h) = Err Invalid.
Proof.
  destruct (taken (accepted gs) m ep) eqn:F.
  - rewrite (insert_taken ep _ _ m h (build_rep gs) F). right. reflexivity.
  - destruct (insert_free ep _ _ m h (build_rep gs) F) as [G _]. left. exact G.
Qed.

Lemma routing_sound gs m segs h : route (build gs) m (Some segs) = Ok (inl h) ->
  exists ep, In (m, ep, h) (accepted gs) /\ matches ep segs.
Proof. rewrite routing_refines. intros [= E]. apply route_spec_sound, E. Qed.

Lemma routing_complete gs m ep h segs :
  In (m, ep, h) (accepted gs) -> matches ep segs -> unshadowed (accepted gs) ep segs ->
  route (build gs) m (Some segs) = Ok (inl h).
Proof.
  intros I M U. rewrite routing_refines. f_equal.
  apply (route_spec_complete ep); [apply accepted_NoDup | exact I | exact M | exact U].
Qed.

Lemma never_replaced gs gs' m ep h : In (m, ep, h) (accepted gs) -> In (m, ep, h) (accepted (gs ++ gs')).
Proof.
  unfold accepted. rewrite fold_left_app. destruct (accepted_extends_from gs' (fold_left accept gs [])) as [l ->].
  intros I. apply in_app_iff. left. exact I.
Qed.

Lemma first_wins gs m segs h : route (build gs) m (Some segs) = Ok (inl h) ->
  exists ep l1 l2, gs = l1 ++ (m, ep, h) :: l2 /\ (forall h', ~ In (m, ep, h') l1) /\ matches ep segs.
Proof.
  intros R. destruct (routing_sound gs m segs h R) as (ep & I & M).
  apply accepted_spec in I. destruct I as (l1 & l2 & E & F). cbn in F. exists ep, l1, l2. auto.
Qed.

Lemma unreplaced (l1 l2 : list (method * entry_point * H)) m ep h segs :
  (forall h', ~ In (m, ep, h') l1) -> matches ep segs ->
  unshadowed (accepted (l1 ++ (m, ep, h) :: l2)) ep segs ->
  route (build (l1 ++ (m, ep, h) :: l2)) m (Some segs) = Ok (inl h).
Proof.
  intros F M U. apply (routing_complete _ m ep h segs); [|exact M|exact U].
  apply accepted_spec. exists l1, l2. auto.
Qed.

Lemma order_independent gs gs' m path : Permutation gs gs' -> NoDup (map fst gs) ->
  route (build gs) m path = route (build gs') m path.
Proof.
  intros P N. destruct path as [segs|]; [|reflexivity]. rewrite !routing_refines. f_equal.
  assert (N' : NoDup (map fst gs')) by (eapply Permutation_NoDup; [apply Permutation_map, P | exact N]).
  unfold accepted. rewrite !accepted_no_conflict by assumption. cbn.
  apply route_spec_perm; assumption.
Qed.
End Final.
