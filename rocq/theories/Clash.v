(** * Proofs for C100: tables of procedures that do not get in each other's way. *)
From Verif Require Import Base Procedure Router RouterSpec RouterProofs GrowthSpec Growth ClashSpec.

Lemma clash_sym : forall a b, clash a b -> clash b a.
Proof.
  induction a as [|[c|] a IH]; intros [|[c'|] b]; cbn; auto. intros [-> X]. auto.
Qed.

Lemma clash_diverts : forall a b segs, diverts a b segs -> clash a b.
Proof.
  induction a as [|[c|] a IH]; intros [|[c'|] b] [|s r]; cbn; auto; try contradiction.
  - intros [-> X]. split; [reflexivity | exact (IH b r X)].
  - apply IH.
Qed.

(** A path that any entry point matches. *)
Lemma some_path : forall a : entry_point, exists segs, matches a segs.
Proof.
  induction a as [|[c|] a [segs IH]]; [exists [] | exists (c :: segs) | exists ([] :: segs)]; cbn; auto.
Qed.

(** Where two entry points clash one of them takes a request of the other. *)
Lemma clash_takes : forall a b, clash a b ->
  exists segs, (matches a segs /\ diverts a b segs) \/ (matches b segs /\ diverts b a segs).
Proof.
  induction a as [|[c|] a IH]; intros [|[c'|] b]; cbn; try contradiction.
  - intros [<- X]. destruct (IH b X) as (segs & [[A B]|[A B]]); exists (c :: segs); [left | right]; auto.
  - intros _. destruct (some_path b) as [segs B]. exists (c :: segs). right. cbn. auto.
  - intros _. destruct (some_path a) as [segs B]. exists (c' :: segs). left. cbn. auto.
  - intros X. destruct (IH b X) as (segs & [[A B]|[A B]]); exists ([] :: segs); [left | right]; auto.
Qed.

Lemma clashb_iff : forall a b, clashb a b = true <-> clash a b.
Proof.
  induction a as [|[c|] a IH]; intros [|[c'|] b]; cbn; try (split; [discriminate | contradiction]); try (split; auto; fail).
  - rewrite andb_true_iff, ustr_eqb_eq, IH. reflexivity.
  - apply IH.
Qed.

Section Clash.
Context {H : Type}.
Notation table := (list (method * entry_point * H)).

Lemma check_iff (gs : table) : check_table gs = true <-> clash_free gs.
Proof.
  unfold check_table, clash_free. rewrite forallb_forall. split.
  - intros A g g' I J C. specialize (A g I). rewrite forallb_forall in A. specialize (A g' J).
    apply clashb_iff in C. rewrite C in A. discriminate.
  - intros A g I. apply forallb_forall. intros g' J. destruct (clashb _ _) eqn:E; [|reflexivity].
    exfalso. apply (A g g' I J). apply clashb_iff, E.
Qed.

Lemma accepted_In (gs : table) g : In g (accepted gs) -> In g gs.
Proof.
  intros I. apply accepted_spec in I. destruct I as (l1 & l2 & -> & _). apply in_app_iff. right; left; reflexivity.
Qed.

Lemma clash_free_accepted (gs : table) : clash_free gs <-> clash_free (accepted gs).
Proof.
  split; intros C.
  - intros g g' I J. apply C; apply accepted_In; assumption.
  - intros [[m ep] h] [[m' ep'] h'] I J. apply registered_accepted in I, J. destruct I as [x I], J as [y J].
    exact (C _ _ I J).
Qed.

(** An entry point of a table is not shadowed if nothing in the table diverts its request. *)
Lemma undiverted_unshadowed : forall ep segs (tb : table), matches ep segs ->
  (forall g, In g tb -> ~ diverts ep (snd (fst g)) segs) -> unshadowed tb ep segs.
Proof.
  induction ep as [|[c|] ep IH]; intros [|s r] tb M D; cbn [matches unshadowed] in *; try contradiction; auto.
  - destruct M as [-> M]. apply IH; [exact M|]. intros [[m' e'] h'] J X.
    apply (sel_In (Some s)) in J. destruct J as ([c|] & E & J); [|discriminate]. injection E as ->.
    apply (D _ J). cbn. split; [reflexivity | exact X].
  - split.
    + destruct (with_const s tb) as [|[[m' e'] h'] l] eqn:C; [reflexivity|]. exfalso.
      assert (J : In (m', e', h') (with_const s tb)) by (rewrite C; left; reflexivity).
      apply (sel_In (Some s)) in J. destruct J as ([c|] & E & J); [|discriminate]. injection E as ->.
      apply (D _ J). cbn. reflexivity.
    + apply IH; [exact M|]. intros [[m' e'] h'] J X.
      apply (sel_In None) in J. destruct J as ([c|] & E & J); [discriminate|]. exact (D _ J X).
Qed.

Lemma clash_free_unshadowed (gs : table) ep segs : clash_free gs -> (exists m h, In (m, ep, h) gs) -> matches ep segs ->
  unshadowed (accepted gs) ep segs.
Proof.
  intros C (m & h & I) M. apply undiverted_unshadowed; [exact M|]. intros g J D. apply clash_diverts in D.
  exact (C (m, ep, h) g I (accepted_In gs g J) D).
Qed.

Lemma clash_free_all (gs : table) : clash_free gs -> forall m ep h segs, In (m, ep, h) (accepted gs) -> matches ep segs ->
  route (build gs) m (Some segs) = Ok (inl h).
Proof.
  intros C m ep h segs I M. apply (routing_complete gs m ep h segs I M).
  apply clash_free_unshadowed; [exact C | | exact M]. exists m, h. apply accepted_In, I.
Qed.

Lemma diverted_lost (gs : table) m ep h m' ep' h' segs : NoDup (map snd (accepted gs)) ->
  In (m, ep, h) (accepted gs) -> In (m', ep', h') (accepted gs) -> matches ep segs -> diverts ep ep' segs ->
  route (build gs) m (Some segs) <> Ok (inl h).
Proof.
  intros N I J M D R. apply served_by_iff in R. destruct R as (e & I2 & M2 & U).
  assert (E : (m, e, h) = (m, ep, h)).
  { revert N I I2. generalize (accepted gs). intros tb. induction tb as [|g tb IH]; [intros _ []|]. cbn.
    intros N. inversion N as [|? ? N1 N2]; subst. intros [->|A] [B|B].
    - symmetry; exact B.
    - exfalso. apply N1. apply in_map_iff. exists (m, e, h). auto.
    - exfalso. apply N1. subst g. apply in_map_iff. exists (m, ep, h). auto.
    - exact (IH N2 A B). }
  injection E as ->. exact (present_no_divert ep segs (accepted gs) _ J M U D).
Qed.

Lemma clash_free_iff (gs : table) : NoDup (map snd (accepted gs)) ->
  (forall m ep h segs, In (m, ep, h) (accepted gs) -> matches ep segs -> route (build gs) m (Some segs) = Ok (inl h)) <->
  clash_free gs.
Proof.
  intros N. split; [|apply clash_free_all]. intros A. apply clash_free_accepted.
  intros [[m ep] h] [[m' ep'] h'] I J C. cbn [fst snd] in C. apply clash_takes in C.
  destruct C as (segs & [[M D]|[M D]]).
  - exact (diverted_lost gs m ep h m' ep' h' segs N I J M D (A m ep h segs I M)).
  - exact (diverted_lost gs m' ep' h' m ep h segs N J I M D (A m' ep' h' segs J M)).
Qed.

Lemma search (gs : table) m segs h : clash_free gs ->
  route (build gs) m (Some segs) = Ok (inl h) <-> exists ep, In (m, ep, h) (accepted gs) /\ matches ep segs.
Proof.
  intros C. split; [apply routing_sound|]. intros (ep & I & M). exact (clash_free_all gs C m ep h segs I M).
Qed.

(** The walk along a path that an entry point matches does not end in 404. *)
Lemma matched_not_404 : forall ep segs (tb : table) m m' h', In (m', ep, h') tb -> matches ep segs ->
  unshadowed tb ep segs -> route_spec tb m segs <> inr NotFound.
Proof.
  induction ep as [|[c|] ep IH]; intros [|s r] tb m m' h' J M U; cbn [matches unshadowed route_spec] in *; try contradiction.
  - destruct (ends_here m tb); discriminate.
  - destruct M as [-> M].
    assert (X : In (m', ep, h') (with_const s tb)) by (apply (sel_In (Some s)); exists (Val s); auto).
    destruct (with_const s tb) as [|x l] eqn:C; [destruct X|]. exact (IH r (x :: l) m m' h' X M U).
  - destruct U as [C U]. rewrite C.
    assert (X : In (m', ep, h') (with_var tb)) by (apply (sel_In None); exists Var; auto).
    destruct (with_var tb) as [|x l] eqn:V; [destruct X|]. exact (IH r (x :: l) m m' h' X M U).
Qed.

Lemma wrong_method (gs : table) m segs : clash_free gs -> (exists m' ep h', In (m', ep, h') gs /\ matches ep segs) ->
  route (build gs) m (Some segs) = Ok (inr MethodNotAllowed) <-> ~ exists ep h, In (m, ep, h) gs /\ matches ep segs.
Proof.
  intros C (m' & ep & h' & I & M). split.
  - intros R (e & h & J & M2). apply registered_accepted in J. destruct J as [x J].
    rewrite (clash_free_all gs C m e x segs J M2) in R. discriminate.
  - intros N. apply registered_accepted in I. destruct I as [x I].
    assert (U : unshadowed (accepted gs) ep segs).
    { apply clash_free_unshadowed; [exact C | | exact M]. exists m', x. apply accepted_In, I. }
    pose proof (matched_not_404 ep segs (accepted gs) m m' x I M U) as F.
    rewrite routing_refines in *. destruct (route_spec (accepted gs) m segs) as [h|[|]] eqn:E; [|contradiction | reflexivity].
    exfalso. apply N. apply route_spec_sound in E. destruct E as (e & J & M2). exists e, h.
    split; [apply accepted_In, J | exact M2].
Qed.

Lemma clash_free_grows (gs gs' : table) m segs h : clash_free (gs ++ gs') ->
  route (build gs) m (Some segs) = Ok (inl h) -> route (build (gs ++ gs')) m (Some segs) = Ok (inl h).
Proof.
  intros C R. apply routing_sound in R. destruct R as (ep & I & M). apply (clash_free_all _ C m ep h segs); [|exact M].
  apply never_replaced, I.
Qed.
End Clash.
