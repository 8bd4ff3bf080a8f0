(** * The macro that makes entry points: proofs (C90). *)
From Verif Require Import Base Procedure Router RouterSpec RouterProofs EntryMacro EntryMacroSpec.
Open Scope nat_scope.

Lemma expand_words ep : expand_all (map word ep) = Some ep.
Proof. induction ep as [|[s|] ep IH]; cbn; [reflexivity | rewrite IH; reflexivity | rewrite IH; reflexivity]. Qed.
Lemma expand_only : forall l ep, expand_all l = Some ep -> l = map word ep.
Proof.
  induction l as [|t l IH]; intros ep E; cbn in E; [injection E as <-; reflexivity|]. destruct t; cbn in E; try discriminate; destruct (expand_all l) as [r|]; try discriminate; injection E as <-; cbn; rewrite (IH r eq_refl); reflexivity.
Qed.
Lemma segments_written : forall ep, macro_segments (written ep) = Some (map word ep).
Proof.
  induction ep as [|s ep IH]; [reflexivity|]. destruct ep as [|s' ep]; [reflexivity|]. cbn [written] in *. cbn [macro_segments].
  change (option_map (cons (word s)) (macro_segments (written (s' :: ep))) = Some (map word (s :: s' :: ep))). cbn [written]. rewrite IH. reflexivity.
Qed.
Lemma segments_only : forall l ts, macro_segments l = Some ts -> forall ep, ts = map word ep -> l = written ep.
Proof.
  assert (G : forall n l ts, length l <= n -> macro_segments l = Some ts -> forall ep, ts = map word ep -> l = written ep).
  { induction n as [|n IH]; intros l ts L E ep M.
    - destruct l; [|cbn in L; lia]. cbn in E. injection E as <-. destruct ep; [reflexivity | discriminate].
    - destruct l as [|t l]; [cbn in E; injection E as <-; destruct ep; [reflexivity | discriminate]|]. cbn [macro_segments] in E. destruct l as [|c l].
      + injection E as <-. destruct ep as [|s [|]]; try discriminate. injection M as ->. reflexivity.
      + destruct c; try discriminate. destruct l as [|t' l]; [discriminate|]. destruct (macro_segments (t' :: l)) as [r|] eqn:Er; [|discriminate]. cbn in E. injection E as <-.
        destruct ep as [|s ep]; [discriminate|]. injection M as -> M. assert (X : t' :: l = written ep) by (apply (IH _ r); [cbn in L |- *; lia | exact Er | exact M]). cbn [written]. rewrite <- X.
        destruct ep; [discriminate | reflexivity]. }
  intros l ts. exact (G (length l) l ts (le_n _)).
Qed.
Theorem macro_exact l ep : entry_macro l = Some ep <-> l = written ep.
Proof.
  unfold entry_macro. split.
  - destruct (macro_segments l) as [ts|] eqn:E; [|discriminate]. intros X. apply (segments_only l ts E). apply expand_only, X.
  - intros ->. rewrite segments_written. apply expand_words.
Qed.
Lemma separate_written : forall ep, separate (written ep) = map word ep.
Proof.
  induction ep as [|s ep IH]; [reflexivity|]. cbn [written map]. destruct ep as [|s' ep]; [destruct s; reflexivity|]. unfold separate in *. cbn [filter].
  destruct s; cbn [word]; rewrite IH; reflexivity.
Qed.
Lemma underscores_written : forall ep, underscores (written ep) = var_count ep.
Proof.
  induction ep as [|s ep IH]; [reflexivity|]. rewrite var_count_cons, <- IH. cbn [written]. destruct ep as [|s' ep]; [destruct s; reflexivity|]. unfold underscores. cbn [filter]. destruct s; reflexivity.
Qed.
Lemma matches_words : forall ep segs, matches ep segs <-> Forall2 allows (map word ep) segs.
Proof.
  unfold allows. induction ep as [|[c|] ep IH]; intros [|s segs]; cbn [matches map word].
  - split; [intros _; constructor | intros _; exact I].
  - split; [intros [] | intros X; inversion X].
  - split; [intros [] | intros X; inversion X].
  - rewrite IH. split; [intros [-> X]; constructor; [right; reflexivity | exact X]|]. intros X. inversion X as [|? ? ? ? [A|A] B]; subst; [discriminate|]. injection A as ->. split; [reflexivity | exact B].
  - split; [intros [] | intros X; inversion X].
  - rewrite IH. split; [intros X; constructor; [left; reflexivity | exact X]|]. intros X. inversion X; assumption.
Qed.
Theorem macro_matches l ep segs : entry_macro l = Some ep -> matches ep segs <-> Forall2 allows (separate l) segs.
Proof. intros E. apply macro_exact in E. subst l. rewrite separate_written. apply matches_words. Qed.
Theorem macro_variables l ep : entry_macro l = Some ep -> var_count ep = underscores l.
Proof. intros E. apply macro_exact in E. subst l. symmetry. apply underscores_written. Qed.
Lemma same_entry_eq : forall a b, same_entry a b = true <-> a = b.
Proof.
  induction a as [|x a IH]; intros [|y b]; cbn [same_entry]; try (split; [reflexivity || discriminate | reflexivity || discriminate]).
  rewrite Bool.andb_true_iff, IH. split.
  - intros [K ->]. f_equal. destruct x as [s|], y as [s'|]; cbn in K; try discriminate; [|reflexivity]. apply ustr_eqb_eq in K. subst. reflexivity.
  - intros [= -> ->]. split; [|reflexivity]. destruct y as [s|]; cbn; [apply ustr_eqb_eq; reflexivity | reflexivity].
Qed.
Theorem macro_conflicts (H : Type) (tb : list (method * entry_point * H)) m l ep : entry_macro l = Some ep ->
  taken tb m ep = true <-> exists m' ep' h, In (m', ep', h) tb /\ m' = m /\ l = written ep'.
Proof.
  intros E. apply macro_exact in E. subst l. unfold taken. rewrite existsb_exists. split.
  - intros ([[m' ep'] h] & I & X). cbn [fst snd] in X. apply Bool.andb_true_iff in X. destruct X as [M S]. apply same_entry_eq in S. subst ep'. exists m', ep, h. split; [exact I|]. split; [|reflexivity]. destruct m, m'; (reflexivity || discriminate).
  - intros (m' & ep' & h & I & -> & W). exists (m, ep', h). split; [exact I|]. cbn [fst snd]. apply Bool.andb_true_iff. split; [destruct m; reflexivity|]. apply same_entry_eq.
    apply (f_equal entry_macro) in W. rewrite !(proj2 (macro_exact _ _) eq_refl) in W. injection W as ->. reflexivity.
Qed.
Lemma accepted_in (H : Type) (gs : list (method * entry_point * H)) g : In g (accepted gs) -> In g gs.
Proof. intros I. apply accepted_spec in I. destruct I as (l1 & l2 & -> & _). apply in_app_iff. right. left. reflexivity. Qed.
Theorem macro_routed (H : Type) (regs : list (method * list token * H)) gs m segs h :
  Forall2 (fun r g => fst (fst g) = fst (fst r) /\ entry_macro (snd (fst r)) = Some (snd (fst g)) /\ snd g = snd r) regs gs ->
  route (build gs) m (Some segs) = Ok (inl h) -> exists l, In (m, l, h) regs /\ Forall2 allows (separate l) segs.
Proof.
  intros Rg E. apply routing_sound in E. destruct E as (ep & I & M). apply accepted_in in I. induction Rg as [|[[m1 l1] h1] [[m2 e2] h2] regs gs (A & B & C) Rg IH]; [destruct I|].
  cbn [fst snd] in A, B, C. destruct I as [[= -> -> ->]|I].
  - subst. exists l1. split; [left; reflexivity|]. apply (proj1 (macro_matches _ _ _ B)), M.
  - destruct (IH I) as (l & J & X). exists l. split; [right; exact J | exact X].
Qed.
