(** * What the server makes of the client's requests. *)
From Verif Require Import Base Utf8 Decimal DepUrl Serde Procedure ScalarSpec PathSpec FieldSpec SerPath SerQuery SerHeader SerRequest
  DePath DeQuery DeHeader DeRequest Router RouterSpec RouterProofs DepHttp
  UrlProofs PathProofs PathTrip FieldProofs QueryProofs HeaderProofs FieldMore RequestSpec RequestProofs.
Open Scope N_scope.

Section Wf.
Context `{urlenv} `{floatlib}.

(** ** Well-formed strings stay well-formed *)
Lemma ascii_ok s : all_ascii s = true -> str_ok s = true.
Proof. apply forallb_impl. intros c. unfold is_ascii, is_scalar. cbv beta. lia. Qed.

Lemma scalar_text_ok : forall v s, wf_value v = true -> scalar_text v = Some s -> str_ok s = true.
Proof.
  induction v; intros t W E; cbn [scalar_text wf_value] in *; try discriminate.
  - destruct b; injection E as <-; reflexivity.
  - injection E as <-. apply ascii_ok, int_text_ascii.
  - injection E as <-. apply ascii_ok, fshow_ascii.
  - injection E as <-. apply ascii_ok, fshow_ascii.
  - injection E as <-. cbn. rewrite W. reflexivity.
  - injection E as <-. exact W.
  - injection E as <-. exact W.
  - eauto.
  - eauto.
Qed.

Lemma all_some_ok : forall vs ts, forallb wf_value vs = true -> all_some (map scalar_text vs) = Some ts ->
  Forall (fun t => str_ok t = true) ts.
Proof.
  induction vs as [|v vs IH]; intros ts W E; cbn in *; [injection E as <-; constructor|].
  apply andb_true_iff in W. destruct W as [W1 W2]. destruct (scalar_text v) as [t|] eqn:T; [|discriminate].
  destruct (all_some (map scalar_text vs)) as [r|]; [|discriminate]. injection E as <-.
  constructor; [exact (scalar_text_ok v t W1 T) | apply IH; auto].
Qed.
Lemma path_args_ok : forall v ts, wf_value v = true -> path_args v = Some ts -> Forall (fun t => str_ok t = true) ts.
Proof.
  induction v; intros ts W E; cbn [path_args wf_value] in *; try discriminate; eauto using all_some_ok.
  - injection E as <-. constructor.
  - injection E as <-. constructor.
Qed.
Lemma fill_ok : forall ep ts, entry_ok ep -> Forall (fun t => str_ok t = true) ts -> Forall (fun t => str_ok t = true) (fill ep ts).
Proof.
  induction ep as [|[c|] ep IH]; intros ts E T; cbn [fill]; [constructor| |].
  - constructor; [apply E; left; reflexivity|]. apply IH; [|exact T]. intros d I. apply E. right. exact I.
  - destruct T as [|t ts Ht T]; [constructor|]. constructor; [exact Ht|]. apply IH; [|exact T]. intros d I. apply E. right. exact I.
Qed.

Lemma cell_ok : forall v x, wf_value v = true -> cell scalar_text v = Some (Some x) -> str_ok x = true.
Proof.
  induction v; intros y W E; cbn [cell wf_value] in *; try discriminate; eauto;
    match type of E with option_map Some ?o = _ => destruct o as [t|] eqn:T; [|discriminate] end;
    injection E as <-; (eapply scalar_text_ok; [|exact T]); exact W.
Qed.
Lemma struct_pairs_ok : forall fs l, forallb (fun f => str_ok (fst f) && wf_value (snd f)) fs = true ->
  struct_pairs scalar_text (fun n => n) fs = Some l -> pairs_ok l = true.
Proof.
  induction fs as [|[n v] fs IH]; intros l W E; cbn [struct_pairs forallb fst snd] in *; [injection E as <-; reflexivity|].
  rewrite !andb_true_iff in W. destruct W as [[W1 W2] W3].
  destruct (cell scalar_text v) as [[x|]|] eqn:C; [| |discriminate];
    (destruct (struct_pairs scalar_text (fun n => n) fs) as [r|]; [|discriminate]); injection E as <-.
  - unfold pairs_ok. cbn [forallb fst snd]. rewrite W1, (cell_ok v x W2 C). apply (IH r); auto.
  - apply IH; auto.
Qed.
Lemma map_pairs_ok : forall kvs l, forallb (fun kv => wf_value (fst kv) && wf_value (snd kv)) kvs = true ->
  map_pairs scalar_text kvs = Some l -> pairs_ok l = true.
Proof.
  induction kvs as [|[k v] kvs IH]; intros l W E; cbn [map_pairs forallb fst snd] in *; [injection E as <-; reflexivity|].
  rewrite !andb_true_iff in W. destruct W as [[W1 W2] W3].
  destruct (cell scalar_text k) as [[y|]|] eqn:K; try discriminate.
  destruct (cell scalar_text v) as [[x|]|] eqn:C; [| |discriminate];
    (destruct (map_pairs scalar_text kvs) as [r|]; [|discriminate]); injection E as <-.
  - unfold pairs_ok. cbn [forallb fst snd]. rewrite (cell_ok k y W1 K), (cell_ok v x W2 C). apply (IH r); auto.
  - apply IH; auto.
Qed.
Lemma query_written_ok : forall v l, wf_value v = true -> query_written v = Some l -> pairs_ok l = true.
Proof.
  unfold query_written. induction v; intros l W E; cbn [written wf_value scalar_text] in *; try discriminate;
    try (injection E as <-; reflexivity); eauto using struct_pairs_ok, map_pairs_ok.
  destruct b; injection E as <-; reflexivity.
Qed.

Lemma pushes_good : forall ss p, Forall (fun t => str_ok t = true) ss -> good_path p -> good_path (fold_left push ss p).
Proof. induction ss as [|s ss IH]; intros p F G; [exact G|]. inversion F; subst. cbn. apply IH; [assumption | apply good_push; assumption]. Qed.

Lemma body_wf : forall v b, wf_value v = true -> body_of v = Some b -> forallb (fun f => str_ok (fst f) && wf_value (snd f)) (snd b) = true.
Proof.
  induction v; intros y W E; cbn [body_of wf_value] in *; try discriminate; eauto.
  - injection E as <-. exact W.
  - injection E as <-. exact W.
Qed.
Lemma field_wf fs k v : forallb (fun f => str_ok (fst f) && wf_value (snd f)) fs = true -> In (k, v) fs -> wf_value v = true.
Proof. rewrite forallb_forall. intros F I. specialize (F _ I). cbn in F. apply andb_true_iff in F. tauto. Qed.

(** ** The client's target *)
Definition target_of (r : reqb) (segs : list ustr) (q : option ustr) : Prop :=
  rb_target r = url_text segs q /\ good_path segs /\ query_ok q.

Lemma sends_target ep len b r : entry_ok ep -> forallb (fun f => str_ok (fst f) && wf_value (snd f)) (snd b) = true ->
  sends ep len b r -> exists tss ql, Forall (fun ts => length ts = var_count ep) tss /\
    target_of r (fold_left push (flat_map (fill ep) tss) [[]]) (option_map pairs_text ql) /\
    match ql with Some l => pairs_ok l = true /\ exists q, In (u "query", q) (snd b) /\ query_written q = Some l
             | None => forall q, ~ In (u "query", q) (snd b) end /\
    (NoDup (map fst (snd b)) -> exists ts, tss = [ts]).
Proof.
  intros E W S. destruct S as [ps q hs tss ql ls Pq F Q Hd|ts A]; cbn [snd] in *.
  - exists tss, ql.
    assert (Wp : Forall (fun v => wf_value v = true) match ps with [] => [SUnit] | _ => ps end).
    { assert (X : Forall (fun v => wf_value v = true) ps).
      { apply Forall_forall. intros v I. apply (field_wf _ (u "path") v W). unfold parts. apply in_or_app. left. apply in_map, I. }
      destruct ps; [constructor; [reflexivity | constructor] | exact X]. }
    split; [|split; [|split]].
    + clear - F. revert F. generalize (match ps with [] => [SUnit] | _ => ps end). intros l F.
      induction F as [|v ts vs tss [_ L] F IH]; constructor; auto.
    + split; [reflexivity|]. split.
      * apply pushes_good; [|exact good_root]. clear - E F Wp. revert F Wp. generalize (match ps with [] => [SUnit] | _ => ps end). intros l F.
        induction F as [|v ts vs tss [A L] F IH]; intros Wp; cbn [flat_map]; [constructor|]. inversion Wp; subst.
        apply Forall_app. split; [apply fill_ok; [exact E | apply (path_args_ok v); assumption] | apply IH; assumption].
      * destruct ql as [l|]; [|exact Logic.I]. cbn. apply pairs_text_chars.
        destruct q as [q|]; [|contradiction]. cbn in Q. apply (query_written_ok q l); [|exact Q].
        apply (field_wf _ (u "query") q W). unfold parts. apply in_or_app. right. left. reflexivity.
    + destruct ql as [l|].
      * destruct q as [q|]; [|contradiction]. cbn in Q.
        assert (I : In (u "query", q) (parts ps (Some q) hs)) by (unfold parts; apply in_or_app; right; left; reflexivity).
        split; [apply (query_written_ok q l); [apply (field_wf _ _ _ W I) | exact Q] | eauto].
      * destruct q as [q|]; [contradiction|]. intros q I. unfold parts in I. apply in_app_or in I. destruct I as [I|I].
        -- apply in_map_iff in I. destruct I as (? & I & _). discriminate I.
        -- cbn [app] in I. apply in_map_iff in I. destruct I as (? & I & _). discriminate I.
    + intros N. unfold parts in N. rewrite map_app, map_map in N. cbn [fst] in N. destruct ps as [|p [|p' ps]].
      * inversion F as [|? ts ? ? _ F']; subst. inversion F'; subst. eauto.
      * inversion F as [|? ts ? ? _ F']; subst. inversion F'; subst. eauto.
      * exfalso. cbn in N. inversion N as [|? ? N1 _]; subst. apply N1. left. reflexivity.
  - exists [ts], None. cbn [flat_map option_map]. rewrite app_nil_r. split; [constructor; [apply A | constructor]|].
    split; [|split; [intros q [] | eauto]]. split; [reflexivity|]. split; [|exact Logic.I].
    apply pushes_good; [|exact good_root]. apply fill_ok; [exact E|]. apply args_unit in A. destruct A as [-> _]. constructor.
Qed.

Lemma join_head p : good_path p -> match join [47] p with c :: _ => c <> 47 | [] => True end.
Proof.
  intros [F [->|(x & r & -> & N)]]; [exact Logic.I|]. inversion F as [|? ? E _]; subst. pose proof (enc_seg_chars _ E) as Ch.
  destruct x as [|c x]; [congruence|]. cbn [forallb] in Ch. apply andb_true_iff in Ch. destruct Ch as [Ch _].
  assert (C : c <> 47). { unfold seg_char in Ch. rewrite !andb_true_iff, !negb_true_iff in Ch. destruct Ch as [[_ Ch] _]. lia. }
  destruct r; exact C.
Qed.

Theorem client_target ep v len r : entry_ok ep -> wf_value v = true -> encode_request ep v len = Ok r ->
  (exists rest, rb_target r = 47 :: rest /\ hd_error rest <> Some 47) /\
  (forall c, In c (rb_target r) -> 33 <= c <= 126 /\ c <> 35) /\
  exists segs q, rb_target r = url_text segs q /\ parse_url (rb_target r) = Some (mkUrl (Some segs) q) /\
    forall b qv l, body_of v = Some b -> In (u "query", qv) (snd b) -> query_written qv = Some l -> query_pairs (mkUrl (Some segs) q) = l.
Proof.
  intros E W Enc. apply encode_ok_iff in Enc. destruct Enc as (b & B & S).
  pose proof (body_wf v b W B) as Wb. pose proof S as S'.
  destruct (sends_target ep len b r E Wb S) as (tss & ql & _ & (T & G & Qk) & Q & _).
  set (segs := fold_left push (flat_map (fill ep) tss) [[]]) in *.
  split; [|split].
  - rewrite T. unfold url_text. eexists. split; [reflexivity|]. pose proof (join_head segs G) as J.
    destruct (join [47] segs) as [|c rest]; [destruct ql; cbn; discriminate | cbn; congruence].
  - intros c I. rewrite T in I. pose proof (url_text_chars segs (option_map pairs_text ql) (proj1 G) Qk) as Ch.
    rewrite forallb_forall in Ch. specialize (Ch c I). unfold target_char in Ch. lia.
  - exists segs, (option_map pairs_text ql). split; [exact T|]. split; [rewrite T; apply parse_url_text; assumption|].
    intros b' qv l B' I Wq. rewrite B in B'. injection B' as <-. destruct ql as [l'|]; [|destruct (Q qv I)].
    destruct Q as (Ok' & q & Iq & Wq'). unfold query_pairs. cbn [u_query option_map]. rewrite (form_parse_pairs l' Ok').
    (* there is only one query field *)
    assert (q = qv) as ->; [|congruence]. clear - S' I Iq. destruct S' as [ps q0 hs tss ql ls _ _ _ _|]; cbn [snd] in *; [|contradiction].
    assert (X : forall w, In (u "query", w) (parts ps q0 hs) -> q0 = Some w).
    { intros w J. unfold parts in J. apply in_app_or in J. destruct J as [J|J]; [apply in_map_iff in J; destruct J as (? & J & _); discriminate J|].
      apply in_app_or in J. destruct J as [J|J]; [|apply in_map_iff in J; destruct J as (? & J & _); discriminate J].
      destruct q0 as [q0|]; [|contradiction]. destruct J as [[= <-]|[]]. reflexivity. }
    pose proof (X _ I). pose proof (X _ Iq). congruence.
Qed.

(** ** Entry points that cannot be reached (C27) *)
Definition eff (s : ustr) : ustr :=
  if ustr_eqb s dot || ustr_eqb s dotdot then []
  else let e := enc (seg_input s) in if ustr_eqb e dotdot || ustr_eqb e dot then [] else e.

Lemma push_nonempty p s : p <> [] -> push p s <> [].
Proof.
  intros N. unfold push. destruct (_ || _); [exact N|]. set (e := pct_encode _ _). unfold add_seg.
  destruct (ustr_eqb e dotdot); [destruct (is_root p); [exact N|]; destruct (removelast p); discriminate|].
  destruct (ustr_eqb e dot), (is_root p); try discriminate; destruct p; discriminate.
Qed.

Lemma removelast_length {A} (p : list A) x : p <> [] -> length (removelast p ++ [x]) = length p.
Proof.
  intros N. pose proof (app_removelast_last x N) as E. rewrite E at 2. rewrite !app_length. reflexivity.
Qed.

Lemma push_shape p s : p <> [] -> push p s = (if is_root p then [eff s] else p ++ [eff s]) \/
  (length (push p s) = length p).
Proof.
  intros N. unfold push, eff. fold (enc (seg_input s)). set (e := enc (seg_input s)). cbv zeta.
  destruct (_ || _) eqn:D; [auto|]. destruct (ustr_eqb e dotdot) eqn:D2; cbn [orb].
  - right. destruct (is_root p); [reflexivity | apply removelast_length, N].
  - destruct (ustr_eqb e dot); left; reflexivity.
Qed.
Lemma push_root_shape s : push [[]] s = [eff s].
Proof.
  unfold push, eff. fold (enc (seg_input s)). set (e := enc (seg_input s)). cbv zeta.
  destruct (_ || _) eqn:D; [reflexivity|]. destruct (ustr_eqb e dotdot) eqn:D2; cbn [orb]; [reflexivity|].
  destruct (ustr_eqb e dot); reflexivity.
Qed.

Lemma is_root_len p : is_root p = true -> length p = 1%nat.
Proof. intros R. apply is_root_true in R. subst. reflexivity. Qed.

Lemma pushes_shape : forall ss, ss <> [] ->
  let p := fold_left push ss [[]] in p <> [] /\ ((length p < length ss)%nat \/ p = map eff ss).
Proof.
  intros ss. induction ss as [|s ss IH] using rev_ind; [congruence|]. intros _. cbv zeta. rewrite fold_left_app. cbn [fold_left].
  destruct ss as [|s0 ss0].
  - cbn [fold_left app map]. rewrite push_root_shape. split; [discriminate | right; reflexivity].
  - destruct (IH ltac:(discriminate)) as [N C]. set (p := fold_left push (s0 :: ss0) [[]]) in *. set (ss := s0 :: ss0) in *.
    split; [apply push_nonempty, N|].
    assert (Lp : (length p <= length ss)%nat) by (destruct C as [C | ->]; [lia | rewrite map_length; lia]).
    assert (Ls : (1 <= length ss)%nat) by (unfold ss; cbn; lia).
    rewrite app_length, map_app. cbn [length map].
    destruct (push_shape p s N) as [-> | L].
    + destruct (is_root p) eqn:R; [left; cbn [length]; lia|]. destruct C as [C | C]; [left; rewrite app_length; cbn [length]; lia | right; rewrite C; reflexivity].
    + left. lia.
Qed.

Lemma pushes_bound : forall ss p, p <> [] -> (length (fold_left push ss p) <= length p + length ss)%nat.
Proof.
  induction ss as [|s ss IH]; intros p N; cbn [fold_left length]; [lia|].
  specialize (IH (push p s) (push_nonempty p s N)). destruct (push_shape p s N) as [E | L].
  - assert (L : (length (push p s) <= length p + 1)%nat); [|lia].
    rewrite E. destruct (is_root p); [destruct p; [congruence|]; cbn; lia | rewrite app_length; cbn; lia].
  - lia.
Qed.

Lemma fill_length : forall ep ts, length ts = var_count ep -> length (fill ep ts) = length ep.
Proof.
  induction ep as [|[c|] ep IH]; intros ts L; cbn [fill length]; [reflexivity | f_equal; apply IH; exact L |].
  destruct ts as [|t ts]; [discriminate|]. cbn [length]. f_equal. apply IH. cbn in L. injection L as ->. reflexivity.
Qed.
Lemma matches_length : forall ep segs, matches ep segs -> length ep = length segs.
Proof. induction ep as [|[c|] ep IH]; intros [|s segs] M; cbn in *; try contradiction; [reflexivity | f_equal; apply IH; tauto | f_equal; apply IH, M]. Qed.
Lemma matches_eff : forall ep ts, length ts = var_count ep -> matches ep (map eff (fill ep ts)) -> forall c, In (Val c) ep -> eff c = c.
Proof.
  induction ep as [|[d|] ep IH]; intros ts L M c I; [contradiction| |].
  - cbn [fill map matches] in M. destruct M as [E M]. destruct I as [[= ->]|I]; [auto | apply (IH ts L M c I)].
  - destruct ts as [|t ts]; [discriminate|]. cbn [fill map matches] in M. destruct I as [I|I]; [discriminate|].
    apply (IH ts); auto.
Qed.

Lemma enc_length s : (length s <= length (enc s))%nat.
Proof.
  unfold enc, pct_encode. induction s as [|c s IH]; [cbn; lia|]. cbn [flat_map length]. rewrite app_length.
  assert (X : (1 <= length (pct_char segment_set c))%nat).
  { unfold pct_char. destruct (_ && _); [cbn; lia|]. destruct (utf8_char_first c) as (b & r & -> & _). cbn. lia. }
  lia.
Qed.
Lemma enc_fixed s : enc s = s -> forallb (fun c => is_ascii c && negb (segment_set c)) s = true.
Proof.
  intros E. apply (f_equal (@length N)) in E. revert E. unfold enc, pct_encode. induction s as [|c s IH]; [reflexivity|].
  cbn [flat_map length forallb]. rewrite app_length. pose proof (enc_length s) as L. unfold enc, pct_encode in L.
  unfold pct_char at 1. destruct (is_ascii c && negb (segment_set c)).
  - cbn [length andb]. intros E. apply IH. lia.
  - intros E. destruct (utf8_char_first c) as (b & r & X & _). rewrite X in E. cbn in E. lia.
Qed.

Lemma segment_plain c : is_ascii c && negb (segment_set c) = true -> plain_char c.
Proof.
  intros K. unfold segment_set, path_set, is_ascii in K.
  assert (M : mem c [34; 35; 37; 47; 60; 62; 63; 92; 96; 123; 125] = false).
  { mem_simp. destruct enc_caret; cbn [andb] in K; lia. }
  unfold plain_char. split; [|split].
  - mem_simp. destruct enc_caret; cbn [andb] in K; lia.
  - intros I. unfold mem in M. rewrite <- not_true_iff_false in M. apply M. apply existsb_exists. exists c. split; [exact I | apply N.eqb_refl].
  - intros EC -> . rewrite EC in K. mem_simp. lia.
Qed.

Lemma eff_fixed c : str_ok c = true -> eff c = c -> c = [] \/ plain_const c.
Proof.
  intros Ok E. unfold eff in E. destruct (ustr_eqb c dot || ustr_eqb c dotdot) eqn:D; [auto|].
  cbv zeta in E. destruct (ustr_eqb (enc (seg_input c)) dotdot || ustr_eqb (enc (seg_input c)) dot); [auto|].
  assert (Ch : forallb seg_char c = true). { rewrite <- E. apply pct_encode_seg_char, seg_input_ok, Ok. }
  assert (Sx : forall x, In x c -> 32 < x /\ tab_or_nl x = false).
  { intros x I. rewrite forallb_forall in Ch. specialize (Ch x I). unfold seg_char, path_set, tab_or_nl in *.
    rewrite !andb_true_iff, !negb_true_iff in Ch. destruct Ch as [[[_ P] _] _]. rewrite !orb_false_iff in P.
    destruct P as [[[P _] _] _]. split; [lia|]. mem_simp. lia. }
  assert (Si : seg_input c = c).
  { unfold seg_input. assert (T : (if trim_segment then trim_matches c0_or_space c else c) = c).
    { destruct trim_segment; [|reflexivity]. apply trim_ends. intros a x b L _. unfold c0_or_space.
      assert (I : In x c) by (rewrite L; apply in_or_app; right; left; reflexivity). specialize (Sx x I). lia. }
    rewrite T. unfold strip_tabs. apply filter_all. intros x I. rewrite (proj2 (Sx x I)). reflexivity. }
  rewrite Si in E. pose proof (enc_fixed c E) as K. destruct c as [|x c]; [auto|]. right. split; [discriminate|].
  rewrite forallb_forall in K. apply orb_false_iff in D. destruct D as [D1 D2].
  split; [|split; [intros X; rewrite X in D1; discriminate D1 | intros X; rewrite X in D2; discriminate D2]].
  intros y I. apply segment_plain, K, I.
Qed.

Lemma push_root_empty : push [[]] [] = [[]].
Proof.
  unfold push. cbn [ustr_eqb list_eqb dot dotdot u orb]. unfold seg_input.
  assert (T : (if trim_segment then trim_matches c0_or_space [] else []) = []) by (destruct trim_segment; reflexivity).
  rewrite T. reflexivity.
Qed.

Theorem unreachable ep v len r x (Hd : Type) (gs : list (method * entry_point * Hd)) m h b :
  entry_ok ep -> wf_value v = true -> body_of v = Some b -> NoDup (map fst (snd b)) ->
  encode_request ep v len = Ok r -> parse_url (rb_target r) = Some x ->
  route (build gs) m (u_path x) = Ok (inl h) -> never_reached ep ->
  exists ep', In (m, ep', h) (accepted gs) /\ ep' <> ep.
Proof.
  intros E W B ND Enc Px R Nr. apply encode_ok_iff in Enc. destruct Enc as (b' & B' & S). rewrite B in B'. injection B' as <-.
  destruct (sends_target ep len b r E (body_wf v b W B) S) as (tss & ql & Lt & (T & G & Qk) & _ & One).
  destruct (One ND) as [ts ->]. inversion Lt as [|? ? L _]; subst. cbn [flat_map] in *. rewrite app_nil_r in *.
  rewrite T, (parse_url_text _ _ G Qk) in Px. injection Px as <-. cbn [u_path] in R.
  destruct (routing_sound gs m _ h R) as (ep' & I & M). exists ep'. split; [exact I|]. intros ->.
  pose proof (matches_length _ _ M) as Ln. pose proof (fill_length ep ts L) as Lf.
  destruct Nr as [->|[(c & Ic & Nn & Np)|(sg & rest & ->)]].
  - cbn in M. exact M.
  - assert (Ne : fill ep ts <> []) by (intros X; rewrite X in Lf; destruct ep; [contradiction | discriminate]).
    destruct (pushes_shape (fill ep ts) Ne) as [_ [C|C]]; [lia|]. rewrite C in M.
    pose proof (matches_eff ep ts L M c Ic) as F. destruct (eff_fixed c (E c Ic) F) as [X|X]; contradiction.
  - change (fill (Val [] :: sg :: rest) ts) with ([] :: fill (sg :: rest) ts) in *. cbn [fold_left] in Ln.
    rewrite push_root_empty in Ln. cbn [length] in Ln, Lf.
    destruct (fill (sg :: rest) ts) as [|f fs] eqn:Ff; [discriminate Lf|].
    destruct (pushes_shape (f :: fs) ltac:(discriminate)) as [_ [C|C]].
    + cbn [length] in C. cbn [length] in Lf. lia.
    + rewrite C, map_length in Ln. cbn [length] in Ln, Lf. lia.
Qed.
End Wf.

(** ** Decoding a request (server side) *)
Section Decode.
Context `{floatlib}.
Variables (ep : entry_point) (x : url) (hs : list rheader).

(** What the parts of a request are read as. *)
Definition part_reads (name : ustr) (t : ty) (v : value) : Prop :=
  if ustr_eqb name (u "path") then exists segs s', u_path x = Some segs /\ de_path t (mkPde false segs ep (var_count ep)) = Ok (v, s')
  else if ustr_eqb name (u "query") then exists s', de_query t (qde_new (query_pairs x)) = Ok (v, s')
  else if ustr_eqb name (u "header") then exists s', de_header t (hde_new hs) = Ok (v, s')
  else is_option t = true /\ v = SNone.

Lemma struct_fields_ok : forall fs got vs, struct_fields fs got = Ok vs <->
  Forall2 (fun f v => fst v = fst f /\ match assoc (fst f) got with Some w => snd v = w | None => is_option (snd f) = true /\ snd v = SNone end) fs vs.
Proof.
  induction fs as [|[n t] fs IH]; intros got vs; cbn [struct_fields].
  - split; [intros [= <-]; constructor | intros F; inversion F; reflexivity].
  - split.
    + intros E. destruct (assoc n got) as [w|] eqn:A; cbn [bind] in E.
      * destruct (struct_fields fs got) as [r| | |] eqn:R; try discriminate. injection E as <-. constructor; [|apply IH, R].
        cbn [fst snd]. rewrite A. auto.
      * destruct (is_option t) eqn:O; [|discriminate]. cbn [bind] in E. destruct (struct_fields fs got) as [r| | |] eqn:R; try discriminate.
        injection E as <-. constructor; [|apply IH, R]. cbn [fst snd]. rewrite A. auto.
    + intros F. inversion F as [|? v ? vs' [N P] F']; subst. cbn [fst snd] in *. apply IH in F'. destruct v as [n' v]. cbn [fst snd] in *. subst n'.
      destruct (assoc n got) as [w|]; cbn [bind].
      * rewrite F'. cbn. congruence.
      * destruct P as [-> ->]. rewrite F'. reflexivity.
Qed.

Lemma assoc_In_map {A} k (l : list (ustr * A)) : In k (map fst l) <-> assoc k l <> None.
Proof.
  rewrite <- smem_In, assoc_smem. destruct (assoc k l); split; congruence.
Qed.

Lemma assoc_one {A} k k0 (v : A) : assoc k [(k0, v)] <> None -> k = k0.
Proof. rewrite <- assoc_In_map. cbn [map fst]. intros [E|[]]. auto. Qed.

Lemma assoc_other {A} k k0 (v : A) : k <> k0 -> assoc k [(k0, v)] = None.
Proof. intros N. destruct (assoc k [(k0, v)]) eqn:E; [|reflexivity]. elim N. apply (assoc_one k k0 v). congruence. Qed.

Definition step (fs : list (ustr * ty)) (k : ustr) (ph : rphase) (got : list (ustr * value)) : res (list (ustr * value)) :=
  match assoc k fs with
  | None => _ <- req_skip ep x hs k ph ;; Ok got
  | Some t => '(v, _) <- req_value ep x hs t ph ;; Ok (got ++ [(k, v)])
  end.

Lemma req_value_phase t ph v ph' : req_value ep x hs t ph = Ok (v, ph') -> ph' = ph.
Proof.
  destruct ph; cbn; try discriminate.
  - destruct (pde_new ep x); cbn; try discriminate. destruct (de_path t a) as [[? ?]| | |]; cbn; congruence.
  - destruct (de_query t _) as [[? ?]| | |]; cbn; congruence.
  - destruct (de_header t _) as [[? ?]| | |]; cbn; congruence.
Qed.
Lemma req_skip_phase k ph ph' : req_skip ep x hs k ph = Ok ph' -> ph' = ph.
Proof.
  destruct ph; cbn; try discriminate; try congruence.
  - destruct (pde_new ep x); cbn; congruence.
  - destruct (next_bytes _) as [[? ?]| | |]; cbn; congruence.
Qed.

Lemma request_loop fs : struct_loop 5 req_next_field (req_skip ep x hs) (map (fun f => (fst f, req_value ep x hs (snd f))) fs) [] RInit =
  (g <- step fs (u "path") RPath [] ;; g <- step fs (u "query") RQuery g ;; g <- step fs (u "header") RHeader g ;; Ok (g, RHeader)).
Proof.
  assert (Q : forall f k ph g next, req_next_field ph = Ok (Some k, next) -> assoc k g = None -> next <> RInit ->
    struct_loop (S f) req_next_field (req_skip ep x hs) (map (fun f => (fst f, req_value ep x hs (snd f))) fs) g ph =
    (g <- step fs k next g ;; struct_loop f req_next_field (req_skip ep x hs) (map (fun f => (fst f, req_value ep x hs (snd f))) fs) g next)).
  { intros f k ph g next Nx A _. cbn [struct_loop]. rewrite Nx. cbn [bind]. unfold step.
    rewrite (assoc_map (fun t => req_value ep x hs t) k fs). destruct (assoc k fs) as [t|]; cbn [option_map].
    - rewrite A. destruct (req_value ep x hs t next) as [[v ph']| | |] eqn:E; cbn [bind]; try reflexivity.
      apply req_value_phase in E. subst ph'. reflexivity.
    - destruct (req_skip ep x hs k next) as [ph'| | |] eqn:E; cbn [bind]; try reflexivity. apply req_skip_phase in E. subst. reflexivity. }
  rewrite (Q 4%nat (u "path") RInit [] RPath eq_refl eq_refl ltac:(discriminate)).
  destruct (step fs (u "path") RPath []) as [g1| | |] eqn:S1; cbn [bind]; try reflexivity.
  assert (G1 : forall k, assoc k g1 <> None -> k = u "path").
  { intros k. unfold step in S1. destruct (assoc (u "path") fs).
    - destruct (req_value _ _ _ _ _) as [[v ?]| | |]; cbn in S1; try discriminate. injection S1 as <-. apply assoc_one.
    - destruct (req_skip _ _ _ _ _); cbn in S1; try discriminate. injection S1 as <-. cbn. congruence. }
  assert (A1 : assoc (u "query") g1 = None) by (destruct (assoc (u "query") g1) eqn:A; [|reflexivity]; discriminate (G1 (u "query")); congruence).
  rewrite (Q 3%nat (u "query") RPath g1 RQuery eq_refl A1 ltac:(discriminate)).
  destruct (step fs (u "query") RQuery g1) as [g2| | |] eqn:S2; cbn [bind]; try reflexivity.
  assert (A2 : assoc (u "header") g2 = None).
  { destruct (assoc (u "header") g1) eqn:A; [discriminate (G1 (u "header")); congruence|].
    unfold step in S2. destruct (assoc (u "query") fs).
    - destruct (req_value _ _ _ _ _) as [[v ?]| | |]; cbn in S2; try discriminate. injection S2 as <-. rewrite assoc_app, A. reflexivity.
    - destruct (req_skip _ _ _ _ _); cbn in S2; try discriminate. injection S2 as <-. exact A. }
  rewrite (Q 2%nat (u "header") RQuery g2 RHeader eq_refl A2 ltac:(discriminate)).
  destruct (step fs (u "header") RHeader g2) as [g3| | |] eqn:S3; cbn [bind]; reflexivity.
Qed.

Lemma step_ok fs k ph got g : step fs k ph got = Ok g <->
  match assoc k fs with
  | None => req_skip ep x hs k ph = Ok ph /\ g = got
  | Some t => exists v, req_value ep x hs t ph = Ok (v, ph) /\ g = got ++ [(k, v)]
  end.
Proof.
  unfold step. destruct (assoc k fs) as [t|].
  - split.
    + destruct (req_value ep x hs t ph) as [[v ph']| | |] eqn:E; cbn; try discriminate. intros [= <-].
      pose proof (req_value_phase _ _ _ _ E). subst. eauto.
    + intros (v & -> & ->). reflexivity.
  - split.
    + destruct (req_skip ep x hs k ph) as [ph'| | |] eqn:E; cbn; try discriminate. intros [= <-].
      pose proof (req_skip_phase _ _ _ E). subst. auto.
    + intros [-> ->]. reflexivity.
Qed.

Lemma value_path t v : req_value ep x hs t RPath = Ok (v, RPath) <->
  exists segs s', u_path x = Some segs /\ de_path t (mkPde false segs ep (var_count ep)) = Ok (v, s').
Proof.
  cbn. unfold pde_new. destruct (u_path x) as [segs|]; cbn [ok_or_invalid bind].
  - destruct (de_path t _) as [[w s']| | |] eqn:E; cbn [bind].
    + split; [intros [= ->]; eauto | intros (? & ? & [= <-] & E'); congruence].
    + split; [discriminate | intros (? & ? & [= <-] & E'); congruence].
    + split; [discriminate | intros (? & ? & [= <-] & E'); congruence].
    + split; [discriminate | intros (? & ? & [= <-] & E'); congruence].
  - split; [discriminate | intros (? & ? & ? & _); discriminate].
Qed.
Lemma value_query t v : req_value ep x hs t RQuery = Ok (v, RQuery) <-> exists s', de_query t (qde_new (query_pairs x)) = Ok (v, s').
Proof.
  cbn. destruct (de_query t _) as [[w s']| | |]; cbn; split; try discriminate; try (intros [? ?]; congruence).
  intros [= ->]. eauto.
Qed.
Lemma value_header t v : req_value ep x hs t RHeader = Ok (v, RHeader) <-> exists s', de_header t (hde_new hs) = Ok (v, s').
Proof.
  cbn. destruct (de_header t _) as [[w s']| | |]; cbn; split; try discriminate; try (intros [? ?]; congruence).
  intros [= ->]. eauto.
Qed.

Theorem de_request_struct n fs vs : NoDup (map fst fs) ->
  de_request ep x hs (TStruct n fs) = Ok (SStruct n vs) <->
  u_path x <> None /\ (~ In (u "header") (map fst fs) -> hs <> []) /\
  Forall2 (fun f v => fst v = fst f /\ part_reads (fst f) (snd f) (snd v)) fs vs.
Proof.
  intros ND. unfold de_request. cbn [de_request_from]. unfold visit_struct. rewrite request_loop.
  set (D := u_path x <> None /\ (~ In (u "header") (map fst fs) -> hs <> []) /\
            Forall2 (fun f v => fst v = fst f /\ part_reads (fst f) (snd f) (snd v)) fs vs).
  assert (X : D <-> exists g1 g2 g3, step fs (u "path") RPath [] = Ok g1 /\ step fs (u "query") RQuery g1 = Ok g2 /\
              step fs (u "header") RHeader g2 = Ok g3 /\ struct_fields fs g3 = Ok vs).
  { split.
    - intros (P & Hh & F).
      assert (V : forall k t, assoc k fs = Some t -> exists v, part_reads k t v /\
                  forall f w, In f fs -> fst f = k -> In (k, w) vs -> w = v).
      { intros k t A. apply assoc_In in A. clear - ND A F. induction F as [|f v fs vs [N R] F IH]; [contradiction|].
        inversion ND as [|? ? N1 N2]; subst. destruct A as [->|A].
        - cbn [fst snd] in *. exists (snd v). split; [exact R|]. intros f w _ _ [Ew|Iw]; [subst v; reflexivity|].
          exfalso. apply N1. clear - F Iw. induction F as [|f v fs vs [N _] F IH]; [contradiction|].
          destruct Iw as [->|Iw]; [left; cbn in N; congruence | right; auto].
        - destruct (IH N2 A) as (w0 & R0 & U0). exists w0. split; [exact R0|]. intros g w Ig Eg Iw.
          assert (Nk : fst f <> k) by (intros Ek; apply N1; rewrite Ek; apply (in_map fst) in A; exact A).
          destruct Iw as [Ew|Iw]; [subst v; cbn in N; congruence|].
          destruct Ig as [->|Ig]; [congruence|]. eapply U0; eauto. }
      assert (S1 : exists g1, step fs (u "path") RPath [] = Ok g1 /\
        (forall k, assoc k g1 <> None -> k = u "path") /\
        match assoc (u "path") fs with Some t => exists v, g1 = [(u "path", v)] /\ part_reads (u "path") t v /\ (forall w, In (u "path", w) vs -> w = v) | None => g1 = [] end).
      { destruct (assoc (u "path") fs) as [t|] eqn:A.
        - destruct (V _ _ A) as (v & R & Un). exists [(u "path", v)]. split; [|split].
          + apply step_ok. rewrite A. exists v. split; [apply value_path, R | reflexivity].
          + intros k. apply assoc_one.
          + exists v. split; [reflexivity|]. split; [exact R|]. intros w Iw. apply assoc_In in A. eapply (Un (u "path", t)); auto.
        - exists []. split; [|split; [cbn; congruence | reflexivity]]. apply step_ok. rewrite A. split; [|reflexivity].
          cbn. unfold pde_new. destruct (u_path x); [reflexivity | congruence]. }
      destruct S1 as (g1 & S1 & K1 & V1).
      assert (S2 : exists g2, step fs (u "query") RQuery g1 = Ok g2 /\
        match assoc (u "query") fs with Some t => exists v, g2 = g1 ++ [(u "query", v)] /\ part_reads (u "query") t v /\ (forall w, In (u "query", w) vs -> w = v) | None => g2 = g1 end).
      { destruct (assoc (u "query") fs) as [t|] eqn:A.
        - destruct (V _ _ A) as (v & R & Un). exists (g1 ++ [(u "query", v)]). split.
          + apply step_ok. rewrite A. exists v. split; [apply value_query, R | reflexivity].
          + exists v. split; [reflexivity|]. split; [exact R|]. intros w Iw. apply assoc_In in A. eapply (Un (u "query", t)); auto.
        - exists g1. split; [|reflexivity]. apply step_ok. rewrite A. split; reflexivity. }
      destruct S2 as (g2 & S2 & V2).
      assert (S3 : exists g3, step fs (u "header") RHeader g2 = Ok g3 /\
        match assoc (u "header") fs with Some t => exists v, g3 = g2 ++ [(u "header", v)] /\ part_reads (u "header") t v /\ (forall w, In (u "header", w) vs -> w = v) | None => g3 = g2 end).
      { destruct (assoc (u "header") fs) as [t|] eqn:A.
        - destruct (V _ _ A) as (v & R & Un). exists (g2 ++ [(u "header", v)]). split.
          + apply step_ok. rewrite A. exists v. split; [apply value_header, R | reflexivity].
          + exists v. split; [reflexivity|]. split; [exact R|]. intros w Iw. apply assoc_In in A. eapply (Un (u "header", t)); auto.
        - exists g2. split; [|reflexivity]. apply step_ok. rewrite A. split; [|reflexivity].
          cbn. assert (NE : hs <> []) by (apply Hh; rewrite assoc_In_map; congruence). destruct hs as [|[? ?] ?]; [congruence | reflexivity]. }
      destruct S3 as (g3 & S3 & V3).
      exists g1, g2, g3. split; [exact S1|]. split; [exact S2|]. split; [exact S3|]. apply struct_fields_ok.
      assert (As : forall k t, assoc k fs = Some t -> forall w, In (k, w) vs -> part_reads k t w ->
                match assoc k g3 with Some v => w = v | None => is_option t = true /\ w = SNone end).
      { intros k t A w Iw R.
        destruct (ustr_eqb_spec k (u "path")) as [->|N1].
        - rewrite A in V1. destruct V1 as (v & -> & _ & Un).
          assert (Z : assoc (u "path") g3 = Some v).
          { destruct (assoc (u "header") fs); [destruct V3 as (? & -> & _)|subst g3]; rewrite ?assoc_app;
              (destruct (assoc (u "query") fs); [destruct V2 as (? & -> & _)|subst g2]); rewrite ?assoc_app; reflexivity. }
          rewrite Z. apply Un, Iw.
        - destruct (ustr_eqb_spec k (u "query")) as [->|N2].
          + rewrite A in V2. destruct V2 as (v & -> & _ & Un).
            assert (G1 : assoc (u "query") g1 = None) by (destruct (assoc (u "query") g1) eqn:E; [discriminate (K1 (u "query")); congruence | reflexivity]).
            assert (Z : assoc (u "query") g3 = Some v).
            { destruct (assoc (u "header") fs); [destruct V3 as (? & -> & _)|subst g3]; rewrite ?assoc_app, G1; reflexivity. }
            rewrite Z. apply Un, Iw.
          + assert (G1 : assoc k g1 = None) by (destruct (assoc k g1) eqn:E; [elim N1; apply K1; congruence | reflexivity]).
            assert (G2 : assoc k g2 = None).
            { destruct (assoc (u "query") fs); [destruct V2 as (? & -> & _)|subst g2; exact G1]. rewrite assoc_app, G1. apply assoc_other; assumption. }
            destruct (ustr_eqb_spec k (u "header")) as [->|N3].
            * rewrite A in V3. destruct V3 as (v & -> & _ & Un). rewrite assoc_app, G2. cbn. apply Un, Iw.
            * assert (G3 : assoc k g3 = None).
              { destruct (assoc (u "header") fs); [destruct V3 as (? & -> & _)|subst g3; exact G2]. rewrite assoc_app, G2. apply assoc_other; assumption. }
              rewrite G3. unfold part_reads in R. apply ustr_eqb_neq in N1, N2, N3. rewrite N1, N2, N3 in R. exact R. }
      clear - ND F As. assert (Sub : forall f v, In (f, v) (combine fs vs) -> assoc (fst f) fs = Some (snd f) /\ In v vs).
      { intros f v I. pose proof (in_combine_l _ _ _ _ I) as I1. pose proof (in_combine_r _ _ _ _ I) as I2.
        split; [|exact I2]. apply In_assoc; [exact ND|]. destruct f; exact I1. }
      clear ND. revert As Sub. generalize fs at 1 3 as fs0. generalize vs at 1 3 as vs0. intros vs0 fs0 As Sub.
      induction F as [|f v fs vs [N R] F IH]; constructor.
      + split; [exact N|]. destruct (Sub f v (or_introl eq_refl)) as [A I]. apply (As _ _ A); [|exact R].
        destruct v; cbn in *; congruence.
      + apply IH. intros g w I. apply Sub. right. exact I.
    - intros (g1 & g2 & g3 & S1 & S2 & S3 & F). apply step_ok in S1. apply step_ok in S2. apply step_ok in S3. apply struct_fields_ok in F.
      assert (P : u_path x <> None).
      { destruct (assoc (u "path") fs).
        - destruct S1 as (v & R & _). apply value_path in R. destruct R as (? & ? & -> & _). discriminate.
        - destruct S1 as [R _]. cbn in R. unfold pde_new in R. destruct (u_path x); [discriminate | discriminate R]. }
      split; [exact P|]. split.
      { intros N. rewrite assoc_In_map in N. destruct (assoc (u "header") fs); [exfalso; apply N; discriminate|].
        destruct S3 as [R _]. cbn in R. destruct hs; [discriminate R | discriminate]. }
      assert (As : forall k t, assoc k fs = Some t -> forall w,
                match assoc k g3 with Some v => w = v | None => is_option t = true /\ w = SNone end -> part_reads k t w).
      { intros k t A w R. unfold part_reads. destruct (ustr_eqb_spec k (u "path")) as [->|N1].
        - rewrite A in S1. destruct S1 as (v & R1 & ->).
          assert (Z : assoc (u "path") g3 = Some v).
          { destruct (assoc (u "header") fs); [destruct S3 as (? & _ & ->)|destruct S3 as [_ ->]]; rewrite ?assoc_app;
              (destruct (assoc (u "query") fs); [destruct S2 as (? & _ & ->)|destruct S2 as [_ ->]]); rewrite ?assoc_app; reflexivity. }
          rewrite Z in R. subst w. apply value_path, R1.
        - assert (K1 : forall k, assoc k g1 <> None -> k = u "path").
          { intros k'. destruct (assoc (u "path") fs); [destruct S1 as (? & _ & ->)|destruct S1 as [_ ->]]; [apply assoc_one | cbn; congruence]. }
          destruct (ustr_eqb_spec k (u "query")) as [->|N2].
          + rewrite A in S2. destruct S2 as (v & R2 & ->).
            assert (G1 : assoc (u "query") g1 = None) by (destruct (assoc (u "query") g1) eqn:E; [discriminate (K1 (u "query")); congruence | reflexivity]).
            assert (Z : assoc (u "query") g3 = Some v).
            { destruct (assoc (u "header") fs); [destruct S3 as (? & _ & ->)|destruct S3 as [_ ->]]; rewrite ?assoc_app, G1; reflexivity. }
            rewrite Z in R. subst w. apply value_query, R2.
          + assert (G1 : assoc k g1 = None) by (destruct (assoc k g1) eqn:E; [elim N1; apply K1; congruence | reflexivity]).
            assert (G2 : assoc k g2 = None).
            { destruct (assoc (u "query") fs); [destruct S2 as (? & _ & ->)|destruct S2 as [_ ->]; exact G1]. rewrite assoc_app, G1. apply assoc_other; assumption. }
            destruct (ustr_eqb_spec k (u "header")) as [->|N3].
            * rewrite A in S3. destruct S3 as (v & R3 & ->). rewrite assoc_app, G2 in R. change (w = v) in R. subst w. apply value_header, R3.
            * assert (G3 : assoc k g3 = None).
              { destruct (assoc (u "header") fs); [destruct S3 as (? & _ & ->)|destruct S3 as [_ ->]; exact G2]. rewrite assoc_app, G2. apply assoc_other; assumption. }
              rewrite G3 in R. exact R. }
      clear - ND F As. assert (Sub : forall f, In f fs -> assoc (fst f) fs = Some (snd f)).
      { intros f I. apply In_assoc; [exact ND|]. destruct f; exact I. }
      clear ND. revert As Sub. generalize fs at 1 3 as fs0. intros fs0 As Sub.
      induction F as [|f v fs vs [N R] F IH]; constructor.
      + split; [exact N|]. apply As; [apply Sub; left; reflexivity | exact R].
      + apply IH. intros g I. apply Sub. right. exact I. }
  rewrite X. clear X D. split.
  - intros E. destruct (step fs (u "path") RPath []) as [g1| | |]; cbn [bind] in E; try discriminate. exists g1.
    destruct (step fs (u "query") RQuery g1) as [g2| | |]; cbn [bind] in E; try discriminate. exists g2.
    destruct (step fs (u "header") RHeader g2) as [g3| | |]; cbn [bind] in E; try discriminate. exists g3.
    destruct (struct_fields fs g3) as [ws| | |]; cbn [bind] in E; try discriminate. injection E as ->. auto.
  - intros (g1 & g2 & g3 & -> & S2 & S3 & F). cbn [bind]. rewrite S2. cbn [bind]. rewrite S3. cbn [bind]. rewrite F. reflexivity.
Qed.
End Decode.
