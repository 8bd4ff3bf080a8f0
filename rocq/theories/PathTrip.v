(** * Proofs about paths travelling from the client to the server. *)
From Verif Require Import Msgpack Base Utf8 Decimal DepUrl Serde Procedure SerPath DePath UrlProofs ScalarSpec PathSpec PathProofs.
Open Scope N_scope.

Section PathTrip.
Context `{urlenv} `{floatlib}.

Definition enc (s : ustr) : ustr := pct_encode segment_set s.

(** ** Which strings [push] keeps *)
Lemma drop_while_in f s x : In x (drop_while f s) -> In x s.
Proof. induction s as [|y s IH]; cbn; [auto|]. destruct (f y); auto. Qed.

Lemma drop_while_head f s : match drop_while f s with [] => True | c :: _ => f c = false end.
Proof. induction s as [|y s IH]; cbn; [exact I|]. destruct (f y) eqn:E; [exact IH | exact E]. Qed.

Lemma drop_while_suffix f s : exists p, s = p ++ drop_while f s.
Proof.
  induction s as [|y s IH]; cbn; [exists []; reflexivity|]. destruct (f y); [|exists []; reflexivity].
  destruct IH as [p E]. exists (y :: p). cbn. congruence.
Qed.

Lemma trim_ends f s : (forall a c b, s = a ++ c :: b -> a = [] \/ b = [] -> f c = false) -> trim_matches f s = s.
Proof.
  intros E. unfold trim_matches. destruct s as [|x s]; [reflexivity|].
  cbn [drop_while]. rewrite (E [] x s eq_refl (or_introl eq_refl)).
  destruct (exists_last (l := x :: s) ltac:(discriminate)) as (a & y & L). rewrite L.
  rewrite rev_app_distr. cbn [rev app drop_while]. rewrite (E a y [] L (or_intror eq_refl)).
  cbn [rev]. rewrite rev_involutive. reflexivity.
Qed.

Lemma path_safe_ascii s : path_safe s -> all_ascii s = true.
Proof.
  intros (A & _). unfold all_ascii. apply forallb_forall. intros c I. apply A in I. unfold is_ascii. lia.
Qed.
Lemma path_safe_nil : path_safe [].
Proof.
  split; [intros c []|]. split; [discriminate|]. split; [discriminate|]. intros _ a c b E. destruct a; discriminate.
Qed.
Lemma path_safe_ok s : path_safe s -> str_ok s = true.
Proof. intros P. apply ascii_str_ok, path_safe_ascii, P. Qed.

Lemma filter_all {A} (f : A -> bool) l : (forall x, In x l -> f x = true) -> filter f l = l.
Proof.
  induction l as [|x l IH]; intros E; [reflexivity|]. cbn. rewrite (E x) by (left; reflexivity).
  rewrite IH; [reflexivity|]. intros y I. apply E. right. exact I.
Qed.

Lemma path_safe_input s : path_safe s -> seg_input s = s.
Proof.
  intros (A & _ & _ & T). unfold seg_input.
  assert (E : (if trim_segment then trim_matches c0_or_space s else s) = s).
  { destruct trim_segment; [|reflexivity]. apply trim_ends. intros a c b L Z.
    pose proof (T eq_refl a c b L Z). unfold c0_or_space. lia. }
  rewrite E. unfold strip_tabs. apply filter_all. intros c I. apply A in I. unfold tab_or_nl. mem_simp. lia.
Qed.

Lemma decode_enc s : path_safe s -> percent_decode (enc s) = Ok s.
Proof.
  intros P. unfold enc. rewrite percent_decode_encode by (apply path_safe_ok, P).
  rewrite utf8_encode_ascii by (apply path_safe_ascii, P). reflexivity.
Qed.

Lemma path_safe_push p s : path_safe s -> push p s = add_seg p (enc s).
Proof.
  intros P. unfold push. rewrite (path_safe_input s P).
  pose proof (decode_enc s P) as D. destruct P as (_ & N1 & N2 & _).
  change dot with [46]. change dotdot with [46; 46].
  rewrite (proj2 (ustr_eqb_neq s [46]) N1), (proj2 (ustr_eqb_neq s [46; 46]) N2). cbn [orb].
  fold (enc s). destruct (ustr_eqb_spec (enc s) [46; 46]) as [E|_].
  - rewrite E in D. cbn in D. congruence.
  - destruct (ustr_eqb_spec (enc s) [46]) as [E|_]; [|reflexivity]. rewrite E in D. cbn in D. congruence.
Qed.

Lemma enc_nil s : enc s = [] -> s = [].
Proof.
  destruct s as [|c s]; [reflexivity|]. unfold enc, pct_encode. cbn [flat_map]. unfold pct_char at 1.
  destruct (_ && _); [discriminate|]. destruct (utf8_char_first c) as (b & r & U & _). rewrite U. discriminate.
Qed.

Lemma push_all : forall ss p, Forall path_safe ss -> p <> [] -> is_root p = false ->
  fold_left push ss p = p ++ map enc ss.
Proof.
  induction ss as [|s ss IH]; intros p F N R; cbn [fold_left map]; [symmetry; apply app_nil_r|].
  inversion F as [|? ? P F']; subst. rewrite (path_safe_push p s P). unfold add_seg. rewrite R.
  rewrite IH; [rewrite <- app_assoc; reflexivity | exact F' | destruct p; discriminate |].
  destruct p as [|x [|y p]]; [contradiction | |]; destruct x; reflexivity.
Qed.

(** The first segment of a longer path must not be empty. *)
Definition first_ok (ss : list ustr) : Prop := match ss with [] :: _ :: _ => False | _ => True end.

Lemma push_root ss : Forall path_safe ss -> first_ok ss ->
  fold_left push ss [[]] = match ss with [] => [[]] | _ => map enc ss end.
Proof.
  destruct ss as [|s ss]; intros F O; [reflexivity|]. cbn [fold_left map].
  inversion F as [|? ? P F']; subst. rewrite (path_safe_push [[]] s P). cbn [add_seg is_root].
  destruct ss as [|s2 ss]; [reflexivity|].
  assert (N : enc s <> []). { intros E. apply enc_nil in E. subst s. exact O. }
  rewrite push_all; [reflexivity | exact F' | discriminate |].
  destruct (enc s); [contradiction | reflexivity].
Qed.

(** ** Plain constants *)
Lemma plain_keep c : plain_char c -> is_ascii c && negb (segment_set c) = true.
Proof.
  intros (R & N & C). unfold is_ascii, segment_set, path_set. mem_simp.
  repeat match type of N with ~ In _ (_ :: _) => apply not_in_cons in N; let a := fresh "A" in destruct N as [a N] end.
  destruct enc_caret; [specialize (C eq_refl)|]; lia.
Qed.

Lemma plain_enc s : (forall c, In c s -> plain_char c) -> enc s = s.
Proof. intros P. apply pct_encode_keep. apply forallb_forall. intros c I. apply plain_keep, P, I. Qed.

Lemma plain_safe s : plain_const s -> path_safe s.
Proof.
  intros (_ & P & N1 & N2). split; [|split; [|split]]; auto.
  - intros c I. apply P in I. destruct I as (R & _). lia.
  - intros _ a c b -> _. destruct (P c) as (R & _); [|lia]. apply in_or_app. right. left. reflexivity.
Qed.

(** ** Walking the entry point along the path it produced *)
Lemma var_texts_fill : forall ep ts, plain_entry ep -> length ts = var_count ep ->
  var_texts ep (map enc (fill ep ts)) (length ts) = Some (map enc ts).
Proof.
  induction ep as [|[c|] ep IH]; intros ts P L; rewrite ?var_count_cons in L.
  - destruct ts; [reflexivity | discriminate].
  - destruct ts as [|t ts]; [destruct ep; reflexivity|]. cbn [fill map var_texts length].
    rewrite plain_enc by (apply P; left; reflexivity). rewrite ustr_eqb_refl.
    apply (IH (t :: ts)); [|exact L]. intros d I. apply P. right. exact I.
  - destruct ts as [|t ts]; [discriminate|]. cbn [fill map var_texts length].
    rewrite IH; [reflexivity| |cbn in L; lia]. intros d I. apply P. right. exact I.
Qed.

Lemma fill_safe : forall ep ts, plain_entry ep -> Forall path_safe ts -> Forall path_safe (fill ep ts).
Proof.
  induction ep as [|[c|] ep IH]; intros ts P F; cbn [fill].
  - constructor.
  - constructor; [apply plain_safe, P; left; reflexivity|]. apply IH; [|exact F]. intros d I. apply P. right. exact I.
  - destruct ts as [|t ts]; [constructor|]. inversion F; subst. constructor; [assumption|].
    apply IH; [|assumption]. intros d I. apply P. right. exact I.
Qed.

Lemma path_dec_faithful t v s : faithful t v -> scalar_text v = Some s -> path_safe s -> path_dec t (enc s) = Ok v.
Proof.
  intros F E P. destruct (faithful_text t v F) as (s' & E1 & E2). assert (s' = s) by congruence. subst s'.
  unfold path_dec. rewrite (decode_enc s P). cbn [bind]. rewrite E2. reflexivity.
Qed.

Lemma faithful_readable t : forall v, faithful t v -> readable t = true.
Proof.
  induction t; intros v F; destruct v; cbn [faithful] in F; try contradiction; try reflexivity.
  destruct F as [_ F]. apply (IHt _ F).
Qed.

Lemma all_some_texts : forall ts vs, Forall2 faithful ts vs ->
  exists ss, all_some (map scalar_text vs) = Some ss /\ length ss = length ts /\ length vs = length ts.
Proof.
  intros ts vs F. induction F as [|t v ts vs Fv F (ss & E & L1 & L2)]; [exists []; auto|].
  destruct (faithful_text t v Fv) as (s & E1 & _). exists (s :: ss). cbn [map all_some].
  rewrite E1, E. cbn. auto.
Qed.

(** The server reads what the client wrote. *)
Theorem path_trip ep ts vs ss : plain_entry ep -> Forall2 faithful ts vs ->
  length ts = var_count ep ->
  all_some (map scalar_text vs) = Some ss -> Forall path_safe ss -> first_ok (fill ep ss) ->
  exists p s', ser_path ep (STuple vs) (pser_new ep [[]]) = Ok p /\
    good_path (p_path p) /\
    de_path (TTuple ts) (mkPde false (p_path p) ep (var_count ep)) = Ok (STuple vs, s').
Proof.
  intros P F L A S O. rewrite ser_path_spec. cbn [path_args]. rewrite A.
  destruct (all_some_texts ts vs F) as (ss' & A' & L1 & L2).
  assert (ss' = ss) by congruence. subst ss'.
  replace (Nat.eqb (length ss) (var_count ep)) with true by (symmetry; apply Nat.eqb_eq; congruence).
  pose proof (fill_safe ep ss P S) as FS.
  eexists. 
  assert (D : exists s', visit_tuple path_next (map de_path ts)
     (mkPde true (fold_left push (fill ep ss) [[]]) ep (var_count ep)) = Ok (vs, s')).
  { apply (visit_tuple_complete ts _ (map enc ss) vs); [reflexivity | | |].
    - cbn [pd_rest pd_segs]. rewrite push_root by assumption. rewrite <- L1.
      destruct (fill ep ss) as [|a b] eqn:E.
      + destruct ep as [|[c|] ep]; [| discriminate | destruct ss; [|discriminate]; rewrite var_count_cons in L; cbn in L1, L; lia].
        destruct ss as [|s ss]; [reflexivity|]. cbn in L1, L. congruence.
      + rewrite <- E. apply var_texts_fill; [exact P | congruence].
    - clear - F A S. revert ss A S. induction F as [|t v ts vs Fv F IH]; intros ss A S; cbn [map all_some] in A.
      + constructor.
      + destruct (faithful_text t v Fv) as (s & E1 & _). rewrite E1 in A.
        destruct (all_some (map scalar_text vs)) as [r|]; [|discriminate]. injection A as <-.
        inversion S; subst. cbn [map combine]. constructor; [|apply IH; [reflexivity | assumption]].
        cbn [fst snd]. apply path_dec_faithful; assumption.
    - apply forallb_forall. intros t I.
      assert (Q : exists v, faithful t v).
      { clear - F I. induction F as [|t' v ts vs Fv F IH]; [destruct I|]. destruct I as [->|I]; [eauto | apply IH, I]. }
      destruct Q as [v Fv]. apply (faithful_readable _ _ Fv). }
  destruct D as [s' D]. exists s'. split; [reflexivity|]. cbn [p_path]. split.
  - clear - FS. revert FS. generalize (fill ep ss) as l. intros l.
    assert (G : forall q, good_path q -> Forall path_safe l -> good_path (fold_left push l q)).
    { induction l as [|s l IH]; intros q G FS; [exact G|]. inversion FS; subst. cbn [fold_left].
      apply IH; [|assumption]. apply good_push; [exact G | apply path_safe_ok; assumption]. }
    apply G, good_root.
  - cbn [de_path]. unfold path_enter. cbn [pd_in_seq negb assert_invalid bind pd_segs pd_rest pd_free].
    rewrite D. reflexivity.
Qed.

(** ** Exactly which strings survive (C02) *)
Lemma utf8_encode_fixed s : str_ok s = true -> utf8_encode s = s -> all_ascii s = true.
Proof.
  intros Hs E. assert (L : length (utf8_encode s) = length s) by congruence. clear E Hs.
  induction s as [|c s IH]; [reflexivity|].
  assert (G : forall l, (length l <= length (utf8_encode l))%nat).
  { clear. induction l as [|c l IH]; [cbn; lia|]. unfold utf8_encode in *. cbn [flat_map]. rewrite app_length.
    pose proof (utf8_char_len c). cbn [length]. lia. }
  unfold utf8_encode in L. cbn [flat_map] in L. rewrite app_length in L. fold (utf8_encode s) in L. cbn [length] in L.
  specialize (G s). unfold all_ascii. cbn [forallb]. destruct (is_ascii c) eqn:A.
  - cbn. apply IH. unfold utf8_char in L. unfold is_ascii in A. rewrite A in L. cbn in L. lia.
  - exfalso. unfold utf8_char in L. unfold is_ascii in A. rewrite A in L.
    destruct (c <? 2048), (c <? 65536); cbn in L; lia.
Qed.

Lemma utf8_low_chars s c : In c (utf8_encode s) -> c < 128 -> In c s.
Proof.
  intros I L. unfold utf8_encode in I. apply in_flat_map in I. destruct I as (d & Id & Ic).
  destruct (is_ascii d) eqn:A.
  - unfold utf8_char in Ic. unfold is_ascii in A. rewrite A in Ic. destruct Ic as [<-|[]]. exact Id.
  - pose proof (utf8_char_ge d A) as G. rewrite forallb_forall in G. specialize (G c Ic). unfold is_ascii in G. lia.
Qed.

Lemma utf8_head s c r : utf8_encode s = c :: r -> match s with [] => False | d :: _ => (d < 128 /\ c = d) \/ 128 <= c end.
Proof.
  destruct s as [|d s]; [discriminate|]. unfold utf8_encode. cbn [flat_map].
  destruct (utf8_char_first d) as (b & t & U & A1 & A2). rewrite U. intros [= <- _].
  destruct (is_ascii d) eqn:A; [left; unfold is_ascii in A; split; [lia | apply A1; reflexivity]|].
  right. specialize (A2 eq_refl). unfold is_ascii in A2. lia.
Qed.

Lemma utf8_last s c r : utf8_encode s = r ++ [c] ->
  exists a d, s = a ++ [d] /\ ((d < 128 /\ c = d) \/ 128 <= c).
Proof.
  intros E. destruct s as [|x s]; [destruct r; discriminate|].
  destruct (exists_last (l := x :: s) ltac:(discriminate)) as (a & d & L). exists a, d. split; [exact L|].
  rewrite L, utf8_encode_app in E. unfold utf8_encode at 2 in E. cbn [flat_map] in E. rewrite app_nil_r in E.
  destruct (is_ascii d) eqn:A.
  - left. unfold utf8_char in E. unfold is_ascii in A. rewrite A in E. apply app_inj_tail in E.
    destruct E as [_ E]. split; [lia | congruence].
  - right. pose proof (utf8_char_ge d A) as G. destruct (utf8_char_first d) as (b & t & U & _).
    destruct (exists_last (l := utf8_char d)) as (t' & z & Z); [rewrite U; discriminate|].
    rewrite Z, app_assoc in E. apply app_inj_tail in E. destruct E as [_ <-].
    rewrite forallb_forall in G. assert (I : In z (utf8_char d)). { rewrite Z. apply in_or_app. right. left. reflexivity. }
    specialize (G z I). unfold is_ascii in G. lia.
Qed.

Lemma utf8_encode_nil s : utf8_encode s = [] -> s = [].
Proof.
  destruct s as [|c s]; [reflexivity|]. unfold utf8_encode. cbn [flat_map].
  destruct (utf8_char_first c) as (b & r & U & _). rewrite U. discriminate.
Qed.

Lemma trim_last f s a c : trim_matches f s = a ++ [c] -> f c = false.
Proof.
  unfold trim_matches. intros E. pose proof (drop_while_head f (rev (drop_while f s))) as D.
  destruct (drop_while f (rev (drop_while f s))) as [|x r]; [destruct a; discriminate|].
  cbn [rev] in E. apply app_inj_tail in E. destruct E as [_ <-]. exact D.
Qed.
Lemma trim_first f s c r : trim_matches f s = c :: r -> f c = false.
Proof.
  unfold trim_matches. intros E. pose proof (drop_while_head f s) as D.
  destruct (drop_while_suffix f (rev (drop_while f s))) as [p P].
  apply (f_equal (@rev N)) in P. rewrite rev_involutive, rev_app_distr, E in P. rewrite P in D. exact D.
Qed.

Lemma input_fixed s : str_ok s = true -> utf8_encode (seg_input s) = s -> s <> [46] -> s <> [46; 46] -> path_safe s.
Proof.
  intros Hs E N1 N2.
  assert (T : forall c, In c s -> tab_or_nl c = false).
  { intros c I. destruct (tab_or_nl c) eqn:T; [|reflexivity]. exfalso.
    assert (L : c < 128) by (unfold tab_or_nl in T; mem_simp; lia).
    rewrite <- E in I. apply (utf8_low_chars _ _ I) in L. unfold seg_input, strip_tabs in L.
    apply filter_In in L. destruct L as [_ L]. rewrite T in L. discriminate. }
  set (y := if trim_segment then trim_matches c0_or_space s else s) in *.
  assert (Sub : forall c, In c y -> In c s).
  { intros c I. unfold y in I. destruct trim_segment; [|exact I]. unfold trim_matches in I.
    apply in_rev, drop_while_in, in_rev, drop_while_in in I. exact I. }
  assert (Z : seg_input s = y).
  { unfold seg_input. fold y. apply filter_all. intros c I. rewrite (T c (Sub c I)). reflexivity. }
  rewrite Z in E.
  assert (Ends : trim_segment = true -> forall a c b, s = a ++ c :: b -> (a = [] \/ b = []) -> 32 < c).
  { intros TS a c b L [->| ->]; unfold y in E; rewrite TS in E.
    - cbn in L. rewrite L in E at 2. pose proof (utf8_head _ _ _ E) as U.
      destruct (trim_matches c0_or_space s) as [|d r] eqn:D; [destruct U|].
      apply trim_first in D. unfold c0_or_space in D. destruct U as [[_ ->]|]; lia.
    - rewrite L in E at 2. destruct (utf8_last _ _ _ E) as (a' & d & D & U).
      apply trim_last in D. unfold c0_or_space in D. destruct U as [[_ ->]|]; lia. }
  assert (Y : y = s).
  { unfold y. destruct trim_segment; [|reflexivity]. apply trim_ends. intros a c b L Q.
    specialize (Ends eq_refl a c b L Q). unfold c0_or_space. lia. }
  rewrite Y in E. pose proof (utf8_encode_fixed s Hs E) as A.
  split; [|auto]. intros c I. split.
  - unfold all_ascii in A. rewrite forallb_forall in A. specialize (A c I). unfold is_ascii in A. lia.
  - specialize (T c I). unfold tab_or_nl in T. mem_simp. lia.
Qed.

Lemma in_removelast {A} (e : A) l : In e (removelast l) -> In e l.
Proof.
  induction l as [|a l IH]; [intros []|]. destruct l as [|b l]; [intros []|].
  change (removelast (a :: b :: l)) with (a :: removelast (b :: l)). intros [->|Q]; [left; reflexivity | right; apply IH, Q].
Qed.

(** Where the segments of a pushed path come from. *)
Lemma push_in p s e : In e (push p s) -> In e p \/ e = [] \/ e = pct_encode segment_set (seg_input s).
Proof.
  unfold push. destruct (_ || _); [auto|]. set (x := pct_encode segment_set (seg_input s)).
  assert (A : forall y, In e (add_seg p y) -> In e p \/ e = y).
  { intros y. unfold add_seg. destruct (is_root p); [intros [<-|[]]; auto|]. intros I. apply in_app_or in I.
    destruct I as [I|[<-|[]]]; auto. }
  destruct (ustr_eqb x dotdot).
  - destruct (is_root p); [auto|]. intros I. apply in_app_or in I. destruct I as [I|[<-|[]]]; auto.
    left. apply in_removelast, I.
  - destruct (ustr_eqb x dot); intros I; apply A in I; destruct I; auto.
Qed.

Lemma pushes_in : forall ss p e, In e (fold_left push ss p) ->
  In e p \/ e = [] \/ exists s, In s ss /\ e = pct_encode segment_set (seg_input s).
Proof.
  induction ss as [|s ss IH]; intros p e I; cbn in I; [auto|].
  apply IH in I. destruct I as [I|[->|(t & I & ->)]]; [|auto|right; right; exists t; split; [right; exact I | reflexivity]].
  apply push_in in I. destruct I as [I|[->| -> ]]; auto. right. right. exists s. split; [left; reflexivity | reflexivity].
Qed.

(** A value that is "." or ".." adds nothing. *)
Lemma pushes_in_dots pre s post e : s = [46] \/ s = [46; 46] ->
  In e (fold_left push (pre ++ s :: post) [[]]) ->
  e = [] \/ exists c, In c (pre ++ post) /\ e = pct_encode segment_set (seg_input c).
Proof.
  intros D I. rewrite fold_left_app in I. cbn [fold_left] in I.
  assert (P : forall q, push q s = q) by (intros q; unfold push; destruct D as [-> | ->]; reflexivity).
  rewrite P, <- fold_left_app in I. apply pushes_in in I.
  destruct I as [[<-|[]]|[->|I]]; auto.
Qed.

Definition consts (cs : list ustr) : entry_point := map Val cs.

Lemma fill_one pre post s : fill (consts pre ++ Var :: consts post) [s] = pre ++ s :: post.
Proof.
  unfold consts. rewrite fill_consts. f_equal. cbn [fill]. f_equal.
  rewrite <- (app_nil_r (map Val post)), fill_consts. cbn. apply app_nil_r.
Qed.

Lemma var_count_one pre post : var_count (consts pre ++ Var :: consts post) = 1%nat.
Proof.
  unfold consts. rewrite var_count_consts, var_count_cons. rewrite <- (app_nil_r (map Val post)), var_count_consts.
  reflexivity.
Qed.

Lemma consts_plain pre post : Forall plain_const pre -> Forall plain_const post ->
  plain_entry (consts pre ++ Var :: consts post).
Proof.
  intros F1 F2 c I. apply in_app_or in I. rewrite Forall_forall in F1, F2. unfold consts in I.
  destruct I as [I|[I|I]]; [| discriminate |]; apply in_map_iff in I; destruct I as (d & [= ->] & I); auto.
Qed.

Lemma var_texts_in : forall ep segs n l, var_texts ep segs n = Some l -> forall e, In e l -> In e segs.
Proof.
  induction ep as [|[c|] ep IH]; intros segs [|n] l E e I; cbn [var_texts] in E; try discriminate;
    try (injection E as <-; destruct I).
  - destruct segs as [|s ss]; [discriminate|]. destruct (ustr_eqb s c); [|discriminate]. right. apply (IH _ _ _ E e I).
  - destruct segs as [|s ss]; [discriminate|]. destruct (var_texts ep ss n) as [l'|] eqn:V; [|discriminate].
    injection E as <-. destruct I as [->|I]; [left; reflexivity | right; apply (IH _ _ _ V e I)].
Qed.

Theorem string_survives pre post s : Forall plain_const pre -> Forall plain_const post -> str_ok s = true ->
  let ep := consts pre ++ Var :: consts post in
  let path := fold_left push (fill ep [s]) [[]] in
  (exists s', de_path (TTuple [TStr]) (mkPde false path ep (var_count ep)) = Ok (STuple [SStr s], s')) <->
  path_safe s /\ (s = [] -> pre = [] -> post = []).
Proof.
  intros F1 F2 Hs ep path. pose proof (consts_plain pre post F1 F2) as PE. split.
  - intros (s' & D).
    assert (X : exists e, var_texts ep path 1 = Some [e] /\ percent_decode e = Ok s).
    { cbn [de_path] in D. unfold path_enter in D. cbn [pd_in_seq negb assert_invalid bind pd_segs pd_rest pd_free] in D.
      pose proof (visit_tuple_spec [TStr] (mkPde true path ep (var_count ep)) eq_refl eq_refl) as V.
      destruct (visit_tuple path_next (map de_path [TStr]) (mkPde true path ep (var_count ep))) as [[vs s'']| | |];
        cbn [bind] in D; try discriminate.
      injection D as -> _. destruct V as (texts & V & Fa & _ & L). cbn [length] in *.
      destruct texts as [|e [|? ?]]; try discriminate. exists e. split; [exact V|].
      cbn [combine] in Fa. inversion Fa as [|? ? ? ? PD _]; subst. cbn [fst snd] in PD. unfold path_dec in PD.
      destruct (percent_decode e); cbn in PD; congruence. }
    destruct X as (e & V & D'). clear D.
    pose proof (var_texts_in _ _ _ _ V e (or_introl eq_refl)) as I. unfold path in I. unfold ep in I. rewrite fill_one in I.
    assert (Pc : forall c, In c (pre ++ post) -> path_safe c /\ c <> [] /\ percent_decode (pct_encode segment_set (seg_input c)) = Ok c).
    { intros c J. assert (Q : plain_const c). { apply in_app_or in J. rewrite Forall_forall in F1, F2. destruct J; auto. }
      pose proof (plain_safe c Q) as S. split; [exact S|]. split; [apply Q|].
      rewrite (path_safe_input c S). apply decode_enc, S. }
    assert (S : path_safe s).
    { destruct (ustr_eq_dec s [46]) as [->|N1].
      { apply (pushes_in_dots pre [46] post e (or_introl eq_refl)) in I. destruct I as [->|(c & J & ->)]; [discriminate D'|].
        destruct (Pc c J) as (Q & _ & E). rewrite E in D'. injection D' as ->. exact Q. }
      destruct (ustr_eq_dec s [46; 46]) as [->|N2].
      { apply (pushes_in_dots pre [46; 46] post e (or_intror eq_refl)) in I. destruct I as [->|(c & J & ->)]; [discriminate D'|].
        destruct (Pc c J) as (Q & _ & E). rewrite E in D'. injection D' as ->. exact Q. }
      apply pushes_in in I. destruct I as [[<-|[]]|[->|(c & J & ->)]].
      - injection D' as <-. exact path_safe_nil.
      - injection D' as <-. exact path_safe_nil.
      - apply in_app_or in J. destruct J as [J|[J|J]].
        + destruct (Pc c (in_or_app _ _ _ (or_introl J))) as (Q & _ & E). rewrite E in D'. injection D' as ->. exact Q.
        + subst c. rewrite percent_decode_encode in D' by (apply seg_input_ok, Hs). injection D' as D'.
          apply input_fixed; assumption.
        + destruct (Pc c (in_or_app _ _ _ (or_intror J))) as (Q & _ & E). rewrite E in D'. injection D' as ->. exact Q. }
    split; [exact S|]. intros -> ->. destruct post as [|c post]; [reflexivity|]. exfalso.
    inversion F2 as [|? ? Qc F2']; subst.
    unfold path, ep in V. rewrite fill_one in V. cbn [app fold_left] in V.
    rewrite (path_safe_push [[]] [] S) in V. change (add_seg [[]] (enc [])) with [@nil N] in V.
    change (fold_left push post (push [[]] c)) with (fold_left push (c :: post) [[]]) in V.
    rewrite push_root in V.
    + cbn [consts map app var_texts] in V. unfold option_map in V. 
      assert (E : e = enc c) by congruence.
      subst e. rewrite (decode_enc c (plain_safe c Qc)) in D'. injection D' as ->. exact (proj1 Qc eq_refl).
    + constructor; [apply plain_safe, Qc|]. clear - F2'. induction F2'; constructor; auto using plain_safe.
    + destruct c; [exfalso; exact (proj1 Qc eq_refl) | exact Logic.I].
  - intros (S & O).
    destruct (path_trip ep [TStr] [SStr s] [s]) as (p & s' & E1 & _ & E2).
    + exact PE.
    + repeat constructor. exact Hs.
    + unfold ep. rewrite var_count_one. reflexivity.
    + reflexivity.
    + constructor; [exact S | constructor].
    + unfold ep. rewrite fill_one. destruct pre as [|[|c0 c] pre]; cbn [app].
      * destruct s as [|c0 s]; [|exact I]. rewrite (O eq_refl eq_refl). exact I.
      * inversion F1 as [|? ? Q _]; subst. exfalso. exact (proj1 Q eq_refl).
      * exact I.
    + exists s'. rewrite ser_path_spec in E1. cbn [path_args map scalar_text all_some option_map length] in E1.
      unfold ep in E1. rewrite var_count_one in E1. cbn [Nat.eqb] in E1. injection E1 as <-. exact E2.
Qed.

(** The same for every path type. *)
Lemma shape_args t v ts vs : path_shape t v ts vs -> path_args v = all_some (map scalar_text vs).
Proof. intros S. induction S; [reflexivity | reflexivity | exact IHS]. Qed.

Lemma shape_de t v ts vs s : path_shape t v ts vs ->
  (exists s', de_path (TTuple ts) s = Ok (STuple vs, s')) <-> (exists s', de_path t s = Ok (v, s')).
Proof.
  intros S. induction S as [ts vs|n ts vs|n t v ts vs S IH].
  - reflexivity.
  - cbn [de_path]. destruct (path_enter s) as [s0| | |]; cbn [bind]; try (split; intros [? ?]; discriminate).
    destruct (visit_tuple path_next (map de_path ts) s0) as [[vs' s1]| | |]; cbn [bind];
      split; intros [? E]; try discriminate; injection E as -> _; eauto.
  - rewrite IH. cbn [de_path]. destruct (de_path t s) as [[v' s1]| | |]; cbn [bind];
      split; intros [? E]; try discriminate; injection E as -> _; eauto.
Qed.

Theorem path_trip_shape ep t v ts vs ss : path_shape t v ts vs -> plain_entry ep -> Forall2 faithful ts vs ->
  length ts = var_count ep ->
  all_some (map scalar_text vs) = Some ss -> Forall path_safe ss -> first_ok (fill ep ss) ->
  exists p s', ser_path ep v (pser_new ep [[]]) = Ok p /\
    good_path (p_path p) /\
    de_path t (mkPde false (p_path p) ep (var_count ep)) = Ok (v, s').
Proof.
  intros S P F L A Sa O. destruct (path_trip ep ts vs ss P F L A Sa O) as (p & s' & E & G & D).
  destruct (proj1 (shape_de t v ts vs _ S) (ex_intro _ s' D)) as [s2 D2].
  exists p, s2. split; [|split; assumption]. rewrite <- E, !ser_path_spec, (shape_args _ _ _ _ S). reflexivity.
Qed.

(** What the server reads from any path of safe texts the client wrote: each text by itself. *)
Theorem client_path_iff ep ss ts vs : plain_entry ep -> length ss = var_count ep -> length ts = var_count ep ->
  Forall path_safe ss -> first_ok (fill ep ss) ->
  (exists s', de_path (TTuple ts) (mkPde false (fold_left push (fill ep ss) [[]]) ep (var_count ep)) = Ok (STuple vs, s')) <->
  length vs = length ts /\
  forall i t x v, nth_error ts i = Some t -> nth_error ss i = Some x -> nth_error vs i = Some v -> read_scalar t x = Some v.
Proof.
  intros P L1 L2 Sa O. rewrite de_tuple_iff. rewrite (push_root _ (fill_safe ep ss P Sa) O).
  assert (V : var_texts ep match fill ep ss with [] => [[]] | _ => map enc (fill ep ss) end (length ts) = Some (map enc ss)).
  { pose proof (var_texts_fill ep ss P L1) as V. rewrite L2, <- L1. destruct (fill ep ss) eqn:F; [|exact V].
    destruct ep as [|[c|] ep]; cbn in F; try discriminate.
    - destruct ss; [reflexivity | discriminate].
    - destruct ss; discriminate. }
  rewrite V.
  assert (R : forall t x v, path_safe x -> reads t (enc x) v <-> read_scalar t x = Some v).
  { intros t x v Px. unfold reads. pose proof (decode_enc x Px) as D. split.
    - intros (y & U & E). apply percent_decode_spec in U. congruence.
    - intros E. exists x. split; [apply percent_decode_spec, D | exact E]. }
  assert (Ps : forall i x, nth_error ss i = Some x -> path_safe x).
  { intros i x E. apply nth_error_In in E. rewrite Forall_forall in Sa. apply Sa, E. }
  split.
  - intros (es & [= <-] & L & F). split; [exact L|]. intros i t x v A B C. apply R; [apply (Ps i), B|].
    apply (F i); [exact A | rewrite nth_error_map, B; reflexivity | exact C].
  - intros [L F]. exists (map enc ss). split; [reflexivity|]. split; [exact L|]. intros i t e v A B C.
    rewrite nth_error_map in B. destruct (nth_error ss i) as [x|] eqn:X; [|discriminate]. injection B as <-.
    apply R; [apply (Ps i), X | apply (F i); assumption].
Qed.

Lemma de_int_iff ep segs k z :
  (exists s', de_path (TTuple [TInt k]) (mkPde false segs ep (var_count ep)) = Ok (STuple [SInt k z], s')) <->
  exists e s, var_texts ep segs 1 = Some [e] /\ unescapes e s /\ int_text k s z.
Proof.
  rewrite de_tuple_iff. cbn [length]. split.
  - intros (es & V & _ & R). pose proof (var_texts_length _ _ _ _ V) as L. destruct es as [|e [|? ?]]; try discriminate.
    destruct (R 0%nat (TInt k) e (SInt k z) eq_refl eq_refl eq_refl) as (x & U & E). exists e, x.
    split; [exact V|]. split; [exact U|]. cbn in E. destruct (parse_int k x) as [z'|] eqn:P; [|discriminate].
    injection E as ->. apply parse_int_spec, P.
  - intros (e & x & V & U & E). exists [e]. split; [exact V|]. split; [reflexivity|].
    intros [|i] t e' v A B C; [|destruct i; discriminate]. injection A as <-. injection B as <-. injection C as <-.
    exists x. split; [exact U|]. cbn. apply parse_int_spec in E. rewrite E. reflexivity.
Qed.

Lemma string_survives_full pre post s : Forall plain_const pre -> Forall plain_const post -> str_ok s = true ->
  let ep := map Val pre ++ Var :: map Val post in
  (exists p s', ser_path ep (STuple [SStr s]) (pser_new ep [[]]) = Ok p /\
     de_path (TTuple [TStr]) (mkPde false (p_path p) ep (var_count ep)) = Ok (STuple [SStr s], s')) <->
  path_safe s /\ (s = [] -> pre = [] -> post = []).
Proof.
  intros F1 F2 Hs ep. rewrite <- (string_survives pre post s F1 F2 Hs). unfold consts. fold ep. rewrite ser_path_spec.
  cbn [path_args map scalar_text all_some option_map length].
  assert (V : var_count ep = 1%nat) by (unfold ep; apply var_count_one). rewrite V. cbn [Nat.eqb]. split.
  - intros (p & s' & [= <-] & D). eauto.
  - intros (s' & D). eexists. exists s'. split; [reflexivity | exact D].
Qed.

Lemma path_trip_url ep t v ts vs ss : path_shape t v ts vs -> plain_entry ep -> Forall2 faithful ts vs ->
  length ts = var_count ep ->
  all_some (map scalar_text vs) = Some ss -> Forall path_safe ss -> first_ok (fill ep ss) ->
  exists p s', ser_path ep v (pser_new ep [[]]) = Ok p /\
    parse_url (url_text (p_path p) None) = Some (mkUrl (Some (p_path p)) None) /\
    de_path t (mkPde false (p_path p) ep (var_count ep)) = Ok (v, s').
Proof.
  intros S P F L A Sa O. destruct (path_trip_shape ep t v ts vs ss S P F L A Sa O) as (p & s' & E & G & D).
  exists p, s'. split; [exact E|]. split; [apply parse_url_text; [exact G | exact I] | exact D].
Qed.

Lemma boolish_read t v : boolish t v -> read_scalar t (u "ture") = None.
Proof. induction 1; cbn [read_scalar]; [reflexivity | reflexivity | rewrite IHboolish; reflexivity]. Qed.
Lemma boolish_text t v s : boolish t v -> scalar_text v = Some s -> s = u "ture".
Proof. induction 1; cbn [scalar_text]; [intros [= <-]; reflexivity | discriminate | assumption]. Qed.

Lemma path_true_refused ep vs ss ts i t v ws s' : plain_entry ep -> length ss = var_count ep -> length ts = var_count ep ->
  all_some (map scalar_text vs) = Some ss -> Forall path_safe ss -> first_ok (fill ep ss) ->
  nth_error ts i = Some t -> nth_error vs i = Some v -> boolish t v ->
  de_path (TTuple ts) (mkPde false (fold_left push (fill ep ss) [[]]) ep (var_count ep)) <> Ok (STuple ws, s').
Proof.
  intros P L1 L2 A Sa O T V B D.
  destruct (proj1 (client_path_iff ep ss ts ws P L1 L2 Sa O) (ex_intro _ s' D)) as [L R].
  assert (X : nth_error ss i = scalar_text v /\ nth_error ss i <> None).
  { clear - A V. revert vs ss A V. induction i as [|i IH]; intros [|w vs] ss A V; try discriminate; cbn in A, V.
    - injection V as ->. destruct (scalar_text v) as [x|] eqn:E; [|discriminate]. destruct (all_some _); [|discriminate].
      injection A as <-. split; [reflexivity | discriminate].
    - destruct (scalar_text w); [|discriminate]. destruct (all_some (map scalar_text vs)) as [xs|] eqn:E; [|discriminate].
      injection A as <-. apply (IH vs xs E V). }
  destruct X as [X1 X2]. destruct (nth_error ss i) as [x|] eqn:Y; [|congruence].
  destruct (nth_error ws i) as [w|] eqn:W.
  - specialize (R i t x w T Y W). rewrite (boolish_text t v x B (eq_sym X1)), (boolish_read t v B) in R. discriminate.
  - apply nth_error_None in W. assert (Q : nth_error ts i <> None) by congruence. apply nth_error_Some in Q. lia.
Qed.

Lemma path_unread ep segs ts t vs s' : In t ts -> readable t = false ->
  de_path (TTuple ts) (mkPde false segs ep (var_count ep)) <> Ok (STuple vs, s').
Proof.
  intros I R D. destruct (proj1 (de_tuple_iff ep segs ts vs) (ex_intro _ s' D)) as (es & V & L & Rd).
  pose proof (var_texts_length _ _ _ _ V) as Le. apply In_nth_error in I. destruct I as [i T].
  assert (B : (i < length ts)%nat) by (apply nth_error_Some; congruence).
  destruct (nth_error es i) as [e|] eqn:Y; [|apply nth_error_None in Y; lia].
  destruct (nth_error vs i) as [v|] eqn:Z; [|apply nth_error_None in Z; lia].
  destruct (Rd i t e v T Y Z) as (x & _ & E). apply read_readable in E. congruence.
Qed.

Lemma path_refused ep segs ts t vs s' : In t ts ->
  (t = TChar \/ t = TUnit \/ (exists n vs, t = TEnum n vs) \/ (exists n, t = TNewtype n TChar)) ->
  de_path (TTuple ts) (mkPde false segs ep (var_count ep)) <> Ok (STuple vs, s').
Proof.
  intros I T. apply (path_unread ep segs ts t vs s' I).
  destruct T as [->|[->|[(? & ? & ->)|(? & ->)]]]; reflexivity.
Qed.

Lemma path_written_anyway ep c e x :
  (var_count ep = 2%nat -> exists p, ser_path ep (STuple [SChar c; SUnitVariant e x]) (pser_new ep [[]]) = Ok p /\
     p_path p = fold_left push (fill ep [[c]; x]) [[]]) /\
  (var_count ep = 0%nat -> exists p, ser_path ep SUnit (pser_new ep [[]]) = Ok p /\
     forall segs, de_path TUnit (mkPde false segs ep (var_count ep)) = Err Invalid).
Proof.
  split; intros V; rewrite ser_path_spec; cbn [path_args map scalar_text all_some option_map length]; rewrite V; cbn [Nat.eqb];
    eexists; split; reflexivity.
Qed.

Lemma all_some_none {A} (l1 l2 : list (option A)) : all_some (l1 ++ None :: l2) = None.
Proof. induction l1 as [|[a|] l1 IH]; cbn; [reflexivity | rewrite IH; reflexivity | reflexivity]. Qed.

Lemma path_msgpack_not_written ep packed vs1 vs2 path :
  ser_path ep (msgpack_value packed) (pser_new ep path) = Err Invalid /\
  ser_path ep (STuple (vs1 ++ msgpack_value packed :: vs2)) (pser_new ep path) = Err Invalid.
Proof.
  rewrite !ser_path_spec. split; [reflexivity|]. cbn [path_args]. rewrite map_app. cbn [map].
  change (scalar_text (msgpack_value packed)) with (@None ustr). rewrite all_some_none. reflexivity.
Qed.

Lemma path_msgpack_not_read ep segs ts vs s' : In msgpack_ty ts ->
  de_path (TTuple ts) (mkPde false segs ep (var_count ep)) <> Ok (STuple vs, s').
Proof. intros I. apply (path_unread ep segs ts msgpack_ty vs s' I). reflexivity. Qed.
End PathTrip.
