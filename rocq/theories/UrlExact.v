(** * The url crate's model writes and reads these texts. *)
From Verif Require Import Base Utf8 DepUrl UrlProofs Utf8Spec Utf8Exact UrlSpec.
Open Scope N_scope.

Lemma hex_exact d h : hex d h <-> d < 16 /\ h = hexdig d.
Proof.
  unfold hex. split.
  - intros E. assert (L : d < 16) by (assert (Q : (N.to_nat d < length (u "0123456789ABCDEF"))%nat) by (apply nth_error_Some; congruence); cbn in Q; lia). split; [exact L|].
    assert (C : d = 0 \/ d = 1 \/ d = 2 \/ d = 3 \/ d = 4 \/ d = 5 \/ d = 6 \/ d = 7 \/ d = 8 \/ d = 9 \/ d = 10 \/ d = 11 \/ d = 12 \/ d = 13 \/ d = 14 \/ d = 15) by lia.
    repeat (destruct C as [->|C]; [injection E as <-; reflexivity|]). subst d. injection E as <-. reflexivity.
  - intros [L ->].
    assert (C : d = 0 \/ d = 1 \/ d = 2 \/ d = 3 \/ d = 4 \/ d = 5 \/ d = 6 \/ d = 7 \/ d = 8 \/ d = 9 \/ d = 10 \/ d = 11 \/ d = 12 \/ d = 13 \/ d = 14 \/ d = 15) by lia.
    repeat (destruct C as [->|C]; [reflexivity|]). subst d. reflexivity.
Qed.
Lemma escape_exact bs t : bytes_ok bs = true -> (escape bs t <-> t = flat_map pct_byte bs).
Proof.
  unfold bytes_ok. intros Hb. split.
  - intros Q. clear Hb. induction Q as [|x y h l bs t X Y Q IH]; [reflexivity|]. apply hex_exact in X, Y. destruct X as [Lx ->], Y as [Ly ->]. cbn [flat_map]. rewrite IH. unfold pct_byte.
    replace ((16 * x + y) / 16) with x by lia. replace ((16 * x + y) mod 16) with y by lia. reflexivity.
  - intros ->. induction bs as [|b bs IH]; [constructor|]. cbn [forallb] in Hb. apply andb_true_iff in Hb. destruct Hb as [H1 H2]. cbn [flat_map pct_byte app].
    replace b with (16 * (b / 16) + b mod 16) at 1 by lia. apply (EsByte (b / 16) (b mod 16) _ _ bs); [apply hex_exact; split; [lia | reflexivity].. | apply IH, H2].
Qed.

Section Path.
Context `{urlenv}.
Lemma stands_exact c : stands_in_path c <-> is_ascii c && negb (segment_set c) = true.
Proof.
  unfold stands_in_path, is_ascii, segment_set, path_set. change (u """#%/<>?\`{}") with [34; 35; 37; 47; 60; 62; 63; 92; 96; 123; 125]. cbn [In]. mem_simp. destruct enc_caret; lia.
Qed.
Lemma vanishes_exact c : vanishes c <-> tab_or_nl c = true.
Proof. unfold vanishes, tab_or_nl. mem_simp. lia. Qed.
Lemma segment_exact s e : str_ok s = true -> (segment s e <-> e = pct_encode segment_set (strip_tabs s)).
Proof.
  unfold str_ok, strip_tabs. intros Hs. split.
  - intros Q. induction Q as [|c s t V Q IH|c s t V Q IH|c bs e s t V S U E Q IH]; [reflexivity|..]; cbn [forallb] in Hs; apply andb_true_iff in Hs; destruct Hs as [H1 H2]; cbn [filter].
    + apply vanishes_exact in V. rewrite V. apply IH, H2.
    + replace (tab_or_nl c) with false by (symmetry; apply not_true_iff_false; rewrite <- vanishes_exact; unfold vanishes; destruct V; lia). cbn [negb]. unfold pct_encode. cbn [flat_map]. unfold pct_char at 1.
      apply stands_exact in V. rewrite V. rewrite (IH H2). reflexivity.
    + replace (tab_or_nl c) with false by (symmetry; apply not_true_iff_false; rewrite <- vanishes_exact; exact V). cbn [negb]. unfold pct_encode. cbn [flat_map]. unfold pct_char at 1.
      destruct (is_ascii c && negb (segment_set c)) eqn:K; [apply stands_exact in K; contradiction|]. apply utf8_exact in U; [|exact H1]. subst bs. apply escape_exact in E; [|apply utf8_char_bytes, H1]. subst e. rewrite (IH H2). reflexivity.
  - intros ->. induction s as [|c s IH]; [constructor|]. cbn [forallb] in Hs; apply andb_true_iff in Hs; destruct Hs as [H1 H2]; cbn [filter]. destruct (tab_or_nl c) eqn:V; cbn [negb].
    + apply SgGone; [apply vanishes_exact, V | apply IH, H2].
    + unfold pct_encode. cbn [flat_map]. unfold pct_char at 1. destruct (is_ascii c && negb (segment_set c)) eqn:K.
      * apply SgKept; [apply stands_exact, K | apply IH, H2].
      * apply (SgEscaped c (utf8_char c)); [rewrite vanishes_exact, V; discriminate | rewrite stands_exact, K; discriminate | apply utf8_exact; [exact H1 | reflexivity] | apply escape_exact; [apply utf8_char_bytes, H1 | reflexivity] | apply IH, H2].
Qed.

(** ** Trimming *)
Lemma drop_while_split f s : exists a, s = a ++ drop_while f s /\ Forall (fun c => f c = true) a /\ (forall c r, drop_while f s = c :: r -> f c = false).
Proof.
  induction s as [|c s (a & E & Fa & N)]; [exists []; split; [reflexivity|]; split; [constructor | discriminate]|]. cbn [drop_while]. destruct (f c) eqn:K.
  - exists (c :: a). split; [cbn [app]; congruence|]. split; [constructor; assumption | exact N].
  - exists []. split; [reflexivity|]. split; [constructor|]. intros c' r [= <- _]. exact K.
Qed.
Lemma drop_while_app f a m : Forall (fun c => f c = true) a -> (forall c r, m = c :: r -> f c = false) -> drop_while f (a ++ m) = m.
Proof.
  intros Fa N. induction Fa as [|c a K _ IH]; cbn [app drop_while].
  - destruct m as [|c m]; [reflexivity|]. cbn [drop_while]. rewrite (N c m eq_refl). reflexivity.
  - rewrite K. exact IH.
Qed.
Lemma blank_exact c : blank c <-> c0_or_space c = true.
Proof. unfold blank, c0_or_space. lia. Qed.
Lemma blanks a : Forall blank a <-> Forall (fun c => c0_or_space c = true) a.
Proof. rewrite !Forall_forall. split; intros Q c I; apply blank_exact, Q, I. Qed.
Lemma unblank c : ~ blank c <-> c0_or_space c = false.
Proof. rewrite blank_exact. apply not_true_iff_false. Qed.
Lemma trimmed_exact s m : trimmed s m <-> m = trim_matches c0_or_space s.
Proof.
  unfold trimmed, trim_matches. set (f := c0_or_space). split.
  - intros (a & b & -> & Fa & Fb & Nf & Nl). apply blanks in Fa, Fb. destruct m as [|c m].
    + cbn [app]. rewrite <- (app_nil_r (a ++ b)), drop_while_app; [reflexivity | apply Forall_app; auto | discriminate].
    + rewrite drop_while_app; [|exact Fa | intros c' r [= <- _]; apply unblank, (Nf c m eq_refl)].
      rewrite rev_app_distr, drop_while_app; [symmetry; apply rev_involutive | apply Forall_rev, Fb|].
      intros c' r E. apply unblank, (Nl (rev r)). rewrite <- (rev_involutive (c :: m)), E. reflexivity.
  - intros ->. destruct (drop_while_split f s) as (a & E & Fa & N). set (d := drop_while f s) in *. destruct (drop_while_split f (rev d)) as (b & E2 & Fb & N2). set (m := drop_while f (rev d)) in *.
    assert (Ed : d = rev m ++ rev b) by (rewrite <- (rev_involutive d), E2, rev_app_distr; reflexivity).
    exists a, (rev b). split; [rewrite E at 1; rewrite Ed; reflexivity|]. split; [apply blanks, Fa|]. split; [apply blanks, Forall_rev, Fb|]. split.
    + intros c r Em. apply unblank. rewrite Em in Ed. exact (N c _ Ed).
    + intros r c Em. apply unblank. apply (N2 c (rev r)). rewrite <- (rev_involutive m), Em, rev_app_distr. reflexivity.
Qed.
Lemma trim_ok s : str_ok s = true -> str_ok (trim_matches c0_or_space s) = true.
Proof.
  intros Hs. destruct (proj2 (trimmed_exact s _) eq_refl) as (a & b & E & _). rewrite E in Hs. unfold str_ok in *. rewrite !forallb_app in Hs. apply andb_true_iff in Hs. destruct Hs as [_ Hs].
  apply andb_true_iff in Hs. apply Hs.
Qed.
Lemma taken_segment s e : str_ok s = true -> ((exists m, taken_in s m /\ segment m e) <-> e = pct_encode segment_set (seg_input s)).
Proof.
  intros Hs. unfold taken_in, seg_input. destruct trim_segment.
  - split; [intros (m & T & S); apply trimmed_exact in T; subst m; apply segment_exact in S; [exact S | apply trim_ok, Hs]|].
    intros E. eexists. split; [apply trimmed_exact; reflexivity|]. apply segment_exact; [apply trim_ok, Hs | exact E].
  - split; [intros (m & -> & S); apply segment_exact in S; assumption|]. intros E. exists s. split; [reflexivity | apply segment_exact; assumption].
Qed.

(** ** Paths as texts *)
Definition text (p : list ustr) : ustr := 47 :: join [47] p.
Lemma text_snoc q x : text (q ++ [x]) = match q with [] => [] | _ => text q end ++ 47 :: x.
Proof. unfold text. destruct q as [|a q]; [reflexivity|]. rewrite join_snoc by discriminate. reflexivity. Qed.
Lemma text_root p : good_path p -> ustr_eqb (text p) (u "/") = is_root p.
Proof.
  intros G. destruct (is_root p) eqn:R; [apply is_root_true in R; subst; reflexivity|]. apply ustr_eqb_neq. intros E. unfold text in E. injection E as E.
  destruct G as [_ [->|(x & r & -> & N)]]; [discriminate|]. destruct r as [|y r]; [exact (N E)|]. change (x ++ 47 :: join [47] (y :: r) = []) in E. apply app_eq_nil in E. apply N, E.
Qed.
Lemma text_add p e : good_path p -> text (add_seg p e) = text p ++ slash (text p) ++ e.
Proof.
  intros G. unfold add_seg, slash. rewrite (text_root p G). destruct (is_root p) eqn:R; [apply is_root_true in R; subst; reflexivity|].
  unfold text. rewrite join_snoc by (apply good_nonempty, G). reflexivity.
Qed.
Lemma last_slash f1 l1 : forall f2 l2, f1 ++ 47 :: l1 = f2 ++ 47 :: l2 -> ~ In 47 l1 -> ~ In 47 l2 -> f1 = f2 /\ l1 = l2.
Proof.
  induction f1 as [|c f1 IH]; intros [|c2 f2] l2 E N1 N2; cbn [app] in E.
  - injection E as <-. auto.
  - injection E as <- E. elim N1. rewrite E. apply in_elt.
  - injection E as -> E. elim N2. rewrite <- E. apply in_elt.
  - injection E as <- E. destruct (IH f2 l2 E N1 N2) as [-> ->]. auto.
Qed.
Lemma good_last p : good_path p -> exists q x, p = q ++ [x] /\ ~ In 47 x.
Proof.
  intros G. destruct (exists_last (good_nonempty p G)) as (q & x & ->). exists q, x. split; [reflexivity|]. destruct G as [F _]. apply Forall_app in F. destruct F as [_ F]. inversion F as [|? ? E _]; subst.
  apply enc_seg_chars in E. rewrite forallb_forall in E. intros I. specialize (E _ I). unfold seg_char in E. lia.
Qed.
Lemma text_up p front last : good_path p -> text p = front ++ u "/" ++ last -> ~ In 47 last -> front ++ u "/" = text (if is_root p then p else removelast p ++ [[]]).
Proof.
  intros G E N. destruct (good_last p G) as (q & x & -> & Nx). rewrite text_snoc in E. apply last_slash in E; [|exact Nx | exact N]. destruct E as [<- <-].
  destruct (is_root (q ++ [x])) eqn:R.
  - apply is_root_true in R. destruct q as [|y q]; [injection R as ->; reflexivity|]. destruct q; discriminate.
  - rewrite removelast_last, text_snoc. reflexivity.
Qed.
Lemma dots_exact s : dots s <-> ustr_eqb s dot || ustr_eqb s dotdot = true.
Proof. unfold dots. rewrite orb_true_iff, !ustr_eqb_eq. reflexivity. Qed.
Lemma undots s : ~ dots s -> ustr_eqb s dot || ustr_eqb s dotdot = false.
Proof. rewrite dots_exact. apply not_true_is_false. Qed.

Lemma pushed_exact p s t : good_path p -> str_ok s = true -> (pushed (text p) s t <-> t = text (push p s)).
Proof.
  intros G Hs. pose proof (taken_segment s) as TS. unfold push. set (e := pct_encode segment_set (seg_input s)) in *. split.
  - intros Q. destruct Q as [s D|s m e' D T S De|s m D T S|s m front last D T S E N].
    + apply dots_exact in D. rewrite D. reflexivity.
    + rewrite (undots s D). assert (X : e' = e) by (apply TS; eauto). subst e'. apply undots in De. apply orb_false_iff in De. destruct De as [-> ->]. symmetry. apply text_add, G.
    + rewrite (undots s D). assert (X : u "." = e) by (apply TS; eauto). rewrite <- X. change (ustr_eqb (u ".") dotdot) with false. change (ustr_eqb (u ".") dot) with true. cbv iota. rewrite text_add by exact G. rewrite app_nil_r. reflexivity.
    + rewrite (undots s D). assert (X : u ".." = e) by (apply TS; eauto). rewrite <- X. change (ustr_eqb (u "..") dotdot) with true. cbv iota. apply (text_up p front last G E N).
  - intros ->. destruct (ustr_eqb s dot || ustr_eqb s dotdot) eqn:D; [apply PuDots, dots_exact, D|].
    assert (Nd : ~ dots s) by (rewrite dots_exact, D; discriminate). destruct (proj2 (TS e Hs) eq_refl) as (m & T & S).
    destruct (ustr_eqb_spec e dotdot) as [E2|N2]; [|destruct (ustr_eqb_spec e dot) as [E1|N1]].
    + rewrite E2 in S. destruct (good_last p G) as (q & x & Ep & Nx). assert (Et : text p = match q with [] => [] | _ => text q end ++ u "/" ++ x) by (rewrite Ep; apply text_snoc).
      rewrite <- (text_up p _ x G Et Nx). apply (PuUp _ s m _ x); assumption.
    + rewrite E1 in S. rewrite text_add, app_nil_r by exact G. apply (PuDot _ s m); assumption.
    + rewrite text_add by exact G. apply (PuAdd _ s m); try assumption. intros [Q|Q]; auto.
Qed.
Lemma path_text_exact ss : forall p t, good_path p -> forallb str_ok ss = true -> (path_text (text p) ss t <-> t = text (fold_left push ss p)).
Proof.
  induction ss as [|s ss IH]; intros p t G Hs; cbn [fold_left].
  - split; [inversion 1; reflexivity | intros ->; constructor].
  - cbn [forallb] in Hs. apply andb_true_iff in Hs. destruct Hs as [H1 H2]. pose proof (good_push p s G H1) as G'. split.
    + intros Q. inversion Q as [|? ? p' ? ? P R]; subst. apply pushed_exact in P; [|assumption..]. subst p'. apply IH in R; assumption.
    + intros E. apply (PtStep _ s (text (push p s))); [apply pushed_exact; auto | apply IH; assumption].
Qed.
End Path.

(** ** Query texts *)
Lemma stands_query_exact c : stands_in_query c <-> form_keep c = true.
Proof. unfold stands_in_query, form_keep. change (u "*-._") with [42; 45; 46; 95]. cbn [In]. mem_simp. lia. Qed.
Lemma form_bytes_escaped c : is_scalar c = true -> form_keep c = false -> c <> 32 -> flat_map form_byte (utf8_char c) = flat_map pct_byte (utf8_char c).
Proof.
  intros Hc K N. assert (X : forall b, In b (utf8_char c) -> form_keep b = false /\ b <> 32).
  { destruct (is_ascii c) eqn:A.
    - intros b I. unfold utf8_char in I. unfold is_ascii in A. rewrite A in I. destruct I as [<-|[]]. auto.
    - intros b I. pose proof (utf8_char_ge c A) as Q. rewrite forallb_forall in Q. specialize (Q b I). unfold is_ascii in Q. unfold form_keep. mem_simp. lia. }
  revert X. induction (utf8_char c) as [|b bs IH]; intros X; [reflexivity|]. cbn [flat_map]. rewrite IH by (intros b' I; apply X; right; exact I).
  destruct (X b (or_introl eq_refl)) as [Kb Nb]. unfold form_byte. rewrite Kb. replace (b =? 32) with false by lia. reflexivity.
Qed.
Lemma keep_char c : form_keep c = true \/ c = 32 -> utf8_char c = [c].
Proof. intros Q. unfold utf8_char. replace (c <? 128) with true; [reflexivity|]. destruct Q as [K| ->]; [|reflexivity]. unfold form_keep in K. mem_simp. lia. Qed.
Lemma form_exact s t : str_ok s = true -> (form s t <-> t = form_encode s).
Proof.
  unfold str_ok. intros Hs. unfold form_encode, utf8_encode. split.
  - intros Q. induction Q as [|c s t K Q IH|s t Q IH|c bs e s t K N U E Q IH]; [reflexivity|..]; cbn [forallb] in Hs; apply andb_true_iff in Hs; destruct Hs as [H1 H2]; cbn [flat_map]; rewrite flat_map_app, (IH H2).
    + apply stands_query_exact in K. rewrite keep_char by (left; exact K). cbn [flat_map]. unfold form_byte at 2. rewrite K. reflexivity.
    + reflexivity.
    + apply utf8_exact in U; [|exact H1]. subst bs. apply escape_exact in E; [|apply utf8_char_bytes, H1]. subst e. rewrite form_bytes_escaped; [reflexivity | exact H1 | | exact N]. apply not_true_is_false. rewrite <- stands_query_exact. exact K.
  - intros ->. induction s as [|c s IH]; [constructor|]. cbn [forallb] in Hs; apply andb_true_iff in Hs; destruct Hs as [H1 H2]; cbn [flat_map]; rewrite flat_map_app. destruct (form_keep c) eqn:K; [|destruct (N.eq_dec c 32) as [->|N]].
    + rewrite keep_char by (left; exact K). cbn [flat_map]. unfold form_byte at 1. rewrite K. cbn [app]. apply FmKept; [apply stands_query_exact, K | apply IH, H2].
    + apply FmSpace, IH, H2.
    + rewrite form_bytes_escaped by assumption. apply (FmEscaped c (utf8_char c)); [rewrite stands_query_exact, K; discriminate | exact N | apply utf8_exact; [exact H1 | reflexivity] | apply escape_exact; [apply utf8_char_bytes, H1 | reflexivity] | apply IH, H2].
Qed.
Lemma join_pair k v p l : join [38] (map pair_text ((k, v) :: p :: l)) = form_encode k ++ u "=" ++ form_encode v ++ u "&" ++ join [38] (map pair_text (p :: l)).
Proof. change (join [38] (map pair_text ((k, v) :: p :: l))) with (pair_text (k, v) ++ [38] ++ join [38] (map pair_text (p :: l))). unfold pair_text at 1. cbn [fst snd]. rewrite <- !app_assoc. reflexivity. Qed.
Lemma query_text_exact l t : pairs_ok l = true -> (query_text l t <-> t = pairs_text l).
Proof.
  unfold pairs_ok, pairs_text. revert t. induction l as [|[k v] l IH]; intros t Hl; [split; [inversion 1; reflexivity | intros ->; constructor]|].
  cbn [forallb fst snd] in Hl. apply andb_true_iff in Hl. destruct Hl as [Hkv Hl]. apply andb_true_iff in Hkv. destruct Hkv as [Hk Hv]. specialize (fun t => IH t Hl). split.
  - intros Q. inversion Q as [|? ? k' v' A B|? ? k' v' p l' t' A B R]; subst; apply form_exact in A, B; try assumption; subst k' v'; [reflexivity|].
    apply IH in R. subst t'. rewrite join_pair. reflexivity.
  - intros ->. destruct l as [|p l]; [apply QtOne; apply form_exact; auto|]. rewrite join_pair. apply QtMore; [apply form_exact; auto | apply form_exact; auto | apply IH; reflexivity].
Qed.

Theorem target_exact `{urlenv} segs pairs t : forallb str_ok segs = true -> match pairs with Some l => pairs_ok l = true | None => True end ->
  (target segs pairs t <-> t = url_text (fold_left push segs [[]]) (option_map pairs_text pairs)).
Proof.
  intros Hs Hp. unfold target. pose proof (fun t => path_text_exact segs [[]] t good_root Hs) as P. change (text [[]]) with (u "/") in P. split.
  - intros (p & Q & R). apply P in Q. subst p. destruct pairs as [l|]; [destruct R as (q & Qq & ->); apply query_text_exact in Qq; [|exact Hp]; subst q; reflexivity|].
    subst t. unfold url_text, text. cbn [option_map]. rewrite app_nil_r. reflexivity.
  - intros ->. exists (text (fold_left push segs [[]])). split; [apply P; reflexivity|]. destruct pairs as [l|]; cbn [option_map].
    + exists (pairs_text l). split; [apply query_text_exact; auto | reflexivity].
    + unfold url_text, text. rewrite app_nil_r. reflexivity.
Qed.

(** ** Reading a query *)
Lemma any_hex_exact d h : any_hex d h -> d < 16 /\ hexval h = Some d /\ is_ascii h = true /\ h <> 43.
Proof.
  intros Q. assert (L : d < 16) by (destruct Q as [Q|Q]; match type of Q with nth_error ?l _ = _ => assert (X : (N.to_nat d < length l)%nat) by (apply nth_error_Some; congruence); cbn in X; lia end).
  split; [exact L|].
  assert (C : d = 0 \/ d = 1 \/ d = 2 \/ d = 3 \/ d = 4 \/ d = 5 \/ d = 6 \/ d = 7 \/ d = 8 \/ d = 9 \/ d = 10 \/ d = 11 \/ d = 12 \/ d = 13 \/ d = 14 \/ d = 15) by lia.
  repeat (destruct C as [->|C]; [destruct Q as [Q|Q]; injection Q as <-; (split; [reflexivity|]; split; [reflexivity | discriminate])|]). subst d. destruct Q as [Q|Q]; injection Q as <-; (split; [reflexivity|]; split; [reflexivity | discriminate]).
Qed.
Lemma hexval_any h d : hexval h = Some d -> any_hex d h.
Proof.
  unfold hexval. intros E.
  assert (C : (48 <= h <= 57 /\ d = h - 48) \/ (65 <= h <= 70 /\ d = h - 55) \/ (97 <= h <= 102 /\ d = h - 87)).
  { destruct ((48 <=? h) && (h <=? 57)) eqn:E1; [injection E as <-; lia|]. destruct ((65 <=? h) && (h <=? 70)) eqn:E2; [injection E as <-; lia|]. destruct ((97 <=? h) && (h <=? 102)) eqn:E3; [injection E as <-; lia | discriminate]. }
  clear E. destruct C as [[L ->]|[[L ->]|[L ->]]].
  - left. assert (C : h = 48 \/ h = 49 \/ h = 50 \/ h = 51 \/ h = 52 \/ h = 53 \/ h = 54 \/ h = 55 \/ h = 56 \/ h = 57) by lia. repeat (destruct C as [->|C]; [reflexivity|]). subst. reflexivity.
  - left. assert (C : h = 65 \/ h = 66 \/ h = 67 \/ h = 68 \/ h = 69 \/ h = 70) by lia. repeat (destruct C as [->|C]; [reflexivity|]). subst. reflexivity.
  - right. assert (C : h = 97 \/ h = 98 \/ h = 99 \/ h = 100 \/ h = 101 \/ h = 102) by lia. repeat (destruct C as [->|C]; [reflexivity|]). subst. reflexivity.
Qed.
(** The plus sign of a form read as a space: one step of [form_decode], named for the proofs. *)
Definition unplus (c : N) : N := if c =? 43 then 32 else c.
Lemma high_bytes c r : is_ascii c = false -> pct_decode (map unplus (utf8_char c) ++ r) = utf8_char c ++ pct_decode r.
Proof.
  intros A. pose proof (utf8_char_ge c A) as Q. induction (utf8_char c) as [|b bs IH]; [reflexivity|]. cbn [forallb] in Q. apply andb_true_iff in Q. destruct Q as [Q1 Q2]. unfold is_ascii in Q1. cbn [map app]. unfold unplus at 1.
  replace (b =? 43) with false by lia. cbn [pct_decode]. replace (b =? 37) with false by lia. rewrite IH by exact Q2. reflexivity.
Qed.
Lemma ascii_char c : is_ascii c = true -> utf8_char c = [c].
Proof. unfold is_ascii, utf8_char. intros ->. reflexivity. Qed.
(** The first byte of a text is its first character, or not ASCII. *)
Lemma first_hex c s : hexval (hd 0 (map unplus (utf8_char c ++ s))) <> None -> utf8_char c = [c] /\ c <> 43.
Proof.
  destruct (is_ascii c) eqn:A.
  - intros Q. rewrite ascii_char in * by exact A. split; [reflexivity|]. intros ->. apply Q. reflexivity.
  - intros Q. elim Q. destruct (utf8_char_first c) as (b & r & E & _ & N). rewrite E. cbn [app map hd]. specialize (N A). unfold is_ascii in N. unfold unplus. replace (b =? 43) with false by lia. unfold hexval.
    replace (b <=? 57) with false by lia. replace (b <=? 70) with false by lia. replace (b <=? 102) with false by lia. rewrite !andb_false_r. reflexivity.
Qed.
Lemma percent_alone s : ~ escaped_next s -> pct_decode (37 :: map unplus (utf8_encode s)) = 37 :: pct_decode (map unplus (utf8_encode s)).
Proof.
  intros N. cbn [pct_decode]. change (37 =? 37) with true. cbv iota. destruct (map unplus (utf8_encode s)) as [|h [|l r]] eqn:E; [reflexivity | reflexivity|].
  destruct (hexval h) as [x|] eqn:Eh; [|reflexivity]. destruct (hexval l) as [y|] eqn:El; [|reflexivity]. exfalso. apply N.
  destruct s as [|c s]; [discriminate|]. cbn [utf8_encode flat_map] in E. fold (utf8_encode s) in E.
  assert (Q : hexval (hd 0 (map unplus (utf8_char c ++ utf8_encode s))) <> None) by (rewrite E; cbn [hd]; congruence). apply first_hex in Q. destruct Q as [Qc Nc]. rewrite Qc in E. cbn [app map] in E. injection E as Ec E.
  unfold unplus in Ec. replace (c =? 43) with false in Ec by lia. subst h.
  destruct s as [|c2 s]; [discriminate|]. cbn [utf8_encode flat_map] in E. fold (utf8_encode s) in E.
  assert (Q : hexval (hd 0 (map unplus (utf8_char c2 ++ utf8_encode s))) <> None) by (rewrite E; cbn [hd]; congruence). apply first_hex in Q. destruct Q as [Qd Nd]. rewrite Qd in E. cbn [app map] in E. injection E as Ed E.
  unfold unplus in Ed. replace (c2 =? 43) with false in Ed by lia. subst l. exists x, y, c, c2, s. split; [apply hexval_any, Eh|]. split; [apply hexval_any, El | reflexivity].
Qed.
Lemma says_bytes_exact s b : says_bytes s b -> pct_decode (map unplus (utf8_encode s)) = b.
Proof.
  intros Q. induction Q as [|s b Q IH|x y h l s b X Y Q IH|s b N Q IH|c bs s b N1 N2 U Q IH].
  - reflexivity.
  - change (map unplus (utf8_encode (u "+" ++ s))) with (32 :: map unplus (utf8_encode s)). cbn [pct_decode]. change (32 =? 37) with false. cbv iota. rewrite IH. reflexivity.
  - apply any_hex_exact in X, Y. destruct X as (Lx & Ex & Ax & Nx), Y as (Ly & Ey & Ay & Ny). cbn [app u]. change (u "%") with [37]. cbn [app utf8_encode flat_map]. fold (utf8_encode s). rewrite (ascii_char h Ax), (ascii_char l Ay).
    change (utf8_char 37) with [37]. cbn [app map]. change (unplus 37) with 37. unfold unplus at 1 2. replace (h =? 43) with false by lia. replace (l =? 43) with false by lia. cbn [pct_decode]. change (37 =? 37) with true. cbv iota. rewrite Ex, Ey, IH.
    f_equal. lia.
  - change (map unplus (utf8_encode (u "%" ++ s))) with (37 :: map unplus (utf8_encode s)). rewrite percent_alone by exact N. rewrite IH. reflexivity.
  - pose proof (utf8_scalar c bs U) as Hc. apply utf8_exact in U; [|exact Hc]. subst bs. cbn [utf8_encode flat_map]. fold (utf8_encode s). rewrite map_app. destruct (is_ascii c) eqn:A; [|rewrite high_bytes by exact A; rewrite IH; reflexivity].
    rewrite (ascii_char c A). cbn [map app]. unfold unplus at 1. replace (c =? 43) with false by lia. cbn [pct_decode]. replace (c =? 37) with false by lia. rewrite IH. reflexivity.
Qed.
Lemma says_exact s t : says s t -> form_decode s = t.
Proof.
  intros (b & S & T). unfold form_decode. fold unplus. change (map (fun c => if c =? 43 then 32 else c) (utf8_encode s)) with (map unplus (utf8_encode s)). rewrite (says_bytes_exact s b S). apply utf8_lossy_iff, T.
Qed.
Lemma cut_none sep s : ~ In sep s -> cut_at sep s = (s, []).
Proof.
  induction s as [|c s IH]; intros N; [reflexivity|]. cbn [cut_at]. destruct (N.eqb_spec c sep) as [->|Nc]; [elim N; left; reflexivity|]. rewrite IH by (intros I; apply N; right; exact I). reflexivity.
Qed.
Lemma piece_exact p kv : piece p kv -> (let (k, v) := cut_at 61 p in (form_decode k, form_decode v)) = kv.
Proof.
  destruct kv as [a b]. intros [(k & v & -> & N & K & V)|(N & K & E)]; cbn [fst snd] in *.
  - change (u "=") with [61]. cbn [app]. rewrite cut_at_app; [rewrite (says_exact k a K), (says_exact v b V); reflexivity|]. apply forallb_forall. intros c I. destruct (N.eqb_spec c 61) as [->|]; [contradiction | reflexivity].
  - rewrite cut_none by exact N. rewrite (says_exact p a K). subst b. reflexivity.
Qed.
Lemma split_amp p s : ~ In 38 p -> split_on (N.eqb 38) (p ++ 38 :: s) = p :: split_on (N.eqb 38) s.
Proof.
  induction p as [|c p IH]; intros N; cbn [app split_on].
  - change (38 =? 38) with true. reflexivity.
  - destruct (N.eqb_spec 38 c) as [<-|Nc]; [elim N; left; reflexivity|]. rewrite IH by (intros I; apply N; right; exact I). reflexivity.
Qed.
Theorem query_says_exact q l : query_says q l -> form_parse q = l.
Proof.
  unfold form_parse. intros Q. induction Q as [|p kv Np Na P|s l Q IH|p kv s l Np Na P Q IH].
  - reflexivity.
  - rewrite split_on_none; [|apply forallb_forall; intros c I; destruct (N.eqb_spec 38 c) as [<-|]; [contradiction | reflexivity]]. cbn [filter]. destruct p as [|c p]; [congruence|]. cbn [map]. f_equal. apply piece_exact, P.
  - change (u "&" ++ s) with ([] ++ 38 :: s). rewrite split_amp by (intros []). exact IH.
  - change (p ++ u "&" ++ s) with (p ++ 38 :: s). rewrite split_amp by exact Na. cbn [filter]. destruct p as [|c p]; [congruence|]. cbn [map]. rewrite IH. f_equal. apply piece_exact, P.
Qed.

(** ** Reading a target *)
Lemma segments_exact s ss : segments s ss -> split_on (fun c => (c =? 47) || (true && (c =? 92))) s = ss.
Proof.
  intros Q. induction Q as [s N|s c r ss N C Q IH].
  - apply split_on_none. apply forallb_forall. intros c I. specialize (N c I). unfold separates in N. lia.
  - cbn [app]. induction s as [|d s IHs]; cbn [app split_on].
    + replace ((c =? 47) || (true && (c =? 92))) with true by (unfold separates in C; lia). rewrite IH. reflexivity.
    + assert (Nd := N d (or_introl eq_refl)). unfold separates in Nd. replace ((d =? 47) || (true && (d =? 92))) with false by lia. rewrite IHs by (intros x I; apply N; right; exact I). reflexivity.
Qed.
Lemma a_dot_low s : a_dot s <-> lowercase s = dot \/ lowercase s = u "%2e".
Proof.
  unfold a_dot. split.
  - intros [->|[->| ->]]; [left | right | right]; reflexivity.
  - intros [E|E].
    + left. apply lowercase_dot, E.
    + destruct s as [|a [|b [|c [|]]]]; try discriminate. cbn in E. injection E as Ea Eb Ec. apply lower_eq in Ea; [|lia]. apply lower_eq in Eb; [|lia]. subst. unfold lower in Ec. destruct ((65 <=? c) && (c <=? 90)) eqn:K; [|subst c; auto].
      replace c with 69 by lia. auto.
Qed.
Lemma seg_dot_exact s : stays_here s <-> seg_dot s = true.
Proof. unfold stays_here, seg_dot. rewrite a_dot_low, smem_In. cbn [In]. intuition. Qed.
Lemma lowercase_app a b : lowercase (a ++ b) = lowercase a ++ lowercase b.
Proof. apply map_app. Qed.
Lemma seg_dotdot_exact s : goes_up s <-> seg_dotdot s = true.
Proof.
  unfold goes_up, seg_dotdot. rewrite smem_In. split.
  - intros (a & b & -> & A & B). apply a_dot_low in A, B. rewrite lowercase_app. destruct A as [->| ->], B as [->| ->]; cbn; tauto.
  - intros I. assert (Q : forall x y, lowercase s = x ++ y -> exists a b, s = a ++ b /\ lowercase a = x /\ lowercase b = y).
    { intros x y E. exists (firstn (length x) s), (skipn (length x) s). split; [symmetry; apply firstn_skipn|]. unfold lowercase in *. rewrite <- firstn_map, <- skipn_map, E. rewrite firstn_app, Nat.sub_diag, firstn_all, skipn_app, Nat.sub_diag, skipn_all. cbn. rewrite app_nil_r. auto. }
    assert (R : forall x y, lowercase s = x ++ y -> (x = dot \/ x = u "%2e") -> (y = dot \/ y = u "%2e") -> exists a b, s = a ++ b /\ a_dot a /\ a_dot b).
    { intros x y E X Y. destruct (Q x y E) as (a & b & -> & A & B). exists a, b. split; [reflexivity|]. split; apply a_dot_low; subst; auto. }
    destruct I as [E|[E|[E|[E|[]]]]]; symmetry in E.
    + apply (R dot dot E); auto.
    + apply (R (u "%2e") (u "%2e") E); auto.
    + apply (R dot (u "%2e") E); auto.
    + apply (R (u "%2e") dot E); auto.
Qed.
Section Target.
Context `{urlenv}.
Lemma odd_path_exact c : visible c -> ~ separates c -> c <> 63 /\ c <> 35 -> (odd_in_path c <-> path_set c = true).
Proof. unfold odd_in_path, path_set, visible, separates. change (u """<>`{}") with [34; 60; 62; 96; 123; 125]. cbn [In]. mem_simp. destruct enc_caret; intuition lia. Qed.
Lemma odd_query_exact c : visible c -> c <> 35 -> (odd_in_query c <-> query_set true c = true).
Proof. unfold odd_in_query, query_set, visible. change (u """<>'") with [34; 60; 62; 39]. cbn [In]. mem_simp. lia. Qed.
Lemma tidied_exact odd set s t : (forall c, In c s -> visible c /\ (odd c <-> set c = true)) -> tidied odd s t -> t = pct_encode set s.
Proof.
  intros D Q. induction Q as [|c s t N Q IH|c e s t O E Q IH]; [reflexivity|..]; destruct (D c (or_introl eq_refl)) as [V Dc]; rewrite IH by (intros x I; apply D; right; exact I); unfold pct_encode; cbn [flat_map]; unfold pct_char, is_ascii.
  - replace (c <? 128) with true by (unfold visible in V; lia). rewrite Dc in N. apply not_true_is_false in N. rewrite N. reflexivity.
  - apply Dc in O. rewrite O. cbn [negb]. rewrite andb_false_r. rewrite ascii_char by (unfold visible in V; unfold is_ascii; lia).
    apply escape_exact in E; [subst e; reflexivity|]. unfold bytes_ok. cbn [forallb]. unfold visible in V. lia.
Qed.
Lemma resolved_exact es x : forall raw a, Forall2 (fun r e => e = pct_encode path_set r) raw es -> resolved a es x -> path_loop a raw = x.
Proof.
  intros raw a F Q. revert raw F. induction Q as [a|a s r x N1 N2 Q IH|a s s' r x D Q IH|a s D|a s s' r x D Q IH|a s D]; intros raw F; inversion F as [|p ? rest ? Ep F']; subst; cbn [path_loop].
  - reflexivity.
  - replace (seg_dotdot (pct_encode path_set p)) with false by (symmetry; apply not_true_is_false; rewrite <- seg_dotdot_exact; exact N2). replace (seg_dot (pct_encode path_set p)) with false by (symmetry; apply not_true_is_false; rewrite <- seg_dot_exact; exact N1). apply IH, F'.
  - assert (N2 : seg_dotdot (pct_encode path_set p) = false).
    { apply seg_dot_exact in D. unfold seg_dot, seg_dotdot in *. rewrite smem_In in D. destruct D as [<-|[<-|[]]]; reflexivity. }
    rewrite N2. apply seg_dot_exact in D. rewrite D. inversion F'; subst. rewrite app_nil_r. apply IH, F'.
  - inversion F'; subst. assert (N2 : seg_dotdot (pct_encode path_set p) = false).
    { apply seg_dot_exact in D. unfold seg_dot, seg_dotdot in *. rewrite smem_In in D. destruct D as [<-|[<-|[]]]; reflexivity. }
    rewrite N2. apply seg_dot_exact in D. rewrite D. reflexivity.
  - apply seg_dotdot_exact in D. rewrite D. inversion F'; subst. rewrite app_nil_r. apply IH, F'.
  - inversion F'; subst. apply seg_dotdot_exact in D. rewrite D. reflexivity.
Qed.
Lemma visible_parse s : Forall visible s -> strip_tabs (trim_matches c0_or_space s) = s.
Proof.
  intros F. rewrite Forall_forall in F. rewrite trim_matches_none.
  - unfold strip_tabs. assert (Q : forall l, (forall c, In c l -> visible c) -> filter (fun c => negb (tab_or_nl c)) l = l).
    { induction l as [|c l IH]; intros V; [reflexivity|]. cbn [filter]. assert (Vc := V c (or_introl eq_refl)). unfold visible in Vc. replace (tab_or_nl c) with false by (unfold tab_or_nl; mem_simp; lia). cbn [negb]. rewrite IH; [reflexivity|]. intros x I. apply V. right. exact I. }
    apply Q, F.
  - apply forallb_forall. intros c I. specialize (F c I). unfold visible in F. unfold c0_or_space. lia.
Qed.
Lemma segments_in path raw : segments path raw -> forall r c, In r raw -> In c r -> In c path /\ ~ separates c.
Proof.
  intros Q. induction Q as [s N|s d r ss N D Q IH]; intros x c Ix Ic.
  - destruct Ix as [<-|[]]. auto.
  - destruct Ix as [<-|Ix]; [split; [apply in_or_app; auto | apply N, Ic]|]. destruct (IH x c Ix Ic) as [A B]. split; [|exact B]. apply in_or_app. right. right. exact A.
Qed.
Lemma path_part path raw segs : Forall visible path -> (forall c, In c path -> c <> 63 /\ c <> 35) -> segments path raw ->
  (exists es, Forall2 (tidied odd_in_path) raw es /\ resolved [] es segs) -> path_loop [] (split_on (fun c => (c =? 47) || (true && (c =? 92))) path) = segs.
Proof.
  intros V N S (es & T & R). rewrite (segments_exact path raw S). apply (resolved_exact es segs raw []); [|exact R]. rewrite Forall_forall in V.
  pose proof (segments_in path raw S) as Q. clear S R. induction T as [|r e raw es T F IH]; constructor.
  - apply (tidied_exact odd_in_path); [|exact T]. intros c I. destruct (Q r c (or_introl eq_refl) I) as [Ic Sc]. split; [apply V, Ic|]. apply odd_path_exact; auto.
  - apply IH. intros r' c Ir. apply Q. right. exact Ir.
Qed.
Lemma rest_break path rest : (forall c, In c path -> c <> 63 /\ c <> 35) -> rest = [] \/ (exists c r, rest = c :: r /\ path_end c = true) -> break_at path_end (path ++ rest) = (path, rest).
Proof.
  intros N R. assert (Q : forallb (fun x => negb (path_end x)) path = true) by (apply forallb_forall; intros c I; specialize (N c I); unfold path_end; lia).
  destruct R as [->|(c & r & -> & P)]; [rewrite app_nil_r; apply break_at_none, Q | apply break_at_app; assumption].
Qed.
Lemma parse_slash body : Forall visible body -> match body with c :: _ => ~ separates c | [] => True end -> parse_url (47 :: body) = Some (parse_path_query true body).
Proof.
  intros V N. unfold parse_url. rewrite visible_parse by (constructor; [unfold visible; lia | exact V]). cbn [parse_scheme]. change (alpha 47) with false. cbv iota. cbn [parse_relative].
  change (path_end 47) with false. change (is_slash 47) with true. cbv iota. destruct body as [|c body]; [reflexivity|]. replace (is_slash c) with false; [reflexivity|]. unfold is_slash, separates in *. lia.
Qed.
Theorem target_says_exact t segs q : target_says t segs q -> Forall visible t -> match t with _ :: c :: _ => ~ separates c | _ => True end -> parse_url t = Some (mkUrl (Some segs) q).
Proof.
  intros Q V N. destruct Q as [path raw segs rest Np S P R|path raw segs q q' rest Np S P Nq T R].
  - change (u "/" ++ path ++ rest) with (47 :: (path ++ rest)) in *. inversion V as [|? ? _ Vb]; subst. rewrite parse_slash; [|exact Vb | destruct (path ++ rest); [exact I | exact N]].
    unfold parse_path_query. rewrite rest_break; [|exact Np | destruct R as [->|(f & ->)]; [auto|]; right; exists 35, f; auto]. apply Forall_app in Vb. destruct Vb as [Vp _].
    rewrite (path_part path raw segs Vp Np S P). destruct R as [->|(f & ->)]; reflexivity.
  - change (u "/" ++ path ++ u "?" ++ q ++ rest) with (47 :: (path ++ 63 :: q ++ rest)) in *. inversion V as [|? ? _ Vb]; subst. rewrite parse_slash; [|exact Vb | destruct (path ++ 63 :: q ++ rest); [exact I | exact N]].
    unfold parse_path_query. rewrite rest_break; [|exact Np | right; exists 63, (q ++ rest); auto]. apply Forall_app in Vb. destruct Vb as [Vp Vq].
    rewrite (path_part path raw segs Vp Np S P). unfold parse_query. change (63 =? 63) with true. cbv iota.
    assert (B : fst (break_at (N.eqb 35) (q ++ rest)) = q).
    { assert (Q : forallb (fun x => negb (35 =? x)) q = true) by (apply forallb_forall; intros c I; destruct (N.eqb_spec 35 c) as [<-|]; [contradiction | reflexivity]).
      destruct R as [->|(f & ->)]; [rewrite app_nil_r, break_at_none by exact Q; reflexivity|]. change (u "#" ++ f) with (35 :: f). rewrite break_at_app; [reflexivity | exact Q | reflexivity]. }
    rewrite B. inversion Vq as [|? ? _ Vq']; subst. apply Forall_app in Vq'. destruct Vq' as [Vq' _]. rewrite Forall_forall in Vq'.
    rewrite <- (tidied_exact odd_in_query (query_set true) q q'); [reflexivity | | exact T]. intros c I. split; [apply Vq', I|]. apply odd_query_exact; [apply Vq', I|]. intros ->. contradiction.
Qed.
End Target.

(** ** The targets of requests *)
From Verif Require Import Serde Procedure ScalarSpec PathSpec FieldSpec SerHeader SerRequest RequestSpec RequestProofs RequestTrip UrlSpec.
Theorem request_target_exact `{urlenv} `{floatlib} ep v len r : entry_ok ep -> wf_value v = true -> encode_request ep v len = Ok r ->
  exists variant ps q hs tss ql, body_of v = Some (variant, parts ps q hs) /\
    Forall2 (args_for ep) match ps with [] => [SUnit] | _ => ps end tss /\ query_part q ql /\
    (forall t, target (flat_map (fill ep) tss) ql t <-> t = rb_target r).
Proof.
  intros E W Enc. apply encode_ok_iff in Enc. destruct Enc as (b & B & S). pose proof (body_wf v b W B) as Wb.
  destruct S as [ps q hs tss ql ls Pq F Q Hd|ts A]; cbn [snd] in *.
  - exists false, ps, q, hs, tss, ql. split; [exact B|]. split; [exact F|]. split; [exact Q|]. intros t. cbn [rb_target]. apply target_exact.
    + apply forallb_forall, Forall_forall.
      assert (Wp : Forall (fun v => wf_value v = true) match ps with [] => [SUnit] | _ => ps end).
      { assert (X : Forall (fun v => wf_value v = true) ps).
        { apply Forall_forall. intros w I. apply (field_wf _ (u "path") w Wb). unfold parts. apply in_or_app. left. apply in_map, I. }
        destruct ps; [constructor; [reflexivity | constructor] | exact X]. }
      clear - E F Wp. revert F Wp. generalize (match ps with [] => [SUnit] | _ => ps end). intros l F.
      induction F as [|w ts vs tss [A L] F IH]; intros Wp; cbn [flat_map]; [constructor|]. inversion Wp; subst.
      apply Forall_app. split; [apply fill_ok; [exact E | apply (path_args_ok w); assumption] | apply IH; assumption].
    + destruct ql as [l|]; [|exact Logic.I]. destruct q as [q|]; [|contradiction]. cbn in Q. apply (query_written_ok q l); [|exact Q].
      apply (field_wf _ (u "query") q Wb). unfold parts. apply in_or_app. right. left. reflexivity.
  - exists true, [], None, [], [ts], None. split; [exact B|]. split; [constructor; [exact A | constructor]|]. split; [exact Logic.I|].
    intros t. cbn [flat_map rb_target]. rewrite app_nil_r. change None with (option_map pairs_text None) at 2. apply target_exact; [|exact Logic.I].
    apply forallb_forall, Forall_forall, fill_ok; [exact E|]. apply args_unit in A. destruct A as [-> _]. constructor.
Qed.

(** ** Every target says something *)
Lemma tidied_total (P : N -> Prop) s : (forall c, P c \/ ~ P c) -> Forall visible s -> exists t, tidied P s t.
Proof.
  intros D V. induction V as [|c s V _ [t T]]; [exists []; constructor|]. destruct (D c) as [O|O]; [|exists (c :: t); constructor; assumption].
  assert (X : exists e, escape [c] e).
  { unfold visible in V. assert (Hx : exists h, hex (c / 16) h /\ c / 16 < 16).
    { assert (L : c / 16 < 16) by (apply N.div_lt_upper_bound; lia). unfold hex.
      destruct (nth_error (u "0123456789ABCDEF") (N.to_nat (c / 16))) as [h|] eqn:E; [eauto|]. apply nth_error_None in E. change (length (u "0123456789ABCDEF")) with 16%nat in E. lia. }
    assert (Hy : exists h, hex (c mod 16) h).
    { assert (L : c mod 16 < 16) by (apply N.mod_lt; lia). unfold hex.
      destruct (nth_error (u "0123456789ABCDEF") (N.to_nat (c mod 16))) as [h|] eqn:E; [eauto|]. apply nth_error_None in E. change (length (u "0123456789ABCDEF")) with 16%nat in E. lia. }
    destruct Hx as (h & Hh & _), Hy as (l & Hl). exists (u "%" ++ [h; l] ++ []). rewrite (N.div_mod' c 16) at 1. constructor; [exact Hh | exact Hl | constructor]. }
  destruct X as (e & E). exists (e ++ t). constructor; assumption.
Qed.
Lemma in_dec_N (c : N) l : In c l \/ ~ In c l.
Proof. destruct (in_dec N.eq_dec c l); auto. Qed.
Lemma odd_path_dec `{urlenv} c : odd_in_path c \/ ~ odd_in_path c.
Proof.
  unfold odd_in_path. destruct (in_dec_N c (u """<>`{}")) as [A|A]; [auto|]. destruct enc_caret; [|right; intros [B|[B _]]; [auto | discriminate]].
  destruct (N.eq_dec c 94) as [->|N]; [auto|]. right. intros [B|[_ B]]; auto.
Qed.
Lemma segments_total s : exists ss, segments s ss /\ (forall P : N -> Prop, Forall P s -> Forall (Forall P) ss) /\ ss <> [].
Proof.
  induction s as [|c s (ss & S & Q & N)].
  - exists [[]]. split; [apply SsLast; intros c []|]. split; [repeat constructor | discriminate].
  - assert (D : separates c \/ ~ separates c) by (unfold separates; lia). destruct D as [D|D].
    + exists ([] :: ss). split; [apply (SsMore [] c s ss); [intros d [] | exact D | exact S]|]. split; [|discriminate].
      intros P F. inversion F; subst. constructor; [constructor | apply Q; assumption].
    + destruct S as [s A|a d r ss A B S].
      * exists [c :: s]. split; [apply SsLast; intros d [<-|I]; auto|]. split; [|discriminate]. intros P F. constructor; [exact F | constructor].
      * exists ((c :: a) :: ss). split; [apply (SsMore (c :: a) d r ss); [intros e [<-|I]; auto | exact B | exact S]|]. split; [|discriminate].
        intros P F. inversion F as [|? ? Pc F']; subst. specialize (Q P F'). inversion Q; subst. constructor; [constructor; assumption | assumption].
Qed.
Lemma ustr_dec (a b : ustr) : a = b \/ a <> b.
Proof. destruct (list_eq_dec N.eq_dec a b); auto. Qed.
Lemma a_dot_dec s : a_dot s \/ ~ a_dot s.
Proof. unfold a_dot. destruct (ustr_dec s (u ".")), (ustr_dec s (u "%2e")), (ustr_dec s (u "%2E")); tauto. Qed.
Lemma goes_up_dec s : goes_up s \/ ~ goes_up s.
Proof.
  assert (D : forall l, (exists a b, In (a, b) l /\ s = a ++ b) \/ ~ (exists a b, In (a, b) l /\ s = a ++ b)).
  { induction l as [|[a b] l IH]; [right; intros (a & b & [] & _)|]. destruct (ustr_dec s (a ++ b)) as [E|E]; [left; exists a, b; split; [left; reflexivity | exact E]|].
    destruct IH as [(a' & b' & I & E')|N]; [left; exists a', b'; split; [right; exact I | exact E']|]. right. intros (a' & b' & [[= <- <-]|I] & E'); [auto|]. apply N. eauto. }
  pose (ds := [u "."; u "%2e"; u "%2E"]). assert (A : forall a, In a ds <-> a_dot a) by (intros a; unfold ds, a_dot; cbn [In]; intuition auto).
  destruct (D (list_prod ds ds)) as [(a & b & I & E)|N].
  - left. apply in_prod_iff in I. exists a, b. split; [exact E|]. split; apply A; tauto.
  - right. intros (a & b & E & Da & Db). apply N. exists a, b. split; [apply in_prod_iff; split; apply A; assumption | exact E].
Qed.
Lemma resolved_total ss : forall so_far, exists x, resolved so_far ss x.
Proof.
  induction ss as [|s ss IH]; intros f; [exists f; constructor|]. destruct (a_dot_dec s) as [D|D]; [|destruct (goes_up_dec s) as [G|G]].
  - destruct ss as [|s' ss]; [eexists; apply ReHereLast, D|]. destruct (IH f) as [x X]. exists x. apply ReHere; assumption.
  - destruct ss as [|s' ss]; [eexists; apply ReUpLast, G|]. destruct (IH (removelast f)) as [x X]. exists x. apply ReUp; assumption.
  - destruct (IH (f ++ [s])) as [x X]. exists x. apply RePlain; assumption.
Qed.
Lemma tidied_visible (P : N -> Prop) ss : (forall c, P c \/ ~ P c) -> Forall (Forall visible) ss -> exists es, Forall2 (tidied P) ss es.
Proof.
  intros D F. induction F as [|s ss V F [es E]]; [exists []; constructor|]. destruct (tidied_total P s D V) as [t T]. exists (t :: es). constructor; assumption.
Qed.
Lemma first_of (P : N -> bool) s : exists a b, s = a ++ b /\ forallb (fun c => negb (P c)) a = true /\ match b with [] => True | c :: _ => P c = true end.
Proof.
  induction s as [|c s (a & b & -> & A & B)]; [exists [], []; auto|]. destruct (P c) eqn:E; [exists [], (c :: a ++ b); auto|].
  exists (c :: a), b. split; [reflexivity|]. split; [cbn [forallb]; rewrite E; exact A | exact B].
Qed.
Lemma escaped_next_dec s : escaped_next s \/ ~ escaped_next s.
Proof.
  destruct s as [|h [|l r]]; [right; intros (x & y & h & l & r & _ & _ & E); discriminate | right; intros (x & y & h' & l & r & _ & _ & E); discriminate|].
  destruct (hexval h) as [x|] eqn:Eh; [destruct (hexval l) as [y|] eqn:El|].
  - left. exists x, y, h, l, r. split; [apply hexval_any, Eh|]. split; [apply hexval_any, El | reflexivity].
  - right. intros (x' & y & h' & l' & r' & _ & Y & [= <- <- <-]). apply any_hex_exact in Y. destruct Y as (_ & Y & _). congruence.
  - right. intros (x' & y & h' & l' & r' & X & _ & [= <- <- <-]). apply any_hex_exact in X. destruct X as (_ & X & _). congruence.
Qed.
Lemma says_bytes_total n : forall s, (length s <= n)%nat -> str_ok s = true -> exists b, says_bytes s b.
Proof.
  induction n as [|n IH]; intros s L Ok; [destruct s; [exists []; constructor | cbn in L; lia]|]. destruct s as [|c s]; [exists []; constructor|]. cbn [length] in L.
  unfold str_ok in Ok. cbn [forallb] in Ok. apply andb_true_iff in Ok. destruct Ok as [Oc Os]. destruct (N.eq_dec c 37) as [->|N1]; [destruct (escaped_next_dec s) as [Q|Q]|destruct (N.eq_dec c 43) as [->|N2]].
  - destruct Q as (x & y & h & l & r & X & Y & ->). cbn [length] in L. cbn [forallb] in Os. rewrite !andb_true_iff in Os. destruct (IH r ltac:(lia) (proj2 (proj2 Os))) as [b B]. eexists. apply (SbEscape x y h l r b X Y B).
  - destruct (IH s ltac:(lia) Os) as [b B]. exists (37 :: b). apply (SbPercent s b Q B).
  - destruct (IH s ltac:(lia) Os) as [b B]. exists (32 :: b). apply (SbPlus s b B).
  - destruct (IH s ltac:(lia) Os) as [b B]. eexists. apply (SbChar c (utf8_char c) s b N1 N2); [apply utf8_exact; auto | exact B].
Qed.
Lemma says_total s : str_ok s = true -> exists t, says s t.
Proof. intros Ok. destruct (says_bytes_total (length s) s ltac:(lia) Ok) as [b B]. exists (utf8_lossy b), b. split; [exact B | apply utf8_lossy_iff; reflexivity]. Qed.
Lemma piece_total p : str_ok p = true -> exists kv, piece p kv.
Proof.
  intros Ok. destruct (first_of (N.eqb 61) p) as (k & b & -> & A & B). unfold str_ok in Ok. rewrite forallb_app in Ok. apply andb_true_iff in Ok. destruct Ok as [Ok Ob].
  assert (N : ~ In 61 k) by (intros I; rewrite forallb_forall in A; specialize (A _ I); discriminate A). destruct (says_total k Ok) as [t T].
  destruct b as [|c v]; [exists (t, []); right; rewrite app_nil_r; auto|]. apply N.eqb_eq in B. subst c. cbn [forallb] in Ob. apply andb_true_iff in Ob. destruct (says_total v (proj2 Ob)) as [w V].
  exists (t, w). left. exists k, v. auto.
Qed.
Theorem query_says_total n : forall q, (length q <= n)%nat -> str_ok q = true -> exists l, query_says q l.
Proof.
  induction n as [|n IH]; intros q L Ok; [destruct q; [exists []; constructor | cbn in L; lia]|].
  destruct (first_of (N.eqb 38) q) as (p & b & -> & A & B). unfold str_ok in Ok. rewrite forallb_app in Ok. apply andb_true_iff in Ok. destruct Ok as [Ok Ob]. rewrite app_length in L.
  assert (N : ~ In 38 p) by (intros I; rewrite forallb_forall in A; specialize (A _ I); discriminate A). destruct b as [|c r].
  - rewrite app_nil_r. destruct p as [|c p]; [exists []; constructor|]. destruct (piece_total (c :: p) Ok) as [kv K]. exists [kv]. apply QsLast; [discriminate | exact N | exact K].
  - apply N.eqb_eq in B. subst c. cbn [forallb length] in *. apply andb_true_iff in Ob. destruct (IH r ltac:(lia) (proj2 Ob)) as [l Q]. destruct p as [|c p].
    + exists l. apply (QsSkip r l Q).
    + destruct (piece_total (c :: p) Ok) as [kv K]. exists (kv :: l). apply (QsMore (c :: p) kv r l); [discriminate | exact N | exact K | exact Q].
Qed.
Theorem query_read_iff (p : option (list ustr)) q l : str_ok q = true -> (query_pairs (mkUrl p (Some q)) = l <-> query_says q l).
Proof.
  intros Ok. split; [|apply query_says_exact]. intros E. destruct (query_says_total (length q) q ltac:(lia) Ok) as [l' Q]. pose proof (query_says_exact q l' Q) as E'. change (form_parse q = l) in E. rewrite E' in E. subst l'. exact Q.
Qed.
Theorem target_says_total `{urlenv} t : Forall visible t -> exists segs q, target_says (u "/" ++ t) segs q.
Proof.
  intros V. destruct (first_of (fun c => (c =? 63) || (c =? 35)) t) as (path & b & -> & A & B). apply Forall_app in V. destruct V as [Vp Vb].
  assert (Np : forall c, In c path -> c <> 63 /\ c <> 35).
  { intros c I. rewrite forallb_forall in A. specialize (A c I). cbv beta in A. rewrite negb_true_iff, orb_false_iff in A. lia. }
  destruct (segments_total path) as (raw & S & Vr & _). specialize (Vr visible Vp).
  destruct (tidied_visible odd_in_path raw odd_path_dec Vr) as [es E]. destruct (resolved_total es []) as [segs R].
  assert (X : exists es, Forall2 (tidied odd_in_path) raw es /\ resolved [] es segs) by eauto.
  destruct b as [|c b]; [exists segs, None; apply (TgPath path raw segs []); auto|]. apply orb_true_iff in B. rewrite !N.eqb_eq in B. destruct B as [->| ->].
  - destruct (first_of (N.eqb 35) b) as (q & r & -> & Aq & Br). inversion Vb as [|? ? _ Vq]; subst. apply Forall_app in Vq. destruct Vq as [Vq _].
    destruct (tidied_total odd_in_query q (fun c => in_dec_N c _) Vq) as [q' T]. exists segs, (Some q').
    apply (TgQuery path raw segs q q' r); auto.
    + intros I. rewrite forallb_forall in Aq. specialize (Aq _ I). discriminate Aq.
    + destruct r as [|c r]; [auto|]. apply N.eqb_eq in Br. subst c. right. exists r. reflexivity.
  - exists segs, None. apply (TgPath path raw segs (35 :: b)); auto. right. exists b. reflexivity.
Qed.
Theorem target_read_iff `{urlenv} t p q : Forall visible t -> match t with c :: _ => ~ separates c | _ => True end ->
  (parse_url (u "/" ++ t) = Some (mkUrl p q) <-> exists segs, p = Some segs /\ target_says (u "/" ++ t) segs q).
Proof.
  intros V N. assert (V' : Forall visible (u "/" ++ t)) by (constructor; [unfold visible; cbn; lia | exact V]).
  assert (N' : match u "/" ++ t with _ :: c :: _ => ~ separates c | _ => True end) by (destruct t; exact N || exact Logic.I). split.
  - intros E. destruct (target_says_total t V) as (segs & q' & T). pose proof (target_says_exact _ _ _ T V' N') as E'. rewrite E in E'. injection E' as -> ->. eauto.
  - intros (segs & -> & T). apply target_says_exact; assumption.
Qed.
