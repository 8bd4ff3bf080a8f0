(** * Facts about the url crate model: what is written is what is read. *)
From Verif Require Import Base Utf8 DepUrl DePath.
Open Scope N_scope.

(** ** Hexadecimal escapes *)
Lemma hexval_hexdig n : n < 16 -> hexval (hexdig n) = Some n.
Proof.
  intros Hn. unfold hexdig, hexval. destruct (n <? 10) eqn:E.
  - replace ((48 <=? 48 + n) && (48 + n <=? 57)) with true by lia. f_equal. lia.
  - replace ((48 <=? 55 + n) && (55 + n <=? 57)) with false by lia.
    replace ((65 <=? 55 + n) && (55 + n <=? 70)) with true by lia. f_equal. lia.
Qed.

Lemma hexdig_range n : n < 16 -> 48 <= hexdig n <= 57 \/ 65 <= hexdig n <= 70.
Proof. intros. unfold hexdig. destruct (n <? 10) eqn:E; lia. Qed.

Lemma hex_pair_byte b : b < 256 -> hex_pair (hexdig (b / 16)) (hexdig (b mod 16)) = Some b.
Proof.
  intros Hb. unfold hex_pair.
  assert (H1 : b / 16 < 16) by lia. assert (H2 : b mod 16 < 16) by lia.
  pose proof (hexdig_range _ H1). replace (hexdig (b / 16) =? 43) with false by lia.
  rewrite !hexval_hexdig by assumption. f_equal. lia.
Qed.

(** ** Path segments *)
Lemma mem_cons c x l : mem c (x :: l) = (c =? x) || mem c l.
Proof. reflexivity. Qed.
Lemma mem_nil c : mem c [] = false.
Proof. reflexivity. Qed.

Ltac mem_simp := rewrite ?mem_cons, ?mem_nil in *.

Section Path.
Context `{urlenv}.

Lemma percent_decode_bytes : forall bs r t, bytes_ok bs = true -> percent_decode r = Ok t ->
  percent_decode (flat_map pct_byte bs ++ r) = Ok (bs ++ t).
Proof.
  induction bs as [|b bs IH]; intros r t Hb Hr; [exact Hr|].
  unfold bytes_ok in Hb. cbn [forallb] in Hb. apply andb_true_iff in Hb. destruct Hb as [H1 H2].
  cbn [flat_map pct_byte app percent_decode]. change (37 =? 37) with true. cbv iota.
  rewrite hex_pair_byte by lia. cbn [ok_or_invalid bind].
  rewrite (IH r t H2 Hr). reflexivity.
Qed.

Lemma segment_set_pct : segment_set 37 = true.
Proof. unfold segment_set. mem_simp. change (37 =? 37) with true. rewrite ?orb_true_r. reflexivity. Qed.

Lemma percent_decode_char c r t : is_scalar c = true -> percent_decode r = Ok t ->
  percent_decode (pct_char segment_set c ++ r) = Ok (utf8_char c ++ t).
Proof.
  intros Hc Hr. unfold pct_char. destruct (is_ascii c && negb (segment_set c)) eqn:E.
  - apply andb_true_iff in E. destruct E as [E1 E2]. cbn [app percent_decode].
    replace (c =? 37) with false.
    + rewrite Hr. cbn [bind]. unfold utf8_char. unfold is_ascii in E1. rewrite E1. reflexivity.
    + symmetry. apply N.eqb_neq. intros ->. rewrite segment_set_pct in E2. discriminate.
  - apply percent_decode_bytes; [|exact Hr]. apply utf8_char_bytes, Hc.
Qed.

(** The server's decoding of a pushed segment: the bytes of its UTF-8 text, each taken as a character. *)
Lemma percent_decode_encode s : str_ok s = true ->
  percent_decode (pct_encode segment_set s) = Ok (utf8_encode s).
Proof.
  induction s as [|c s IH]; intros Hs; [reflexivity|].
  unfold str_ok in Hs. cbn [forallb] in Hs. apply andb_true_iff in Hs. destruct Hs as [H1 H2].
  unfold pct_encode, utf8_encode. cbn [flat_map]. apply percent_decode_char; [exact H1|]. apply IH, H2.
Qed.

(** Characters of an encoded segment. *)
Definition seg_char (c : N) : bool := is_ascii c && negb (path_set c) && negb (c =? 47) && negb (c =? 92).

Lemma seg_char_pct : seg_char 37 = true.
Proof. unfold seg_char, path_set, is_ascii. mem_simp. destruct enc_caret; reflexivity. Qed.

Lemma seg_char_hex n : n < 16 -> seg_char (hexdig n) = true.
Proof.
  intros Hn. apply hexdig_range in Hn. unfold seg_char, path_set, is_ascii. mem_simp.
  destruct enc_caret; lia.
Qed.

Lemma pct_bytes_seg_char bs : bytes_ok bs = true -> forallb seg_char (flat_map pct_byte bs) = true.
Proof.
  induction bs as [|b bs IH]; intros Hb; [reflexivity|].
  unfold bytes_ok in Hb. cbn [forallb] in Hb. apply andb_true_iff in Hb. destruct Hb as [H1 H2].
  cbn [flat_map pct_byte app forallb]. rewrite seg_char_pct, !seg_char_hex by lia. apply IH, H2.
Qed.

Lemma segment_set_false c : segment_set c = false -> path_set c = false /\ c <> 47 /\ c <> 37 /\ c <> 92.
Proof. unfold segment_set. mem_simp. intros E. destruct (path_set c); [discriminate|]. lia. Qed.

Lemma pct_encode_seg_char s : str_ok s = true -> forallb seg_char (pct_encode segment_set s) = true.
Proof.
  induction s as [|c s IH]; intros Hs; [reflexivity|].
  unfold str_ok in Hs. cbn [forallb] in Hs. apply andb_true_iff in Hs. destruct Hs as [H1 H2].
  unfold pct_encode. cbn [flat_map]. rewrite forallb_app. apply andb_true_iff. split; [|apply IH, H2].
  unfold pct_char. destruct (is_ascii c && negb (segment_set c)) eqn:E.
  - apply andb_true_iff in E. destruct E as [E1 E2]. apply negb_true_iff, segment_set_false in E2.
    destruct E2 as (E2 & E3 & E4 & E5). cbn [forallb]. unfold seg_char. rewrite E1, E2. lia.
  - apply pct_bytes_seg_char, utf8_char_bytes, H1.
Qed.

(** Characters that the server's path parser keeps as they are. *)
Lemma pct_encode_keep set s : forallb (fun c => is_ascii c && negb (set c)) s = true -> pct_encode set s = s.
Proof.
  induction s as [|c s IH]; cbn [forallb]; intros E; [reflexivity|].
  apply andb_true_iff in E. destruct E as [E1 E2]. unfold pct_encode. cbn [flat_map]. unfold pct_char at 1.
  rewrite E1. cbn [app]. f_equal. apply IH, E2.
Qed.

Lemma seg_char_keep s : forallb seg_char s = true -> pct_encode path_set s = s.
Proof.
  intros Hs. apply pct_encode_keep. revert Hs. apply forallb_impl. intros c; cbv beta; unfold seg_char. destruct (is_ascii c), (path_set c); cbn; auto.
Qed.

(** No escape of '.' is ever written. *)
Lemma utf8_char_first c : exists b r, utf8_char c = b :: r /\ (is_ascii c = true -> b = c) /\
  (is_ascii c = false -> is_ascii b = false).
Proof.
  destruct (utf8_char c) as [|b r] eqn:E.
  - pose proof (utf8_char_len c) as L. rewrite E in L. cbn in L. lia.
  - exists b, r. repeat split.
    + intros A. unfold utf8_char in E. unfold is_ascii in A. rewrite A in E. congruence.
    + intros A. pose proof (utf8_char_ge c A) as G. rewrite E in G. cbn [forallb] in G.
      apply andb_true_iff in G. destruct G as [G _]. apply negb_true_iff, G.
Qed.

Lemma lower_hexdig n : n < 16 -> lower (hexdig n) = 101 -> n = 14.
Proof. intros Hn. unfold lower, hexdig. destruct (n <? 10) eqn:E; intros L; match type of L with (if ?b then _ else _) = _ => destruct b eqn:F end; lia. Qed.
Lemma lower_hexdig2 n : n < 16 -> lower (hexdig n) = 50 -> n = 2.
Proof. intros Hn. unfold lower, hexdig. destruct (n <? 10) eqn:E; intros L; match type of L with (if ?b then _ else _) = _ => destruct b eqn:F end; lia. Qed.

Lemma segment_set_dot : segment_set 46 = false.
Proof. unfold segment_set, path_set. mem_simp. destruct enc_caret; reflexivity. Qed.

Lemma lower_eq c k : (k < 65 \/ 122 < k \/ 90 < k < 97) -> lower c = k -> c = k.
Proof. intros K. unfold lower. destruct ((65 <=? c) && (c <=? 90)) eqn:E; lia. Qed.

Lemma no_escaped_dot s r : str_ok s = true -> lowercase (pct_encode segment_set s) = [37; 50; 101] ++ r -> False.
Proof.
  intros Hs E. destruct s as [|c s]; [discriminate|].
  unfold str_ok in Hs. cbn [forallb] in Hs. apply andb_true_iff in Hs. destruct Hs as [H1 _].
  unfold pct_encode in E. cbn [flat_map] in E. unfold pct_char at 1 in E.
  destruct (is_ascii c && negb (segment_set c)) eqn:A.
  - cbn in E. injection E as E _. apply lower_eq in E; [|lia]. subst c.
    rewrite segment_set_pct in A. discriminate.
  - destruct (utf8_char_first c) as (b & t & U & A1 & A2).
    pose proof (utf8_char_bytes c H1) as B. rewrite U in B, E. cbn [bytes_ok forallb] in B.
    apply andb_true_iff in B. destruct B as [B _]. cbn [flat_map pct_byte app] in E. cbn [lowercase map] in E.
    injection E as E1 E2 _. apply lower_hexdig2 in E1; [|lia]. apply lower_hexdig in E2; [|lia].
    assert (b = 46) by lia. subst b. destruct (is_ascii c) eqn:C.
    + rewrite <- (A1 eq_refl) in A. rewrite segment_set_dot in A. discriminate.
    + specialize (A2 eq_refl). discriminate.
Qed.

Lemma pct_encode_dot_head s r :
  str_ok s = true -> lowercase (pct_encode segment_set s) = 46 :: r ->
  exists s', str_ok s' = true /\ lowercase (pct_encode segment_set s') = r.
Proof.
  intros Hs E. destruct s as [|c s]; [discriminate|].
  unfold str_ok in Hs. cbn [forallb] in Hs. apply andb_true_iff in Hs. destruct Hs as [H1 H2].
  exists s. split; [exact H2|].
  unfold pct_encode in E. cbn [flat_map] in E. unfold pct_char at 1 in E.
  destruct (is_ascii c && negb (segment_set c)) eqn:A.
  - cbn in E. injection E as _ E. exact E.
  - destruct (utf8_char_first c) as (b & t & U & _). rewrite U in E. cbn in E. injection E as E. discriminate.
Qed.

Lemma lowercase_dots e : lowercase e = dotdot -> e = dotdot.
Proof.
  destruct e as [|a [|b [|]]]; try discriminate. cbn. intros E. injection E as E1 E2.
  apply lower_eq in E1; [|lia]. apply lower_eq in E2; [|lia]. subst. reflexivity.
Qed.
Lemma lowercase_dot e : lowercase e = dot -> e = dot.
Proof.
  destruct e as [|a [|]]; try discriminate. cbn. intros E. injection E as E1.
  apply lower_eq in E1; [|lia]. subst. reflexivity.
Qed.

Lemma not_seg_dotdot s : str_ok s = true -> pct_encode segment_set s <> dotdot ->
  seg_dotdot (pct_encode segment_set s) = false.
Proof.
  intros Hs Hn. unfold seg_dotdot. destruct (smem _ _) eqn:E; [|reflexivity]. exfalso.
  apply smem_In in E. destruct E as [E|[E|[E|[E|[]]]]]; symmetry in E.
  - apply Hn, lowercase_dots, E.
  - apply (no_escaped_dot s [37; 50; 101] Hs E).
  - destruct (pct_encode_dot_head s _ Hs E) as (s' & Hs' & E'). apply (no_escaped_dot s' [] Hs' E').
  - apply (no_escaped_dot s [46] Hs E).
Qed.
Lemma not_seg_dot s : str_ok s = true -> pct_encode segment_set s <> dot ->
  seg_dot (pct_encode segment_set s) = false.
Proof.
  intros Hs Hn. unfold seg_dot. destruct (smem _ _) eqn:E; [|reflexivity]. exfalso.
  apply smem_In in E. destruct E as [E|[E|[]]]; symmetry in E.
  - apply Hn, lowercase_dot, E.
  - apply (no_escaped_dot s [] Hs E).
Qed.

(** ** Paths that [push] builds *)
Definition enc_seg (e : ustr) : Prop :=
  exists s, str_ok s = true /\ e = pct_encode segment_set s /\ e <> dot /\ e <> dotdot.
Definition good_path (p : list ustr) : Prop :=
  Forall enc_seg p /\ (p = [[]] \/ exists x r, p = x :: r /\ x <> []).

Lemma enc_seg_nil : enc_seg [].
Proof. exists []. repeat split; discriminate. Qed.
Lemma good_root : good_path [[]].
Proof. split; [constructor; [apply enc_seg_nil | constructor] | left; reflexivity]. Qed.

Lemma is_root_true p : is_root p = true <-> p = [[]].
Proof. destruct p as [|[|a x] [|b y]]; cbn; split; intros E; try discriminate; reflexivity. Qed.

Lemma Forall_removelast {A} (P : A -> Prop) l : Forall P l -> Forall P (removelast l).
Proof.
  induction l as [|x l IH]; intros F; [constructor|]. inversion F; subst. cbn. destruct l; [constructor|].
  constructor; [assumption | apply IH; assumption].
Qed.

Lemma good_add_seg p e : good_path p -> enc_seg e -> good_path (add_seg p e).
Proof.
  intros [F C] He. unfold add_seg. destruct (is_root p) eqn:R.
  - split; [constructor; [exact He | constructor]|].
    destruct e as [|c e]; [left; reflexivity | right; exists (c :: e), []; split; [reflexivity | discriminate]].
  - split; [apply Forall_app; split; [exact F | constructor; [exact He | constructor]]|].
    right. destruct C as [->|(x & r & -> & N)]; [discriminate|]. exists x, (r ++ [e]). auto.
Qed.

Lemma seg_input_ok s : str_ok s = true -> str_ok (seg_input s) = true.
Proof.
  intros Hs. unfold seg_input, strip_tabs, str_ok in *. rewrite forallb_forall in *. intros c I.
  apply filter_In in I. destruct I as [I _]. apply Hs.
  destruct trim_segment; [|exact I]. unfold trim_matches in I. apply in_rev in I.
  assert (D : forall f l x, In x (drop_while f l) -> In x l).
  { intros f l x. induction l as [|y l IH]; cbn; [auto|]. destruct (f y); auto. }
  apply D in I. apply in_rev, D in I. exact I.
Qed.

Lemma good_push p s : good_path p -> str_ok s = true -> good_path (push p s).
Proof.
  intros G Hs. unfold push. destruct (_ || _); [exact G|].
  pose proof (seg_input_ok s Hs) as Hi. set (e := pct_encode segment_set (seg_input s)).
  destruct (ustr_eqb_spec e dotdot) as [E|E].
  - destruct (is_root p) eqn:R; [exact G|]. destruct G as [F C]. split.
    + apply Forall_app. split; [apply Forall_removelast, F | constructor; [apply enc_seg_nil | constructor]].
    + destruct C as [->|(x & r & -> & N)]; [discriminate|]. cbn. destruct r as [|y r]; [left; reflexivity|].
      right. eexists x, _. split; [reflexivity | exact N].
  - destruct (ustr_eqb_spec e dot) as [D|D].
    + apply good_add_seg; [exact G | apply enc_seg_nil].
    + apply good_add_seg; [exact G|]. exists (seg_input s). auto.
Qed.

Lemma good_nonempty p : good_path p -> p <> [].
Proof. intros [_ [->|(x & r & -> & _)]]; discriminate. Qed.

(** ** Parsing the target back *)
Lemma enc_seg_chars e : enc_seg e -> forallb seg_char e = true.
Proof. intros (s & Hs & -> & _). apply pct_encode_seg_char, Hs. Qed.

Lemma path_loop_good : forall p acc, Forall enc_seg p -> path_loop acc p = acc ++ p.
Proof.
  induction p as [|e p IH]; intros acc F; cbn [path_loop]; [symmetry; apply app_nil_r|].
  inversion F as [|? ? E F']; subst.
  rewrite (seg_char_keep e (enc_seg_chars e E)).
  destruct E as (s & Hs & -> & N1 & N2).
  rewrite (not_seg_dotdot s Hs N2), (not_seg_dot s Hs N1). rewrite (IH _ F'), <- app_assoc. reflexivity.
Qed.

Lemma break_at_app f a c r : forallb (fun x => negb (f x)) a = true -> f c = true ->
  break_at f (a ++ c :: r) = (a, c :: r).
Proof.
  intros Ha Hc. induction a as [|x a IH]; cbn.
  - rewrite Hc. reflexivity.
  - cbn in Ha. apply andb_true_iff in Ha. destruct Ha as [H1 H2]. destruct (f x); [discriminate|].
    rewrite (IH H2). reflexivity.
Qed.
Lemma break_at_none f a : forallb (fun x => negb (f x)) a = true -> break_at f a = (a, []).
Proof.
  intros Ha. induction a as [|x a IH]; cbn; [reflexivity|].
  cbn in Ha. apply andb_true_iff in Ha. destruct Ha as [H1 H2]. destruct (f x); [discriminate|].
  rewrite (IH H2). reflexivity.
Qed.

Lemma join_forall f l : f 47 = true -> (forall e, In e l -> forallb f e = true) -> forallb f (join [47] l) = true.
Proof.
  intros Hf. induction l as [|x l IH]; intros E; [reflexivity|]. destruct l as [|y l].
  - cbn. apply E. left; reflexivity.
  - change (join [47] (x :: y :: l)) with (x ++ 47 :: join [47] (y :: l)).
    rewrite forallb_app. cbn [forallb]. rewrite Hf, E by (left; reflexivity). cbn.
    apply IH. intros e I. apply E. right. exact I.
Qed.

(** Characters of a query text the client writes. *)
Definition query_char (c : N) : bool := form_keep c || mem c [37; 38; 43; 61].

Lemma query_char_keep q : forallb query_char q = true -> pct_encode (query_set true) q = q.
Proof.
  intros Hq. apply pct_encode_keep. revert Hq. apply forallb_impl. intros c; cbv beta.
  unfold query_char, form_keep, query_set, is_ascii. mem_simp. lia.
Qed.

Definition query_ok (q : option ustr) : Prop :=
  match q with Some q => forallb query_char q = true | None => True end.

(** Characters of a target: printable ASCII without space and '#'. *)
Definition target_char (c : N) : bool := (33 <=? c) && (c <=? 126) && negb (c =? 35).

Lemma seg_char_target c : seg_char c = true -> target_char c = true.
Proof. unfold seg_char, path_set, target_char, is_ascii. mem_simp. lia. Qed.
Lemma query_char_target c : query_char c = true -> target_char c = true.
Proof. unfold query_char, form_keep, target_char. mem_simp. lia. Qed.

Lemma url_text_chars p q : Forall enc_seg p -> query_ok q -> forallb target_char (url_text p q) = true.
Proof.
  intros F Q. unfold url_text. cbn [app forallb]. change (target_char 47) with true. cbn [andb].
  rewrite forallb_app. apply andb_true_iff. split.
  - apply join_forall; [reflexivity|]. intros e I. rewrite Forall_forall in F.
    pose proof (enc_seg_chars e (F e I)) as E. revert E. apply forallb_impl, seg_char_target.
  - destruct q as [q|]; [|reflexivity]. cbn [forallb]. change (target_char 63) with true. cbn [andb].
    revert Q. apply forallb_impl, query_char_target.
Qed.

Lemma parse_query_text q : query_ok q ->
  parse_query true (match q with Some q => 63 :: q | None => [] end) = q.
Proof.
  destruct q as [q|]; intros Q; [|reflexivity]. unfold parse_query. change (63 =? 63) with true. cbv iota.
  rewrite break_at_none.
  - cbn [fst]. rewrite query_char_keep by exact Q. reflexivity.
  - revert Q. apply forallb_impl. intros c; cbv beta; unfold query_char, form_keep. mem_simp. lia.
Qed.

Theorem parse_url_text p q : good_path p -> query_ok q -> parse_url (url_text p q) = Some (mkUrl (Some p) q).
Proof.
  intros [F C] Q. pose proof (url_text_chars p q F Q) as T. unfold parse_url.
  rewrite trim_matches_none.
  2:{ revert T. apply forallb_impl. intros c; cbv beta; unfold target_char, c0_or_space. lia. }
  unfold strip_tabs.
  assert (S : filter (fun c => negb (tab_or_nl c)) (url_text p q) = url_text p q).
  { clear -T. induction (url_text p q) as [|c s IH]; [reflexivity|]. cbn [forallb] in T.
    apply andb_true_iff in T. destruct T as [T1 T2]. cbn [filter].
    replace (negb (tab_or_nl c)) with true.
    - rewrite IH by exact T2. reflexivity.
    - unfold target_char in T1. unfold tab_or_nl. mem_simp. lia. }
  rewrite S. unfold url_text. cbn [app]. set (qt := match q with Some q => 63 :: q | None => [] end).
  cbn [parse_scheme]. change (alpha 47) with false. cbv iota.
  assert (P : parse_path_query true (join [47] p ++ qt) = mkUrl (Some p) q).
  { unfold parse_path_query.
    assert (B : break_at path_end (join [47] p ++ qt) = (join [47] p, qt)).
    { assert (J : forallb (fun x => negb (path_end x)) (join [47] p) = true).
      { apply join_forall; [reflexivity|]. intros e I. rewrite Forall_forall in F.
        pose proof (enc_seg_chars e (F e I)) as E. revert E. apply forallb_impl. intros c; cbv beta.
        unfold seg_char, path_set, path_end. mem_simp. lia. }
      unfold qt. destruct q as [q|].
      - apply break_at_app; [exact J | reflexivity].
      - rewrite app_nil_r. apply break_at_none, J. }
    rewrite B. f_equal.
    - f_equal. rewrite split_on_join.
      + rewrite path_loop_good by exact F. reflexivity.
      + reflexivity.
      + destruct C as [->|(x & r & -> & _)]; discriminate.
      + intros e I. rewrite Forall_forall in F. pose proof (enc_seg_chars e (F e I)) as E. revert E.
        apply forallb_impl. intros c; cbv beta; unfold seg_char. lia.
    - apply parse_query_text, Q. }
  cbn [parse_relative]. change (path_end 47) with false. change (is_slash 47) with true. cbv iota.
  destruct (join [47] p ++ qt) as [|d r] eqn:J; [f_equal; exact P|].
  destruct (is_slash d) eqn:D; [|f_equal; exact P]. exfalso.
  destruct C as [->|([|y x] & r' & -> & N)]; [| contradiction |].
  - cbn in J. unfold qt in J. destruct q; [|discriminate]. injection J as <- _. discriminate.
  - assert (d = y) by (destruct r'; cbn in J; congruence). subst y.
    inversion F as [|? ? E _]; subst. apply enc_seg_chars in E. cbn [forallb] in E.
    apply andb_true_iff in E. destruct E as [E _]. unfold seg_char in E. unfold is_slash in D. lia.
Qed.
End Path.

(** ** Query pairs *)
Lemma pct_decode_form : forall bs, bytes_ok bs = true ->
  pct_decode (map (fun c => if c =? 43 then 32 else c) (flat_map form_byte bs)) = bs.
Proof.
  induction bs as [|b bs IH]; intros Hb; [reflexivity|].
  unfold bytes_ok in Hb. cbn [forallb] in Hb. apply andb_true_iff in Hb. destruct Hb as [H1 H2].
  specialize (IH H2). cbn [flat_map]. rewrite map_app. unfold form_byte at 1.
  destruct (form_keep b) eqn:K; [|destruct (b =? 32) eqn:S].
  - cbn [map app]. unfold form_keep in K. mem_simp.
    replace (b =? 43) with false by lia. cbn [pct_decode]. replace (b =? 37) with false by lia.
    rewrite IH. reflexivity.
  - cbn [map app pct_decode]. change (43 =? 43) with true. cbv iota. change (32 =? 37) with false. cbv iota.
    rewrite IH. f_equal. lia.
  - assert (Q1 : b / 16 < 16) by lia. assert (Q2 : b mod 16 < 16) by lia.
    pose proof (hexdig_range _ Q1). pose proof (hexdig_range _ Q2).
    cbn [pct_byte map app]. change (37 =? 43) with false. cbv iota.
    replace (hexdig (b / 16) =? 43) with false by lia. replace (hexdig (b mod 16) =? 43) with false by lia.
    cbn [pct_decode]. change (37 =? 37) with true. cbv iota. rewrite !hexval_hexdig by assumption.
    rewrite IH. f_equal. lia.
Qed.

Lemma form_encode_chars s : str_ok s = true -> forallb (fun c => form_keep c || mem c [37; 43]) (form_encode s) = true.
Proof.
  intros Hs. apply utf8_encode_bytes in Hs. unfold form_encode. revert Hs.
  induction (utf8_encode s) as [|b bs IH]; intros Hb; [reflexivity|].
  unfold bytes_ok in Hb. cbn [forallb] in Hb. apply andb_true_iff in Hb. destruct Hb as [H1 H2].
  cbn [flat_map]. rewrite forallb_app, (IH H2), andb_true_r. unfold form_byte.
  destruct (form_keep b) eqn:K; [|destruct (b =? 32) eqn:S].
  - cbn [forallb]. rewrite K. reflexivity.
  - reflexivity.
  - assert (Q1 : b / 16 < 16) by lia. assert (Q2 : b mod 16 < 16) by lia.
    pose proof (hexdig_range _ Q1). pose proof (hexdig_range _ Q2).
    cbn [pct_byte forallb]. unfold form_keep. mem_simp. lia.
Qed.

Lemma form_decode_encode s : str_ok s = true -> form_decode (form_encode s) = s.
Proof.
  intros Hs. unfold form_decode. rewrite (utf8_encode_ascii (form_encode s)).
  - unfold form_encode. rewrite pct_decode_form by (apply utf8_encode_bytes, Hs). apply utf8_lossy_encode, Hs.
  - pose proof (form_encode_chars s Hs) as F. unfold all_ascii. revert F. apply forallb_impl.
    intros c; cbv beta; unfold form_keep, is_ascii. mem_simp. lia.
Qed.

Lemma cut_at_app sep a r : forallb (fun c => negb (c =? sep)) a = true -> cut_at sep (a ++ sep :: r) = (a, r).
Proof.
  intros Ha. induction a as [|x a IH]; cbn.
  - rewrite N.eqb_refl. reflexivity.
  - cbn in Ha. apply andb_true_iff in Ha. destruct Ha as [H1 H2]. destruct (x =? sep); [discriminate|].
    rewrite (IH H2). reflexivity.
Qed.

(** The query text of a list of pairs. *)
Definition pair_text (kv : ustr * ustr) : ustr := form_encode (fst kv) ++ [61] ++ form_encode (snd kv).
Definition pairs_text (l : list (ustr * ustr)) : ustr := join [38] (map pair_text l).
Definition pairs_ok (l : list (ustr * ustr)) : bool := forallb (fun kv => str_ok (fst kv) && str_ok (snd kv)) l.

Lemma join_snoc sep l x : l <> [] -> join [sep] (l ++ [x]) = join [sep] l ++ sep :: x.
Proof.
  induction l as [|a l IH]; intros N; [contradiction|]. destruct l as [|b l]; [reflexivity|].
  change (join [sep] ((a :: b :: l) ++ [x])) with (a ++ sep :: join [sep] ((b :: l) ++ [x])).
  rewrite IH by discriminate. change (join [sep] (a :: b :: l)) with (a ++ sep :: join [sep] (b :: l)).
  rewrite <- app_assoc. reflexivity.
Qed.

Lemma pair_text_nonempty kv : pair_text kv <> [].
Proof. unfold pair_text. destruct (form_encode (fst kv)); discriminate. Qed.
Lemma pairs_text_nonempty l : l <> [] -> pairs_text l <> [].
Proof.
  destruct l as [|a l]; [contradiction|]. intros _. unfold pairs_text. cbn [map].
  pose proof (pair_text_nonempty a). destruct (map pair_text l) as [|b m]; [exact H|].
  cbn [join]. intros E. apply app_eq_nil in E. destruct E. contradiction.
Qed.

Lemma append_pairs_text l k v : append_pair (pairs_text l) k v = pairs_text (l ++ [(k, v)]).
Proof.
  unfold append_pair. destruct l as [|a l]; [reflexivity|].
  pose proof (pairs_text_nonempty (a :: l) ltac:(discriminate)) as N.
  destruct (pairs_text (a :: l)) as [|c t] eqn:E; [contradiction|]. rewrite <- E.
  unfold pairs_text. rewrite map_app. cbn [map]. change (pair_text (k, v)) with (form_encode k ++ [61] ++ form_encode v).
  rewrite join_snoc by discriminate. rewrite <- app_assoc. reflexivity.
Qed.

Lemma pair_text_chars kv : str_ok (fst kv) && str_ok (snd kv) = true ->
  forallb query_char (pair_text kv) = true /\ forallb (fun c => negb (c =? 38)) (pair_text kv) = true.
Proof.
  intros E. apply andb_true_iff in E. destruct E as [E1 E2].
  apply form_encode_chars in E1. apply form_encode_chars in E2. unfold pair_text.
  rewrite !forallb_app. cbn [forallb].
  split; apply andb_true_iff; split.
  - revert E1. apply forallb_impl. intros c; cbv beta; unfold query_char, form_keep. mem_simp. lia.
  - apply andb_true_iff. split; [reflexivity|]. revert E2. apply forallb_impl. intros c; cbv beta; unfold query_char, form_keep. mem_simp. lia.
  - revert E1. apply forallb_impl. intros c; cbv beta; unfold form_keep. mem_simp. lia.
  - apply andb_true_iff. split; [reflexivity|]. revert E2. apply forallb_impl. intros c; cbv beta; unfold form_keep. mem_simp. lia.
Qed.

Lemma pairs_text_chars l : pairs_ok l = true -> forallb query_char (pairs_text l) = true.
Proof.
  induction l as [|a l IH]; intros E; [reflexivity|]. unfold pairs_ok in E. cbn [forallb] in E.
  apply andb_true_iff in E. destruct E as [E1 E2]. destruct (pair_text_chars a E1) as [C _].
  unfold pairs_text in *. cbn [map]. destruct l as [|b l]; [exact C|]. cbn [map] in *.
  change (join [38] (pair_text a :: pair_text b :: map pair_text l)) with
    (pair_text a ++ 38 :: join [38] (pair_text b :: map pair_text l)).
  rewrite forallb_app, C. cbn [forallb andb]. change (query_char 38) with true. apply IH, E2.
Qed.

Theorem form_parse_pairs l : pairs_ok l = true -> form_parse (pairs_text l) = l.
Proof.
  intros E. unfold form_parse. destruct l as [|a l]; [reflexivity|].
  unfold pairs_text. rewrite split_on_join; [| reflexivity | discriminate |].
  - assert (F : filter (fun p => match p with [] => false | _ :: _ => true end) (map pair_text (a :: l)) =
                map pair_text (a :: l)).
    { clear E. induction (a :: l) as [|x m IH]; [reflexivity|]. cbn [map filter].
      pose proof (pair_text_nonempty x). destruct (pair_text x); [contradiction|]. rewrite IH. reflexivity. }
    rewrite F. rewrite map_map. rewrite <- (map_id (a :: l)) at 2. apply map_ext_in.
    intros [k v] I. unfold pairs_ok in E. rewrite forallb_forall in E. specialize (E _ I). cbn [fst snd] in E.
    apply andb_true_iff in E. destruct E as [E1 E2]. unfold pair_text. cbn [fst snd app].
    rewrite (cut_at_app 61 (form_encode k) (form_encode v)).
    + rewrite !form_decode_encode by assumption. reflexivity.
    + apply form_encode_chars in E1. revert E1. apply forallb_impl. intros c; cbv beta; unfold form_keep. mem_simp. lia.
  - intros s I. apply in_map_iff in I. destruct I as (kv & <- & I).
    unfold pairs_ok in E. rewrite forallb_forall in E. destruct (pair_text_chars kv (E _ I)) as [_ C].
    revert C. apply forallb_impl. intros c. cbv beta. rewrite N.eqb_sym. auto.
Qed.
