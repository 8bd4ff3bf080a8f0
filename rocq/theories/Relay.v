(** * Proofs about messages sent on (C97). *)
From Verif Require Import Base Utf8 Utf8Exact Decimal DepUrl Serde Procedure ScalarSpec PathSpec FieldSpec SerPath SerQuery SerHeader SerRequest
  DePath DeQuery DeHeader DeRequest Router RouterSpec RouterProofs DepHttp UrlProofs PathProofs PathTrip FieldProofs QueryProofs HeaderProofs FieldMore
  RequestSpec RequestProofs RequestTrip MapSpec MapTrip RequestArrives IntTrip
  Status SerResponse DeResponse ResponseSpec ResponseProofs ResponseTrip JsonTrip TypeSpec TypeProofs RelaySpec.
Open Scope N_scope.

Section Relay.
Context `{floatlib}.

(** ** Header values *)
Definition safe_value (b : bytes) : bool := forallb value_byte b && negb (edge_blank b).

Lemma int_value_safe z : safe_value (show_int z) = true.
Proof.
  unfold safe_value. pose proof (show_int_chars z) as C. apply andb_true_iff. split.
  - revert C. apply forallb_impl. intros c. cbv beta. unfold is_digit, value_byte. lia.
  - apply negb_true_iff. unfold edge_blank. destruct (show_int z) as [|c t]; [reflexivity|]. rewrite forallb_forall in C.
    assert (B : forall c, is_digit c || (c =? 45) = true -> blank c = false) by (intros d; unfold is_digit, blank; lia).
    rewrite (B c) by (apply C; left; reflexivity). cbn [orb]. apply B, C. destruct (exists_last (l := c :: t)) as (l' & a & ->); [discriminate|].
    rewrite last_last. apply in_or_app. right. left. reflexivity.
Qed.
Lemma decode_back b s : utf8_decode b = Some s -> utf8_encode s = b.
Proof. intros D. apply utf8_decode_iff, text_bytes_iff in D. destruct D as [_ ->]. reflexivity. Qed.
Lemma parse_in_range k s z : parse_int k s = Some z -> in_range k z = true.
Proof. intros P. apply parse_int_spec in P. apply in_range_bounds. exact (proj1 P). Qed.

Lemma bytes_ty_kept t : forall b w, bytes_ty t = true -> safe_value b = true -> header_read t b = Ok w ->
  header_scalar_faithful t w /\ exists b', cell header_leaf w = Some (Some b') /\ safe_value b' = true.
Proof.
  induction t; intros b w K Sv R; cbn [bytes_ty] in K; try discriminate; cbn [header_read] in R.
  - destruct (utf8_decode b) as [s|] eqn:D; [|discriminate]. cbn [read_scalar] in R.
    destruct (parse_int k s) as [z|] eqn:P; [|discriminate]. injection R as <-. split.
    + cbn. split; [reflexivity | exact (parse_in_range _ _ _ P)].
    + cbn [cell header_leaf scalar_text option_map]. eexists. split; [reflexivity|]. rewrite (utf8_encode_ascii _ (int_text_ascii z)). apply int_value_safe.
  - destruct (utf8_decode b) as [s|] eqn:D; [|discriminate]. injection R as <-. split.
    + cbn. exact (utf8_decode_ok _ _ _ D).
    + cbn [cell header_leaf scalar_text option_map]. eexists. split; [reflexivity|]. rewrite (decode_back _ _ D). exact Sv.
  - injection R as <-. split; [exact Logic.I|]. exists b. split; [reflexivity | exact Sv].
  - destruct (utf8_decode b) as [s|] eqn:D; [|discriminate]. destruct (ustr_eqb_spec s name) as [->|]; [|discriminate]. injection R as <-. split.
    + cbn. auto.
    + cbn [cell header_leaf]. eexists. split; [reflexivity|]. rewrite (decode_back _ _ D). exact Sv.
  - destruct (header_read t b) as [w'| | |] eqn:R'; try discriminate. injection R as <-. destruct (IHt _ _ K Sv R') as [Fa C]. split; [cbn; auto | exact C].
Qed.

Lemma bytes_ty_field t b w : or_option bytes_ty t = true -> safe_value b = true -> header_read t b = Ok w ->
  header_faithful t w /\ exists b', cell header_leaf w = Some (Some b') /\ safe_value b' = true.
Proof.
  intros K Sv R. destruct t; try (destruct (bytes_ty_kept _ _ _ K Sv R) as [Fa C]; split; [|exact C]; destruct w; exact Fa).
  cbn [or_option] in K. cbn [header_read] in R. destruct (header_read t b) as [w'| | |] eqn:R'; try discriminate. injection R as <-.
  exact (bytes_ty_kept _ _ _ K Sv R').
Qed.

Lemma token_lower c : token_char c = true -> token_char (lower c) = true.
Proof.
  unfold lower. destruct ((65 <=? c) && (c <=? 90)) eqn:E; [|auto]. intros _. unfold token_char.
  replace ((97 <=? c + 32) && (c + 32 <=? 122)) with true by lia. rewrite orb_true_r. reflexivity.
Qed.
Lemma safe_names hs : forallb safe_header hs = true -> headers_ok hs = true /\ names_ok hs = true.
Proof.
  intros S. rewrite forallb_forall in S. split; apply forallb_forall; intros [k b] I; specialize (S _ I); unfold safe_header in S; cbn [fst snd] in *;
    rewrite !andb_true_iff in S; destruct S as [[[_ T] V] _]; pose proof (ascii_str_ok _ (token_ascii _ T)) as O; [|exact O].
  rewrite O. cbn [andb]. unfold bytes_ok. revert V. apply forallb_impl. intros c. cbv beta. unfold value_byte. lia.
Qed.
Lemma relevant_safe names hs k b : forallb safe_header hs = true -> In (k, b) (relevant names hs) ->
  safe_value b = true /\ k <> [] /\ forallb token_char k = true.
Proof.
  intros S I. unfold relevant in I. apply filter_In in I. destruct I as [I _]. apply in_map_iff in I. destruct I as ([k0 b0] & E & I). injection E as <- <-.
  rewrite forallb_forall in S. specialize (S _ I). unfold safe_header in S. cbn [fst snd] in S. rewrite !andb_true_iff in S. destruct S as [[[N T] V] B].
  split; [unfold safe_value; rewrite V, B; reflexivity|]. split.
  - destruct k0; [discriminate | discriminate].
  - unfold lowercase. rewrite forallb_forall in *. intros c J. apply in_map_iff in J. destruct J as (d & <- & J). apply token_lower, T, J.
Qed.

Lemma header_passes hs : forallb safe_header hs = true -> forall t v s', header_ty t -> de_header t (hde_new hs) = Ok (v, s') ->
  exists l, header_whole t v /\ header_written v = Some l /\ forallb safe_header l = true.
Proof.
  intros S t v s' T. revert v s'. induction T as [n fs ND Nm|n t T IH]; intros v s' D.
  - assert (E : exists vs, v = SStruct n vs).
    { cbn [de_header] in D. destruct (header_enter (hde_new hs)) as [s0| | |]; cbn [bind] in D; try discriminate.
      match type of D with bind ?e _ = _ => destruct e as [[vs s1]| | |] end; cbn [bind] in D; try discriminate. injection D as <- _. eauto. }
    destruct E as [vs ->]. assert (Fi : filled header_read fs (relevant (map fst fs) hs) vs).
    { apply (de_header_struct n fs hs vs ND (proj2 (safe_names hs S))). eauto. }
    destruct Fi as [_ F].
    assert (G : exists l, struct_pairs header_leaf utf8_encode vs = Some l /\ forallb safe_header l = true /\
              Forall2 (fun f v => fst v = fst f /\ header_faithful (snd f) (snd v)) fs vs).
    { set (asg := relevant (map fst fs) hs) in *. assert (As : forall k b, In (k, b) asg -> safe_value b = true /\ k <> [] /\ forallb token_char k = true) by (intros; eapply relevant_safe; eassumption).
      clearbody asg. clear - F Nm As. revert Nm. induction F as [|[k t] [k' w] fs vs [Ek X] F IH]; intros Nm; [exists []; repeat split; constructor|].
      inversion Nm as [|? ? ([Ak Lk] & _ & K) Nm']; subst. cbn [fst snd] in *. subst k'. destruct (IH Nm') as (l & P & Sl & Fl). cbn [struct_pairs].
      destruct X as [(b & I & R)|(_ & (t0 & ->) & ->)].
      - destruct (As _ _ I) as (Sv & Ne & Tk). destruct (bytes_ty_field t b w K Sv R) as [Fa (b' & C & Sb)]. rewrite C, P. eexists. split; [reflexivity|]. split; [|constructor; auto].
        cbn [forallb]. rewrite Sl, andb_true_r. unfold safe_header. cbn [fst snd]. rewrite (utf8_encode_ascii _ Ak), Tk. destruct k; [congruence|]. cbn [negb andb].
        unfold safe_value in Sb. exact Sb.
      - cbn [cell]. rewrite P. exists l. split; [reflexivity|]. split; [exact Sl|]. constructor; [|exact Fl]. split; [reflexivity|]. exact Logic.I. }
    destruct G as (l & P & Sl & Fl). exists l. split; [|split; [exact P | exact Sl]].
    constructor; [exact ND | | exact Fl]. revert Nm. apply Forall_impl. intros f (L & N & _). split; [exact L | exact N].
  - cbn [de_header] in D. destruct (de_header t (hde_new hs)) as [[w s1]| | |] eqn:E; cbn [bind] in D; try discriminate. injection D as <- <-.
    destruct (IH _ _ eq_refl) as (l & W & R & Sl). exists l. split; [constructor; exact W | split; [exact R | exact Sl]].
Qed.

(** ** Scalars of a type *)
Lemma text_ty_kept t : forall v, text_ty t = true -> has_ty t v = true -> faithful t v.
Proof.
  induction t; intros v K T; cbn [text_ty] in K; try discriminate; destruct v; cbn [has_ty] in T; try discriminate; cbn [faithful].
  - apply andb_true_iff in T. destruct T as [E R]. apply ikind_eqb_eq in E. auto.
  - exact T.
  - apply andb_true_iff in T. destruct T as [E R]. apply ustr_eqb_eq in E. auto.
Qed.
Lemma text_ty_readable t : text_ty t = true -> readable t = true.
Proof. induction t; cbn; try discriminate; auto. Qed.
Lemma text_ty_field t v : or_option text_ty t = true -> has_ty t v = true -> query_faithful t v.
Proof.
  intros K T. destruct t; try (pose proof (text_ty_kept _ _ K T) as Fa; destruct v; exact Fa).
  cbn [or_option] in K. destruct v; cbn [has_ty] in T; try discriminate; cbn [query_faithful]; [apply text_ty_readable, K | apply text_ty_kept; assumption].
Qed.
Lemma text_ty_entry t v : text_ty t = true -> has_ty t v = true -> entry_faithful t v.
Proof. intros K T. pose proof (text_ty_kept _ _ K T) as Fa. destruct t; try discriminate; destruct v; exact Fa. Qed.

Lemma query_kept t : query_ty t -> forall v, has_ty t v = true -> query_whole t v.
Proof.
  induction 1 as [n fs ND Nm|k t Kk Kt|n t Q IH]; intros v T; destruct v; cbn [has_ty] in T; try discriminate.
  - apply andb_true_iff in T. destruct T as [T _]. apply andb_true_iff in T. destruct T as [E T]. apply ustr_eqb_eq in E. subst.
    apply all2b_Forall2 in T. rewrite Forall2_map_l in T. cbn [fst snd] in T. constructor; [exact ND | revert Nm; apply Forall_impl; tauto|].
    clear - T Nm. revert Nm. induction T as [|f v fs vs X T IH]; intros Nm; constructor.
    + inversion Nm as [|? ? [_ K] _]; subst. apply andb_true_iff in X. destruct X as [E X]. apply ustr_eqb_eq in E. split; [auto | apply text_ty_field; assumption].
    + apply IH. inversion Nm; assumption.
  - apply andb_true_iff in T. destruct T as [T Nd]. apply nodup_vals_NoDup in Nd. constructor; [exact Nd|]. rewrite forallb_forall in T. apply Forall_forall. intros kv I.
    specialize (T kv I). apply andb_true_iff in T. destruct T. split; apply text_ty_entry; assumption.
  - apply andb_true_iff in T. destruct T as [E T]. apply ustr_eqb_eq in E. subst. constructor. apply IH, T.
Qed.

Lemma path_kept P ep t : (forall t v, P t = true -> has_ty t v = true -> faithful t v) -> path_ty P ep t -> forall v, has_ty t v = true ->
  exists ts vs, path_shape t v ts vs /\ Forall2 faithful ts vs /\ length ts = var_count ep /\ forallb P ts = true /\ path_args v = all_some (map scalar_text vs).
Proof.
  intros Pf Q. assert (C : forall ts vs, forallb P ts = true -> all2b (fun f v => f v) (map has_ty ts) vs = true -> Forall2 faithful ts vs).
  { intros ts vs K T. apply all2b_Forall2 in T. rewrite Forall2_map_l in T. induction T as [|t0 v ts vs X T IH]; constructor; cbn [forallb] in K; apply andb_true_iff in K; destruct K; auto. }
  induction Q as [ts L K|n ts L K|n t Q IH]; intros v T; destruct v; cbn [has_ty] in T; try discriminate.
  - exists ts, vs. split; [constructor|]. split; [apply C; assumption|]. auto.
  - apply andb_true_iff in T. destruct T as [E T]. apply ustr_eqb_eq in E. subst. exists ts, vs. split; [constructor|]. split; [apply C; assumption|]. auto.
  - apply andb_true_iff in T. destruct T as [E T]. apply ustr_eqb_eq in E. subst. destruct (IH v T) as (ts & vs & Sh & F & L & K & A). exists ts, vs. split; [constructor; exact Sh|]. auto.
Qed.
Lemma number_ty_kept t : forall v, number_ty t = true -> has_ty t v = true -> faithful t v.
Proof.
  intros v N. apply text_ty_kept. clear v. induction t; cbn in N |- *; try discriminate; auto.
Qed.
Lemma number_text t : forall v, number_ty t = true -> faithful t v -> exists z, scalar_text v = Some (show_int z).
Proof.
  induction t; intros v N F; cbn [number_ty] in N; try discriminate; destruct v; cbn [faithful] in F; try contradiction.
  - eexists. reflexivity.
  - destruct F as [_ F]. exact (IHt v N F).
Qed.

Lemma or_option_wf P t : (forall t, P t = true -> wf_ty t = true) -> or_option P t = true -> wf_ty t = true.
Proof. intros Pw K. destruct t; try (apply Pw; exact K). cbn [or_option wf_ty] in *. apply Pw, K. Qed.
Lemma text_wf t : text_ty t = true -> wf_ty t = true.
Proof. induction t; cbn; try discriminate; auto. Qed.
Lemma bytes_wf t : bytes_ty t = true -> wf_ty t = true.
Proof. induction t; cbn; try discriminate; auto. Qed.
Lemma query_wf t : query_ty t -> wf_ty t = true.
Proof.
  induction 1 as [n fs ND Nm|k t Kk Kt|n t Q IH]; cbn [wf_ty].
  - apply andb_true_iff. split; [apply nodup_names_NoDup, ND|]. apply forallb_forall. intros f I. rewrite Forall_forall in Nm.
    exact (or_option_wf _ _ text_wf (proj2 (Nm f I))).
  - rewrite (text_wf _ Kk), (text_wf _ Kt). reflexivity.
  - exact IH.
Qed.
Lemma header_wf t : header_ty t -> wf_ty t = true.
Proof.
  induction 1 as [n fs ND Nm|n t Q IH]; cbn [wf_ty]; [|exact IH].
  apply andb_true_iff. split; [apply nodup_names_NoDup, ND|]. apply forallb_forall. intros f I. rewrite Forall_forall in Nm.
  exact (or_option_wf _ _ bytes_wf (proj2 (proj2 (Nm f I)))).
Qed.
Lemma path_wf ep t : path_ty text_ty ep t -> wf_ty t = true.
Proof.
  assert (A : forall ts, forallb text_ty ts = true -> forallb wf_ty ts = true) by (intros ts; apply forallb_impl; exact text_wf).
  induction 1; cbn [wf_ty]; auto.
Qed.
Lemma path_number ep t : path_ty number_ty ep t -> path_ty text_ty ep t.
Proof.
  assert (A : forall ts, forallb number_ty ts = true -> forallb text_ty ts = true).
  { intros ts. apply forallb_impl. clear. intros t. induction t; cbn; try discriminate; auto. }
  induction 1; constructor; auto.
Qed.

Lemma forall2_both {A B} (P Q : A -> B -> Prop) l m : Forall2 P l m -> Forall2 Q l m -> Forall2 (fun a b => P a b /\ Q a b) l m.
Proof. induction 1; intros F; inversion F; subst; constructor; auto. Qed.
Lemma one_part {P : ustr * ty -> ustr * value -> Prop} {Q} k o vs : Forall2 (fun f v => P f v /\ (fst v = fst f /\ Q (fst f) (snd f) (snd v))) (part_ty k o) vs ->
  exists p : option (ty * value), vs = field _ k (option_map snd p) /\ option_map fst p = o /\ match p with Some (t, w) => P (k, t) (k, w) /\ Q k t w | None => True end.
Proof.
  destruct o as [t|]; cbn [part_ty]; intros F; inversion F as [|? [k' w] ? ? (X & E & Y) F']; subst.
  - inversion F'; subst. cbn [fst snd] in *. subst k'. exists (Some (t, w)). repeat split; assumption.
  - exists None. repeat split.
Qed.

Section Request.
Context `{urlenv} `{httpenv}.
Variables (Hd : Type) (gs : list (method * entry_point * Hd)).

(** The parts of a decoded request, ready to be sent. *)
Lemma decoded_parts ep x hs n pt qt ht v : url_ok x = true -> forallb safe_header hs = true ->
  path_there text_ty ep pt -> if_there query_ty qt -> if_there header_ty ht ->
  de_request ep x hs (request_ty n pt qt ht) = Ok v ->
  exists p q hd ss l, v = SStruct n (value_parts p q hd) /\ request_ty n pt qt ht = TStruct n (typed_parts p q hd) /\
    option_map fst p = pt /\ option_map fst q = qt /\
    path_fits ep p ss /\ path_texts path_args v = Some ss /\ query_fits q /\ header_fits hd l /\ forallb safe_header l = true.
Proof.
  intros Ux Sh Tp Tq Th D. destruct (safe_names hs Sh) as [Ho No].
  assert (W : wf_ty (request_ty n pt qt ht) = true).
  { unfold request_ty. cbn [wf_ty]. apply andb_true_iff. split; [destruct pt, qt, ht; reflexivity|]. rewrite !forallb_app.
    apply andb_true_iff. split; [destruct pt as [t|]; [cbn; rewrite (path_wf _ _ Tp)|]; reflexivity|].
    apply andb_true_iff. split; [destruct qt as [t|]; [cbn; rewrite (query_wf _ Tq)|]; reflexivity | destruct ht as [t|]; [cbn; rewrite (header_wf _ Th)|]; reflexivity]. }
  pose proof (request_sound ep x hs Ux Ho _ _ W D) as T.
  unfold request_ty in T, D. set (fs := part_ty (u "path") pt ++ part_ty (u "query") qt ++ part_ty (u "header") ht) in *.
  destruct v; cbn [has_ty] in T; try discriminate. rename fs0 into vs.
  apply andb_true_iff in T. destruct T as [T Nd]. apply andb_true_iff in T. destruct T as [E T]. apply ustr_eqb_eq in E. subst name.
  apply all2b_Forall2 in T. rewrite Forall2_map_l in T. cbn [fst snd] in T.
  apply de_request_struct in D; [|apply nodup_names_NoDup, Nd]. destruct D as (_ & _ & R).
  assert (X : exists p q hd, vs = value_parts p q hd /\ option_map fst p = pt /\ option_map fst q = qt /\ option_map fst hd = ht /\
    match p with Some (t, w) => has_ty t w = true | None => True end /\ match q with Some (t, w) => has_ty t w = true | None => True end /\
    match hd with Some (t, w) => exists s', de_header t (hde_new hs) = Ok (w, s') | None => True end).
  { assert (Hh : forall t w, part_reads ep x hs (u "header") t w -> exists s', de_header t (hde_new hs) = Ok (w, s')).
    { intros t w Pr. unfold part_reads in Pr. change (ustr_eqb (u "header") (u "path")) with false in Pr. change (ustr_eqb (u "header") (u "query")) with false in Pr.
      change (ustr_eqb (u "header") (u "header")) with true in Pr. exact Pr. }
    pose proof (forall2_both _ _ _ _ T R) as B. unfold fs in B. clear - B Hh.
    apply Forall2_app_inv_l in B. destruct B as (v1 & v' & B1 & B & ->). apply Forall2_app_inv_l in B. destruct B as (v2 & v3 & B2 & B3 & ->).
    destruct (one_part _ _ _ B1) as (p & -> & <- & Q1). destruct (one_part _ _ _ B2) as (q & -> & <- & Q2). destruct (one_part _ _ _ B3) as (hd & -> & <- & Q3).
    exists p, q, hd. split; [reflexivity|]. split; [reflexivity|]. split; [reflexivity|]. split; [reflexivity|].
    split; [destruct p as [[t w]|]; [apply Q1 | exact Logic.I]|]. split; [destruct q as [[t w]|]; [apply Q2 | exact Logic.I]|].
    destruct hd as [[t w]|]; [apply Hh, Q3 | exact Logic.I]. }
  destruct X as (p & q & hd & -> & <- & <- & <- & Tp' & Tq' & Th').
  assert (Pp : exists ss, path_fits ep p ss /\ path_texts path_args (SStruct n (value_parts p q hd)) = Some ss).
  { destruct p as [[t w]|]; cbn [path_there option_map fst] in Tp.
    - destruct (path_kept text_ty ep t (fun t v => text_ty_kept t v) Tp w Tp') as (ts & ws & S & F & L & K & A). destruct (all_some_texts ts ws F) as (ss & E & _).
      exists ss. split; [exists ts, ws; auto|]. cbn [path_texts value_parts field option_map snd app assoc]. rewrite ustr_eqb_refl. rewrite A. exact E.
    - exists []. split; [split; [exact Tp | reflexivity]|]. cbn [path_texts value_parts field option_map snd app].
      destruct q as [[? ?]|], hd as [[? ?]|]; reflexivity. }
  destruct Pp as (ss & Pf & Pt).
  assert (Ph : exists l, header_fits hd l /\ forallb safe_header l = true).
  { destruct hd as [[t w]|]; [|exists []; split; reflexivity]. destruct Th' as [s' D]. destruct (header_passes hs Sh t w s' Th D) as (l & A & B & C). exists l. split; [split; assumption | exact C]. }
  destruct Ph as (l & Hf & Sl).
  exists p, q, hd, ss, l. split; [reflexivity|]. split; [reflexivity|]. split; [reflexivity|]. split; [reflexivity|]. split; [exact Pf|]. split; [exact Pt|].
  split; [destruct q as [[t w]|]; [exact (query_kept t Tq w Tq') | exact Logic.I]|]. split; [exact Hf | exact Sl].
Qed.

Theorem relayed ep m h x hs n pt qt ht v len : url_ok x = true -> forallb safe_header hs = true ->
  In (m, ep, h) (accepted gs) -> plain_entry ep -> ep <> [] ->
  path_there text_ty ep pt -> if_there query_ty qt -> if_there header_ty ht -> (pt = None -> qt = None) ->
  de_request ep x hs (request_ty n pt qt ht) = Ok v ->
  (forall ss, path_texts path_args v = Some ss -> Forall path_safe ss /\ first_ok (fill ep ss) /\ unshadowed (accepted gs) ep (map enc (fill ep ss))) ->
  exists r x' hs', encode_request ep v len = Ok r /\ deliver (rb_headers r) = Some hs' /\ parse_url (rb_target r) = Some x' /\
    route (build gs) m (u_path x') = Ok (inl h) /\ de_request ep x' hs' (request_ty n pt qt ht) = Ok v.
Proof.
  intros Ux Sh I Pe Ne Tp Tq Th Pq D Ss. destruct (decoded_parts ep x hs n pt qt ht v Ux Sh Tp Tq Th D) as (p & q & hd & ss & l & -> & -> & Ep & Eq & Pf & Pt & Qf & Hf & Sl).
  destruct (Ss ss Pt) as (Sf & Fo & Un). apply (request_arrives Hd gs m ep h n p q hd ss l len); try assumption.
  - intros ->. cbn in Ep. specialize (Pq (eq_sym Ep)). subst qt. destruct q; [discriminate | reflexivity].
  - apply safe_app_len, Sl.
Qed.

(** Numbers in the path are always fit for it. *)
Lemma number_paths ep ts vs ss : plain_entry ep -> forallb number_ty ts = true -> Forall2 faithful ts vs -> all_some (map scalar_text vs) = Some ss ->
  Forall path_safe ss /\ first_ok (fill ep ss).
Proof.
  intros Pe K F A.
  assert (G : exists zs, ss = map show_int zs).
  { revert ss A. induction F as [|t v ts vs X F IH]; intros ss A; [injection A as <-; exists []; reflexivity|]. cbn [forallb] in K. apply andb_true_iff in K. destruct K as [K1 K2].
    destruct (number_text t v K1 X) as [z E]. cbn [map all_some] in A. rewrite E in A. destruct (all_some (map scalar_text vs)) as [r|]; [|discriminate]. injection A as <-.
    destruct (IH K2 r eq_refl) as [zs ->]. exists (z :: zs). reflexivity. }
  destruct G as [zs ->]. split.
  - apply Forall_forall. intros s J. apply in_map_iff in J. destruct J as (z & <- & _). apply int_path_safe.
  - pose proof (ints_first ep (map (pair I8) zs) Pe) as G. rewrite map_map in G. cbn [snd] in G. exact G.
Qed.

Theorem numbers_relayed ep m h x hs n pt qt ht v len : url_ok x = true -> forallb safe_header hs = true ->
  In (m, ep, h) (accepted gs) -> plain_entry ep -> ep <> [] ->
  path_there number_ty ep pt -> if_there query_ty qt -> if_there header_ty ht -> (pt = None -> qt = None) ->
  de_request ep x hs (request_ty n pt qt ht) = Ok v ->
  (forall ss, path_texts path_args v = Some ss -> unshadowed (accepted gs) ep (map enc (fill ep ss))) ->
  exists r x' hs', encode_request ep v len = Ok r /\ deliver (rb_headers r) = Some hs' /\ parse_url (rb_target r) = Some x' /\
    route (build gs) m (u_path x') = Ok (inl h) /\ de_request ep x' hs' (request_ty n pt qt ht) = Ok v.
Proof.
  intros Ux Sh I Pe Ne Tp Tq Th Pq D Un.
  assert (Tp' : path_there text_ty ep pt) by (destruct pt; [apply path_number, Tp | exact Tp]).
  refine (relayed ep m h x hs n pt qt ht v len Ux Sh I Pe Ne Tp' Tq Th Pq D _).
  intros ss P. enough (G : Forall path_safe ss /\ first_ok (fill ep ss)) by (split; [apply G | split; [apply G | apply Un, P]]).
  destruct (decoded_parts ep x hs n pt qt ht v Ux Sh Tp' Tq Th D) as (p & q & hd & ss' & l & -> & E & Ep & Eq & Pf & Pt & _).
  assert (ss' = ss) as -> by congruence. clear Pt P. destruct p as [[t w]|]; cbn [option_map fst] in Ep; subst pt; cbn [path_there] in Tp.
  - destruct Pf as (ts & vs & S & F & L & A). refine (number_paths ep ts vs ss Pe _ F A). clear - S Tp. revert Tp. induction S; intros Tp; inversion Tp; subst; auto.
  - destruct Pf as [V ->]. split; [constructor|]. exact (ints_first ep [] Pe).
Qed.
End Request.

(** ** Responses *)
Section Response.
Context `{httpenv}.

Lemma header_part code hs ws ht vs : forallb safe_header hs = true -> if_there header_ty ht ->
  Forall2 (fun f v => fst v = fst f /\ resp_part code hs ws (fst f) (snd f) (snd v)) (part_ty (u "header") ht) vs ->
  exists o l, part_ty (u "header") ht = head_ty o /\ vs = head_val o /\ header_fits o l /\ forallb safe_header l = true.
Proof.
  intros Sh Th F. destruct ht as [t|]; cbn [part_ty] in F.
  - inversion F as [|? [k w] ? ? [E R] F']; subst. inversion F'; subst. cbn [fst snd] in *. subst k. unfold resp_part in R.
    change (ustr_eqb (u "header") (u "status")) with false in R. rewrite andb_false_r in R. change (ustr_eqb (u "header") (u "header")) with true in R. destruct R as [s' R].
    destruct (header_passes hs Sh t w s' Th R) as (l & A & B & C). exists (Some (t, w)), l. split; [reflexivity|]. split; [reflexivity|]. split; [split; assumption | exact C].
  - inversion F; subst. exists None, []. repeat split.
Qed.

Lemma named_status code x : status_code_to_str code = Ok x -> exists st, status_from_str x = Ok st /\ code_of st = code.
Proof.
  intros E. apply name_of_code in E. rewrite <- tables_agree in E. apply in_map_iff in E. destruct E as ([y st] & [= <- <-] & I). cbn [fst snd] in *.
  exists st. split; [apply status_of_name, I | reflexivity].
Qed.

Theorem response_relayed code hs t v len : response_ty t -> forallb safe_header hs = true -> (is_enum t = false -> known_code code) ->
  de_response code hs t = Ok v ->
  exists r hs', encode_response v len = Ok r /\ deliver (pb_headers r) = Some hs' /\ de_response (code_of (pb_status r)) hs' t = Ok v.
Proof.
  intros T Sh Kc D. destruct T as [n vs Fv|n k ht Th].
  - pose proof D as D'. apply de_response_enum in D'. destruct D' as (x & vt & Ex & Ax & Dv).
    destruct (named_status code x Ex) as (st & Es & <-). apply names_and_codes in Ex. pose proof Ax as Ix. apply assoc_In in Ix. rewrite Forall_forall in Fv. destruct (Fv _ Ix) as [Ev|(ht & Ev & Th)]; cbn [snd] in Ev; subst vt.
    + subst v. exact (unit_variant_arrives n vs x st len Ex Ax).
    + assert (Nd : NoDup (map fst (part_ty (u "header") ht))) by (destruct ht; repeat constructor; intros []).
      destruct Dv as (ws & p & _ & ->). pose proof (proj1 (names_and_codes _ _) Ex) as Ec.
      apply (de_struct_variant (code_of st) hs n vs ws _ x Ec Ax Nd) in D. destruct D as [_ F].
      destruct (header_part _ _ _ _ _ Sh Th F) as (o & l & E & -> & Hf & Sl). rewrite E in Ax. exact (struct_variant_arrives n vs x st o l len Ex Ax Hf Sl).
  - assert (Nd : NoDup (map fst ((u "status", TInt k) :: part_ty (u "header") ht))) by (apply nodup_names_NoDup; destruct ht; reflexivity).
    assert (E : exists ws, v = SStruct n ws).
    { unfold de_response in D. cbn [de_response_from] in D.
      match type of D with bind (bind ?e _) _ = _ => destruct e as [[ws p]| | |] end; cbn [bind] in D; try discriminate. injection D as <-. eauto. }
    destruct E as [ws ->]. apply de_response_struct in D; [|exact Nd]. destruct D as [_ F]. inversion F as [|? [k' w] ? ws' [Ek R] F']; subst. cbn [fst snd] in *. subst k'.
    unfold resp_part in R. change (ustr_eqb (u "status") (u "status")) with true in R. cbn [andb de_u16] in R.
    destruct (in_range k (Z.of_N code)) eqn:Rg; [|discriminate]. injection R as <-.
    destruct (header_part _ _ _ _ _ Sh Th F') as (o & l & E & -> & Hf & Sl). rewrite E.
    destruct (proj2 (codes_known code) (Kc eq_refl)) as [x Ex]. destruct (named_status code x Ex) as (st & _ & Es).
    refine (struct_arrives n k (Z.of_N code) st o l len Rg _ _ Hf Sl); [lia|]. rewrite N2Z.id. exact Es.
Qed.
End Response.
End Relay.
