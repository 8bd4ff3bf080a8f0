(** * Proofs about reading headers. *)
From Verif Require Import Base Utf8 Decimal DepUrl Serde ScalarSpec FieldSpec FieldProofs SerPath SerHeader SerRequest
  DePath DeHeader DepHttp UrlProofs QueryProofs.
Open Scope N_scope.

Section HeaderProofs.
Context `{floatlib}.

Lemma header_read_safe t x : safe (header_read t x).
Proof.
  induction t; cbn [header_read]; try exact I; try (destruct (utf8_decode x); [apply safe_ok_or | exact I]);
    try (destruct (header_read t x); try contradiction; exact I).
  destruct (utf8_decode x) as [y|]; [destruct (ustr_eqb y name); exact I | exact I].
Qed.

Lemma hscalar_read {A} (parse : ustr -> option A) mk s b s' : next_bytes s = Ok (b, s') ->
  header_scalar parse mk s =
  (v <- match utf8_decode b with Some t => ok_or_invalid (option_map mk (parse t)) | None => Err Invalid end ;; Ok (v, s')).
Proof.
  intros N. unfold header_scalar. rewrite N. cbn [bind]. destruct (utf8_decode b) as [t|]; cbn [ok_or_invalid bind]; [|reflexivity].
  destruct (parse t); reflexivity.
Qed.

Lemma dh t : forall s b s', hd_in_map s = true -> next_bytes s = Ok (b, s') ->
  de_header t s = (v <- header_read t b ;; Ok (v, s')).
Proof.
  induction t; intros s b0 s' M N; cbn [de_header header_read]; try reflexivity.
  - rewrite (hscalar_read _ _ _ _ _ N). destruct (utf8_decode b0) as [x|]; [|reflexivity]. cbn [read_scalar]. unfold parse_bool.
    destruct (ustr_eqb x (u "true")); [reflexivity|]. destruct (ustr_eqb x (u "false")); reflexivity.
  - apply (hscalar_read _ _ _ _ _ N).
  - apply (hscalar_read _ _ _ _ _ N).
  - apply (hscalar_read _ _ _ _ _ N).
  - unfold header_str. rewrite N. cbn [bind]. destruct (utf8_decode b0); reflexivity.
  - rewrite N. reflexivity.
  - rewrite (IHt s b0 s' M N). destruct (header_read t b0); reflexivity.
  - unfold header_str. rewrite N. cbn [bind]. destruct (utf8_decode b0) as [x|]; [|reflexivity]. cbn [ok_or_invalid bind].
    destruct (ustr_eqb x name); reflexivity.
  - rewrite (IHt s b0 s' M N). destruct (header_read t b0); reflexivity.
  - unfold header_enter. rewrite M. reflexivity.
  - unfold header_enter. rewrite M. reflexivity.
Qed.

(** Header names are strings. *)
Definition names_ok (hs : list rheader) : bool := forallb (fun h => str_ok (fst h)) hs.

Lemma lowercase_ok s : str_ok s = true -> str_ok (lowercase s) = true.
Proof.
  unfold str_ok, lowercase. rewrite !forallb_forall. intros F c J. apply in_map_iff in J. destruct J as (d & <- & J).
  specialize (F d J). unfold lower, is_scalar in *. destruct ((65 <=? d) && (d <=? 90)) eqn:E; lia.
Qed.

Definition hinv (s : hde) : Prop := hd_in_map s = true /\ hd_value s = false /\ names_ok (hd_rest s) = true.

Lemma header_turn fs s : hinv s ->
  turn header_read fs de_header header_next_field header_skip hinv
    (fun s => relevant (map fst fs) (hd_rest s)) (fun s => length (hd_rest s)) s.
Proof.
  intros (M & V & N). unfold turn, header_next_field, header_end.
  destruct s as [im hv rest]. cbn [hd_in_map hd_value hd_rest] in *. subst im hv.
  destruct rest as [|[k v] rest].
  - left. eexists. split; reflexivity.
  - right. cbn [names_ok forallb fst] in N. apply andb_true_iff in N. destruct N as [Nk N].
    assert (NK : header_str (mkHde true false (@cons rheader (k, v) rest)) =
                  Ok (lowercase k, mkHde true true (@cons rheader (k, v) rest))).
    { unfold header_str. cbn [next_bytes hd_rest hd_value hd_in_map bind].
      rewrite (utf8_decode_encode _ (lowercase_ok k Nk)). reflexivity. }
    rewrite NK. cbn [bind]. unfold relevant. cbn [map fst snd filter]. rewrite assoc_smem.
    destruct (assoc (lowercase k) fs) as [t|] eqn:E.
    + right. exists (lowercase k), t, v, (mkHde true true ((k, v) :: rest)), (mkHde true false rest).
      repeat split; [exact E | exact N | cbn; lia | apply dh; reflexivity].
    + left. exists (lowercase k), (mkHde true true ((k, v) :: rest)), (mkHde true false rest).
      repeat split; [exact E | exact N | cbn; lia].
Qed.

Lemma relevant_known names hs k x : In (k, x) (relevant names hs) -> smem k names = true.
Proof. unfold relevant. intros J. apply filter_In in J. apply J. Qed.

(** Exactly when headers are decoded to a struct, and to which. *)
Theorem de_header_struct n fs hs vs : NoDup (map fst fs) -> names_ok hs = true ->
  (exists s', de_header (TStruct n fs) (hde_new hs) = Ok (SStruct n vs, s')) <->
  filled header_read fs (relevant (map fst fs) hs) vs.
Proof.
  intros ND NO. cbn [de_header]. unfold header_enter, hde_new. cbn [hd_in_map negb assert_invalid bind hd_value hd_rest].
  set (s := mkHde true false hs). assert (Iv : hinv s) by (repeat split; exact NO).
  change (relevant (map fst fs) hs) with ((fun s => relevant (map fst fs) (hd_rest s)) s).
  rewrite <- (visit_struct_filled header_read fs de_header header_next_field header_skip hinv
    (fun s => relevant (map fst fs) (hd_rest s)) (fun s => length (hd_rest s)) (header_turn fs) header_read_safe
    (header_fuel s) s vs Iv).
  - destruct (visit_struct (header_fuel s) header_next_field header_skip _ fs s) as [[vs' s2]| | |]; cbn [bind];
      split; intros [s' E]; try discriminate; injection E as -> _; eauto.
  - unfold header_fuel. lia.
  - intros k x. apply relevant_known.
  - exact ND.
Qed.

(** The result depends only on the relevant headers. *)
Theorem de_header_same n fs hs hs' : names_ok hs = true -> names_ok hs' = true ->
  relevant (map fst fs) hs = relevant (map fst fs) hs' ->
  res_map fst (de_header (TStruct n fs) (hde_new hs)) = res_map fst (de_header (TStruct n fs) (hde_new hs')).
Proof.
  intros N N' R. cbn [de_header]. unfold header_enter, hde_new. cbn [hd_in_map negb assert_invalid bind hd_value hd_rest].
  pose proof (visit_struct_same header_read fs de_header header_next_field header_skip hinv
    (fun s => relevant (map fst fs) (hd_rest s)) (fun s => length (hd_rest s)) (header_turn fs) header_read_safe
    (header_fuel (mkHde true false hs)) (mkHde true false hs) (header_fuel (mkHde true false hs')) (mkHde true false hs')) as V.
  specialize (V ltac:(repeat split; exact N) ltac:(unfold header_fuel; cbn; lia) ltac:(repeat split; exact N')
    ltac:(unfold header_fuel; cbn; lia) R).
  destruct (visit_struct (header_fuel (mkHde true false hs)) _ _ _ fs _) as [[? ?]| | |],
           (visit_struct (header_fuel (mkHde true false hs')) _ _ _ fs _) as [[? ?]| | |]; cbn in *; congruence.
Qed.

Theorem header_struct_safe n fs hs : names_ok hs = true -> safe (de_header (TStruct n fs) (hde_new hs)).
Proof.
  intros NO. cbn [de_header]. unfold header_enter, hde_new. cbn [hd_in_map negb assert_invalid bind hd_value hd_rest].
  set (s := mkHde true false hs). apply safe_bind; [|intros [? ?] _; exact I].
  apply (visit_struct_safe header_read fs de_header header_next_field header_skip hinv
    (fun s => relevant (map fst fs) (hd_rest s)) (fun s => length (hd_rest s)) (header_turn fs) header_read_safe
    (header_fuel s) s ltac:(repeat split; exact NO)).
  unfold header_fuel. lia.
Qed.

Lemma visit_map_header kt vt : forall hs fuel m, (length hs < fuel)%nat ->
  exists s', visit_map fuel header_next_key (de_header kt) (de_header vt) m (mkHde true false hs) =
    (r <- map_of (header_read kt) (header_read vt) m (map (fun h => (utf8_encode (lowercase (fst h)), snd h)) hs) ;; Ok (r, s')).
Proof.
  induction hs as [|[a b] l IH]; intros [|f] m L; cbn in L; try lia; cbn [visit_map map_of map fst snd].
  - unfold header_next_key. cbn. eauto.
  - unfold header_next_key. cbn [header_end hd_rest].
    rewrite (dh kt (mkHde true false (@cons rheader (a, b) l)) (utf8_encode (lowercase a)) (mkHde true true (@cons rheader (a, b) l)) eq_refl eq_refl).
    destruct (header_read kt (utf8_encode (lowercase a))) as [k| | |]; cbn [bind]; try (exists (mkHde true false []); reflexivity).
    rewrite (dh vt (mkHde true true (@cons rheader (a, b) l)) b (mkHde true false l) eq_refl eq_refl).
    destruct (header_read vt b) as [v| | |]; cbn [bind]; try (exists (mkHde true false []); reflexivity).
    apply IH. lia.
Qed.

Theorem de_header_map kt vt hs : exists s', de_header (TMap kt vt) (hde_new hs) =
  (m <- map_of (header_read kt) (header_read vt) [] (map (fun h => (utf8_encode (lowercase (fst h)), snd h)) hs) ;; Ok (SMap m, s')).
Proof.
  cbn [de_header]. unfold header_enter, hde_new. cbn [hd_in_map negb assert_invalid bind hd_value hd_rest].
  destruct (visit_map_header kt vt hs (header_fuel (mkHde true false hs)) []) as [s' E].
  { unfold header_fuel. cbn. lia. }
  exists s'. rewrite E. destruct (map_of _ _ _ _); reflexivity.
Qed.

(** The decoder of a whole header section never panics, whatever the type and the headers. *)
Theorem de_header_safe hs : names_ok hs = true -> forall t, safe (de_header t (hde_new hs)).
Proof.
  intros NO.
  assert (NS : safe (next_bytes (hde_new hs))) by (destruct hs as [|[? ?] ?]; exact I).
  assert (SC : forall A (p : ustr -> option A) mk, safe (header_scalar p mk (hde_new hs))).
  { intros. unfold header_scalar. apply safe_bind; [exact NS|]. intros [x s'] _.
    apply safe_bind; [apply safe_ok_or|]. intros y _. apply safe_bind; [apply safe_ok_or | intros; exact I]. }
  assert (SS : safe (header_str (hde_new hs))).
  { unfold header_str. apply safe_bind; [exact NS|]. intros [x s'] _. apply safe_bind; [apply safe_ok_or | intros; exact I]. }
  induction t; cbn [de_header]; try exact I; try apply SC;
    try (apply safe_bind; [assumption | intros [? ?] _; exact I]).
  - apply safe_bind; [exact SS|]. intros [x s'] _. apply safe_bind; [apply safe_assert | intros; exact I].
  - destruct (de_header_map t1 t2 hs) as [s' E]. cbn [de_header] in E. rewrite E. apply safe_bind; [|intros; exact I].
    apply map_of_safe; intros; apply header_read_safe.
  - apply (header_struct_safe name fs hs NO).
Qed.

(** ** Round trip *)
(** Field values of a header struct that survive: as in a query, and byte strings and unit structs too. *)
Fixpoint header_scalar_faithful (t : ty) (v : value) : Prop :=
  match t, v with
  | TBytes, SBytes _ => True
  | TUnitStruct n, SUnitStruct n' => n = n' /\ str_ok n = true
  | TNewtype n t, SNewtypeStruct n' v => n = n' /\ header_scalar_faithful t v
  | t, v => faithful t v
  end.
Definition header_faithful (t : ty) (v : value) : Prop :=
  match t, v with
  | TOption t, SNone => True
  | TOption t, SSome v => header_scalar_faithful t v
  | t, v => header_scalar_faithful t v
  end.

Lemma header_scalar_cell t : forall v, header_scalar_faithful t v ->
  exists b, cell header_leaf v = Some (Some b) /\ header_read t b = Ok v.
Proof.
  assert (Sc : forall t v, (forall n v', v <> SNewtypeStruct n v') -> faithful t v ->
    exists b, cell header_leaf v = Some (Some b) /\ header_read t b = Ok v).
  { clear t. intros t v NN F. destruct (faithful_cell t v F) as (x & E1 & E2 & E3 & E4 & E5).
    exists (utf8_encode x).
    assert (D : utf8_decode (utf8_encode x) = Some x) by (apply utf8_decode_encode, E3).
    destruct t, v; cbn [faithful] in F; try contradiction; cbn [cell header_leaf scalar_text option_map header_read] in *;
      try (injection E1 as <-); try rewrite D; try rewrite E4; cbn [ok_or_invalid]; auto.
    - rewrite E1. split; reflexivity.
    - exfalso. eapply NN. reflexivity. }
  induction t; intros v F; try (apply Sc; [intros ? ? ->; cbn in F; contradiction | destruct v; exact F]).
  - destruct v; cbn in F; try contradiction. eexists. split; reflexivity.
  - destruct v; cbn in F; try contradiction. destruct F as [-> S]. exists (utf8_encode name0). split; [reflexivity|].
    cbn [header_read]. rewrite (utf8_decode_encode _ S), ustr_eqb_refl. reflexivity.
  - destruct v; cbn in F; try contradiction. destruct F as [-> F]. destruct (IHt v F) as (b & C & R). exists b.
    cbn. rewrite R. auto.
Qed.

Lemma faithful_header_cell t v : header_faithful t v ->
  (exists b, cell header_leaf v = Some (Some b) /\ header_read t b = Ok v) \/
  (cell header_leaf v = Some None /\ v = SNone /\ exists t', t = TOption t').
Proof.
  intros F.
  assert (D : (exists t', t = TOption t') \/ header_scalar_faithful t v).
  { destruct t; try (right; exact F). left; eauto. }
  destruct D as [[t' ->]|D].
  - destruct v; cbn in F; try (destruct t'; contradiction).
    + right. eauto.
    + left. destruct (header_scalar_cell t' v F) as (x & E2 & E5). exists x. cbn. rewrite E5. auto.
  - left. apply (header_scalar_cell t v D).
Qed.

Definition lower_name (n : ustr) : Prop := all_ascii n = true /\ lowercase n = n.

Theorem header_trip n fs vs : NoDup (map fst fs) ->
  Forall (fun f => lower_name (fst f) /\ fst f <> u "content-length") fs ->
  Forall2 (fun f v => fst v = fst f /\ header_faithful (snd f) (snd v)) fs vs ->
  exists l, header_written (SStruct n vs) = Some l /\ names_ok l = true /\
    forall len, exists s', de_header (TStruct n fs) (hde_new (l ++ [content_length len])) = Ok (SStruct n vs, s').
Proof.
  intros ND Nm F.
  destruct (struct_pairs_trip header_leaf header_read (fun _ => True) fs vs ND) as (l & S & K & Fl).
  { clear - F. induction F as [|f v fs vs [E Q] F IH]; constructor; [|exact IH].
    destruct (faithful_header_cell _ _ Q) as [(x & C & R) | (C & V & T)].
    - split; [split; [exact E | left; eauto]|]. auto.
    - split; [split; [exact E | right; eauto]|]. auto. }
  assert (Kn : forall k x, In (k, x) l -> lower_name k /\ k <> u "content-length").
  { intros k x J. destruct (K k x J) as [J1 _]. rewrite Forall_forall in Nm. apply in_map_iff in J1.
    destruct J1 as (f & <- & J1). apply (Nm f J1). }
  exists l. unfold header_written. cbn [written]. rewrite (S _ utf8_encode eq_refl).
  assert (Em : map (fun p : ustr * bytes => (utf8_encode (fst p), snd p)) l = l).
  { clear - Kn. induction l as [|[a b] l IH]; [reflexivity|]. cbn [map fst snd]. rewrite IH.
    - destruct (Kn a b) as [[A _] _]; [left; reflexivity|]. rewrite (utf8_encode_ascii _ A). reflexivity.
    - intros k x J. apply (Kn k x). right; exact J. }
  rewrite Em. split; [reflexivity|].
  assert (NO : names_ok l = true).
  { apply forallb_forall. intros [k x] J. destruct (Kn k x J) as [[A _] _]. apply ascii_str_ok, A. }
  split; [exact NO|]. intros len. apply de_header_struct; [exact ND | |].
  - unfold names_ok in *. rewrite forallb_app. apply andb_true_iff. split; [exact NO | reflexivity].
  - match goal with |- filled _ _ ?a _ => assert (R : a = l); [|rewrite R; exact Fl] end.
    unfold relevant. rewrite map_app, filter_app. cbn [map fst snd content_length].
    change (lowercase (u "Content-Length")) with (u "content-length"). cbn [filter fst].
    destruct (smem (u "content-length") (map fst fs)) eqn:C.
    { exfalso. apply smem_In in C. apply in_map_iff in C. destruct C as (f & E & J).
      rewrite Forall_forall in Nm. destruct (Nm f J) as [_ Ne]. congruence. }
    rewrite app_nil_r. clear - Kn K.
    assert (G : forall l', (forall k x, In (k, x) l' -> In (k, x) l) ->
      filter (fun h : ustr * bytes => smem (fst h) (map fst fs)) (map (fun h : ustr * bytes => (lowercase (fst h), snd h)) l') = l').
    { induction l' as [|[k x] l' IH]; intros Sub; [reflexivity|]. cbn [map fst snd filter].
      assert (J : In (k, x) l) by (apply Sub; left; reflexivity).
      destruct (Kn k x J) as [[_ L] _]. rewrite L. rewrite (proj2 (smem_In k (map fst fs)) (proj1 (K k x J))).
      f_equal. apply IH. intros k' x' J'. apply Sub. right; exact J'. }
    apply G. auto.
Qed.
End HeaderProofs.
