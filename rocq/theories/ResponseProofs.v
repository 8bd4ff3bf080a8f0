(** * Writing and reading responses. *)
From Verif Require Import Base Utf8 Decimal DepUrl Serde Json Status Procedure ScalarSpec PathSpec FieldSpec SerPath SerHeader SerRequest SerResponse
  DePath DeHeader DeRequest DeResponse DepHttp FieldProofs HeaderProofs FieldMore RequestArrives RequestTrip ResponseSpec ValueInd.
Open Scope N_scope.

(** ** Status tables *)
Lemma status_of_name x st : status_from_str x = Ok st <-> In (x, st) from_str_table.
Proof.
  unfold status_from_str. assert (ND : NoDup (map fst from_str_table)) by (apply nodup_names_NoDup; vm_compute; reflexivity).
  revert ND. generalize from_str_table. induction l as [|[y s] l IH]; intros ND; cbn [lookup_name]; [split; [discriminate | intros []]|].
  inversion ND as [|? ? N1 N2]; subst. destruct (ustr_eqb_spec x y) as [->|N].
  - split; [intros [= ->]; left; reflexivity|]. intros [[= <-]|I]; [reflexivity|]. elim N1. apply (in_map fst) in I. exact I.
  - rewrite (IH N2). split; [right; assumption|]. intros [[= -> _]|I]; [congruence | exact I].
Qed.
Lemma name_of_code c x : status_code_to_str c = Ok x <-> In (c, x) code_table.
Proof.
  unfold status_code_to_str.
  assert (ND : NoDup (map fst code_table)).
  { assert (B : forall l : list N, (fix nd l := match l with [] => true | x :: r => negb (existsb (N.eqb x) r) && nd r end) l = true -> NoDup l).
    { induction l as [|a l IH]; [constructor|]. rewrite andb_true_iff, negb_true_iff. intros [A B]. constructor; [|apply IH, B].
      intros I. rewrite <- not_true_iff_false in A. apply A. apply existsb_exists. exists a. split; [exact I | apply N.eqb_refl]. }
    apply B. vm_compute. reflexivity. }
  revert ND. generalize code_table. induction l as [|[d y] l IH]; intros ND; cbn [lookup_code]; [split; [discriminate | intros []]|].
  inversion ND as [|? ? N1 N2]; subst. destruct (N.eqb_spec c d) as [->|N].
  - split; [intros [= ->]; left; reflexivity|]. intros [[= <-]|I]; [reflexivity|]. elim N1. apply (in_map fst) in I. exact I.
  - rewrite (IH N2). split; [right; assumption|]. intros [[= -> _]|I]; [congruence | exact I].
Qed.

Lemma tables_agree : map (fun p => (code_of (snd p), fst p)) from_str_table = code_table.
Proof. vm_compute. reflexivity. Qed.
Lemma all_listed st : In st (map snd from_str_table).
Proof. destruct st; vm_compute; tauto. Qed.
Lemma code_inj s t : code_of s = code_of t -> s = t.
Proof.
  intros E. assert (X : forall c, match find (fun s => code_of s =? c) all_status with Some x => code_of x = c -> True | None => True end) by (intros; destruct (find _ _); auto).
  assert (N1 : normalize (code_of s) = Some s) by (destruct s; reflexivity).
  assert (N2 : normalize (code_of t) = Some t) by (destruct t; reflexivity).
  congruence.
Qed.

Theorem names_and_codes x st : status_from_str x = Ok st <-> status_code_to_str (code_of st) = Ok x.
Proof.
  rewrite status_of_name, name_of_code, <- tables_agree, in_map_iff. split.
  - intros I. exists (x, st). auto.
  - intros ([y s] & [= E ->] & I). apply code_inj in E. subst s. exact I.
Qed.
Lemma status_name_inj x y st : status_from_str x = Ok st -> status_from_str y = Ok st -> x = y.
Proof. rewrite !names_and_codes. congruence. Qed.
Theorem every_status_named st : exists x, status_from_str x = Ok st.
Proof. pose proof (all_listed st) as I. apply in_map_iff in I. destruct I as ([x s] & E & I). cbn in E. subst s. exists x. apply status_of_name, I. Qed.
Theorem codes_known c : (exists x, status_code_to_str c = Ok x) <-> known_code c.
Proof.
  split.
  - intros [x E]. apply name_of_code in E. unfold code_table in E. cbn [In] in E. unfold known_code.
    repeat (destruct E as [E|E]; [injection E as <- _; lia|]). contradiction.
  - intros K. assert (I : In c (map fst code_table)).
    { cbn [map fst code_table In]. unfold known_code in K. lia. }
    apply in_map_iff in I. destruct I as ([d x] & E & I). cbn in E. subst d. exists x. apply name_of_code, I.
Qed.
Lemma codes_else c : ~ known_code c -> status_code_to_str c = Err Invalid.
Proof.
  intros N. destruct (status_code_to_str c) as [x| | |] eqn:E.
  - elim N. apply codes_known. eauto.
  - revert E. unfold status_code_to_str. generalize code_table. induction l as [|[d y] l IH]; cbn; [congruence|]. destruct (c =? d); [discriminate | exact IH].
  - exfalso. revert E. unfold status_code_to_str. generalize code_table. induction l as [|[d y] l IH]; cbn; [congruence|]. destruct (c =? d); [discriminate | exact IH].
  - exfalso. revert E. unfold status_code_to_str. generalize code_table. induction l as [|[d y] l IH]; cbn; [congruence|]. destruct (c =? d); [discriminate | exact IH].
Qed.
Lemma name_ok_or_invalid x : (exists st, status_from_str x = Ok st) \/ status_from_str x = Err Invalid.
Proof. unfold status_from_str. generalize from_str_table. induction l as [|[y s] l IH]; cbn; [auto|]. destruct (ustr_eqb x y); eauto. Qed.
Lemma normalize_iff c st : normalize c = Some st <-> code_of st = c.
Proof.
  split.
  - intros E. apply find_some in E. destruct E as [_ E]. apply N.eqb_eq, E.
  - intros <-. destruct st; reflexivity.
Qed.
Lemma code_is_known st : known_code (code_of st).
Proof. apply codes_known. destruct (every_status_named st) as [x E]. exists x. apply names_and_codes, E. Qed.

Section Write.
Context `{floatlib}.

(** ** The status field *)
Lemma no_digit_parse c s k : (c <> 43)%N -> (c <> 45)%N -> is_digit c = false -> parse_int k (c :: s) = None.
Proof.
  intros N1 N2 D. destruct (parse_int k (c :: s)) as [z|] eqn:E; [|reflexivity]. apply parse_int_spec in E.
  destruct E as [_ [(n & Nm & _)|[(r & n & E & _)|(r & n & E & _)]]].
  - apply numeral_head in Nm. unfold is_digit in D. lia.
  - apply (f_equal (@hd_error N)) in E. injection E as E. elim (N1 E).
  - apply (f_equal (@hd_error N)) in E. injection E as E. elim (N2 E).
Qed.

Lemma show_int_u16 z : parse_int U16 (show_int z) = if ((0 <=? z) && (z <=? 65535))%Z then Some z else None.
Proof.
  assert (P : forall n, parse_int U16 (show_N n) = if in_range U16 (Z.of_N n) then Some (Z.of_N n) else None).
  { intros n. destruct (show_N_digits n) as (Ne & V & D). rewrite parse_int_digits, V by assumption. reflexivity. }
  destruct z as [|p|p]; cbn [show_int].
  - apply (P 0).
  - rewrite P. change (Z.of_N (N.pos p)) with (Z.pos p). reflexivity.
  - rewrite parse_int_unfold. reflexivity.
Qed.

Lemma json_first j : match print_json j with
  | c :: _ => match j with JInt _ | JFloat _ => True | _ => c <> 43 /\ c <> 45 /\ is_digit c = false end
  | [] => match j with JFloat _ | JInt _ => True | _ => False end end.
Proof.
  destruct j as [|[|]|z|t|t|l|l]; cbn; try (split; [|split]; (reflexivity || discriminate)).
  - destruct (show_int z); exact I.
  - destruct t; exact I.
Qed.

Lemma list_safe (f : value -> res json) : forall vs, Forall (fun v => safe (f v)) vs ->
  safe ((fix list (vs : list value) : res (list json) :=
    match vs with [] => Ok [] | v :: r => j <- f v ;; js <- list r ;; Ok (j :: js) end) vs).
Proof. induction 1 as [|v vs S F IH]; [exact I|]. apply safe_bind; [exact S|]. intros j _. apply safe_bind; [exact IH|]. intros; exact I. Qed.
Lemma fields_safe (f : value -> res json) : forall fs, Forall (fun p => safe (f (snd p))) fs ->
  safe ((fix fields (fs : list (ustr * value)) :=
    match fs with [] => Ok [] | (n, v) :: r => j <- f v ;; js <- fields r ;; Ok ((n, j) :: js) end) fs).
Proof. induction 1 as [|[n v] fs S F IH]; [exact I|]. apply safe_bind; [exact S|]. intros j _. apply safe_bind; [exact IH|]. intros; exact I. Qed.
Lemma key_safe : forall v, safe (json_key v).
Proof. induction v; try exact I. exact IHv. Qed.
Lemma to_json_safe : forall v, safe (to_json v).
Proof.
  induction v using value_ind2; try exact I; try exact IHv; cbn [to_json].
  - apply safe_bind; [exact IHv | intros; exact I].
  - apply safe_bind; [apply list_safe; assumption | intros; exact I].
  - apply safe_bind; [apply list_safe; assumption | intros; exact I].
  - apply safe_bind; [apply list_safe; assumption | intros; exact I].
  - apply safe_bind; [apply list_safe; assumption | intros; exact I].
  - apply safe_bind; [|intros; exact I]. match goal with F : Forall _ kvs |- _ => induction F as [|[k v] kvs [S1 S2] F IH] end; [exact I|].
    apply safe_bind; [apply key_safe|]. intros a _. apply safe_bind; [exact S2|]. intros j _. apply safe_bind; [exact IH|]. intros; exact I.
  - apply safe_bind; [apply fields_safe; assumption | intros; exact I].
  - apply safe_bind; [apply fields_safe; assumption | intros; exact I].
Qed.

Lemma status_number_iff : forall v z, (t <- to_json_string v ;; ok_or_invalid (parse_int U16 t)) = Ok z <-> status_number v = Some z.
Proof.
  assert (Z : forall v j, to_json v = Ok j -> match j with JInt _ | JFloat _ => False | _ => True end ->
    (t <- to_json_string v ;; ok_or_invalid (parse_int U16 t)) = Err Invalid).
  { intros v j E K. unfold to_json_string. rewrite E. cbn [bind]. pose proof (json_first j) as F.
    destruct (print_json j) as [|c s]; [destruct j; contradiction|]. destruct j; try contradiction;
      destruct F as (N1 & N2 & D); rewrite (no_digit_parse c s U16 N1 N2 D); reflexivity. }
  assert (T : forall v z, status_number v = None -> (forall j, to_json v = Ok j -> match j with JInt _ | JFloat _ => False | _ => True end) ->
     (t <- to_json_string v ;; ok_or_invalid (parse_int U16 t)) = Ok z <-> status_number v = Some z).
  { intros v z -> K. split; [|discriminate]. intros E. destruct (to_json v) as [j| | |] eqn:J.
    - rewrite (Z v j J (K j eq_refl)) in E. discriminate.
    - unfold to_json_string in E. rewrite J in E. discriminate.
    - unfold to_json_string in E. rewrite J in E. discriminate.
    - unfold to_json_string in E. rewrite J in E. discriminate. }
  assert (B : forall A (r : res A) (f : A -> json), (forall a, match f a with JInt _ | JFloat _ => False | _ => True end) ->
     forall j, (a <- r ;; Ok (f a)) = Ok j -> match j with JInt _ | JFloat _ => False | _ => True end).
  { intros A [a| | |] f K j; cbn [bind]; try discriminate. intros [= <-]. apply K. }
  induction v; intros y; try exact (IHv y);
    try (apply T; [reflexivity | intros j [= <-]; exact I]);
    try (apply T; [reflexivity | cbn [to_json]; apply B; intros; exact I]).
  - unfold to_json_string. cbn [to_json bind print_json status_number]. rewrite show_int_u16. destruct ((0 <=? z) && (z <=? 65535))%Z; cbn; split; congruence.
  - unfold to_json_string. cbn [to_json bind print_json status_number]. destruct (parse_int U16 (fjson32 x)); cbn; split; congruence.
  - unfold to_json_string. cbn [to_json bind print_json status_number]. destruct (parse_int U16 (fjson64 x)); cbn; split; congruence.
Qed.
Lemma status_number_range v z : status_number v = Some z -> (0 <= z <= 65535)%Z.
Proof.
  assert (P : forall t y, parse_int U16 t = Some y -> (0 <= y <= 65535)%Z).
  { intros t y E. apply parse_int_spec in E. destruct E as [E _]. unfold in_range in E. cbn in E. lia. }
  induction v; cbn [status_number]; try discriminate; try assumption; try apply P.
  intros E. destruct ((0 <=? z0) && (z0 <=? 65535))%Z eqn:R; [|discriminate]. injection E as <-. lia.
Qed.

Lemma resp_status_iff v s s' : resp_status v s = Ok s' <->
  ss_conn s = true /\ exists z st, status_number v = Some z /\ code_of st = Z.to_N z /\ s' = mkSser false (Some (mkRespb st [])).
Proof.
  unfold resp_status. split.
  - intros E. destruct (ss_conn s); [|discriminate]. cbn [assert_invalid bind] in E. split; [reflexivity|].
    destruct (to_json_string v) as [t| | |] eqn:J; cbn [bind] in E; try discriminate.
    destruct (parse_int U16 t) as [z|] eqn:P; cbn [ok_or_invalid bind] in E; [|discriminate].
    destruct (normalize (Z.to_N z)) as [st|] eqn:Nn; [|discriminate]. injection E as <-. exists z, st. split; [|split; [apply normalize_iff, Nn | reflexivity]].
    apply status_number_iff. rewrite J. cbn [bind]. rewrite P. reflexivity.
  - intros (-> & z & st & N & C & ->). cbn [assert_invalid bind]. apply status_number_iff in N.
    destruct (to_json_string v) as [t| | |]; cbn [bind] in *; try discriminate. rewrite N. cbn [bind].
    apply normalize_iff in C. rewrite C. reflexivity.
Qed.
Lemma resp_status_safe v s : safe (resp_status v s).
Proof.
  unfold resp_status. apply safe_bind; [destruct (ss_conn s); exact I|]. intros _ _. apply safe_bind.
  - unfold to_json_string. apply safe_bind; [apply to_json_safe | intros; exact I].
  - intros t _. apply safe_bind; [apply safe_ok_or|]. intros z _. apply safe_bind; [apply safe_ok_or | intros; exact I].
Qed.

(** ** The headers *)
Lemma resp_header_iff v st l c s' : resp_header v (mkSser c (Some (mkRespb st l))) = Ok s' <->
  exists w, header_written v = Some w /\ s' = mkSser c (Some (mkRespb st (l ++ w))).
Proof.
  unfold resp_header. cbn [ss_resp pb_headers pb_status ss_conn]. pose proof (ser_header_spec v l) as S.
  destruct (header_written v) as [w|].
  - destruct S as (h & E & O). rewrite E. cbn [bind]. rewrite O. split; [intros [= <-]; eauto|]. intros (x & [= <-] & ->). reflexivity.
  - rewrite S. split; [discriminate|]. intros (x & E & _). discriminate.
Qed.
Lemma resp_header_safe v st l c : safe (resp_header v (mkSser c (Some (mkRespb st l)))).
Proof.
  unfold resp_header. cbn [ss_resp pb_headers]. pose proof (ser_header_spec v l) as S. destruct (header_written v) as [w|].
  - destruct S as (h & E & O). rewrite E. exact I.
  - rewrite S. exact I.
Qed.

Lemma fields_iff (f : ustr -> value -> sser -> res sser) (g : list (ustr * value) -> sser -> res sser) :
  (forall s, g [] s = Ok s) -> (forall n v r s, g ((n, v) :: r) s = (s <- f n v s ;; g r s)) ->
  (forall v st l, f (u "header") v (mkSser false (Some (mkRespb st l))) = resp_header v (mkSser false (Some (mkRespb st l)))) ->
  (forall k v st l, k <> u "header" -> f k v (mkSser false (Some (mkRespb st l))) = Err Invalid) ->
  forall fs st l s', g fs (mkSser false (Some (mkRespb st l))) = Ok s' <->
    exists hs ls, fs = map (pair (u "header")) hs /\ Forall2 (fun h l => header_written h = Some l) hs ls /\
      s' = mkSser false (Some (mkRespb st (l ++ concat ls))).
Proof.
  intros G0 G1 Fh Fo. induction fs as [|[k v] fs IH]; intros st l s'.
  - rewrite G0. split.
    + intros [= <-]. exists [], []. rewrite app_nil_r. repeat split. constructor.
    + intros (hs & ls & E & F & ->). destruct hs; [|discriminate]. inversion F; subst. cbn. rewrite app_nil_r. reflexivity.
  - rewrite G1. destruct (ustr_eqb_spec k (u "header")) as [->|N].
    + rewrite Fh. split.
      * intros E. destruct (resp_header v _) as [s1| | |] eqn:R; cbn [bind] in E; try discriminate.
        apply resp_header_iff in R. destruct R as (w & W & ->). apply IH in E. destruct E as (hs & ls & -> & F & ->).
        exists (v :: hs), (w :: ls). split; [reflexivity|]. split; [constructor; assumption|]. cbn. rewrite app_assoc. reflexivity.
      * intros (hs & ls & E & F & ->). destruct hs as [|h hs]; [discriminate|]. injection E as <- ->.
        inversion F as [|? w ? ls' W F']; subst.
        assert (R : resp_header v (mkSser false (Some (mkRespb st l))) = Ok (mkSser false (Some (mkRespb st (l ++ w))))) by (apply resp_header_iff; eauto).
        rewrite R. cbn [bind]. apply IH. exists hs, ls'. split; [reflexivity|]. split; [exact F'|]. cbn. rewrite app_assoc. reflexivity.
    + rewrite Fo by exact N. split; [discriminate|]. intros (hs & ls & E & _). destruct hs; [discriminate|]. injection E as E _ _. elim (N E).
Qed.
Lemma fields_safe2 (f : ustr -> value -> sser -> res sser) (g : list (ustr * value) -> sser -> res sser) :
  (forall s, g [] s = Ok s) -> (forall n v r s, g ((n, v) :: r) s = (s <- f n v s ;; g r s)) ->
  (forall v st l, f (u "header") v (mkSser false (Some (mkRespb st l))) = resp_header v (mkSser false (Some (mkRespb st l)))) ->
  (forall k v st l, k <> u "header" -> f k v (mkSser false (Some (mkRespb st l))) = Err Invalid) ->
  forall fs st l, safe (g fs (mkSser false (Some (mkRespb st l)))).
Proof.
  intros G0 G1 Fh Fo. induction fs as [|[k v] fs IH]; intros st l; [rewrite G0; exact I|]. rewrite G1.
  destruct (ustr_eqb_spec k (u "header")) as [->|N]; [|rewrite Fo by exact N; exact I].
  rewrite Fh. apply safe_bind; [apply resp_header_safe|]. intros s E. apply resp_header_iff in E. destruct E as (w & _ & ->). apply IH.
Qed.

Lemma field_header v st l : resp_field (u "header") v (mkSser false (Some (mkRespb st l))) = resp_header v (mkSser false (Some (mkRespb st l))).
Proof. reflexivity. Qed.
Lemma field_else k v st l : k <> u "header" -> resp_field k v (mkSser false (Some (mkRespb st l))) = Err Invalid.
Proof. intros N. unfold resp_field. apply ustr_eqb_neq in N. rewrite N. destruct (ustr_eqb k (u "status")); reflexivity. Qed.
Lemma vfield_header v st l : resp_variant_field (u "header") v (mkSser false (Some (mkRespb st l))) = resp_header v (mkSser false (Some (mkRespb st l))).
Proof. reflexivity. Qed.
Lemma vfield_else k v st l : k <> u "header" -> resp_variant_field k v (mkSser false (Some (mkRespb st l))) = Err Invalid.
Proof. intros N. unfold resp_variant_field. apply ustr_eqb_neq in N. rewrite N. reflexivity. Qed.

Definition struct_iff := fields_iff resp_field resp_fields (fun _ => eq_refl) (fun _ _ _ _ => eq_refl) field_header field_else.
Definition variant_iff := fields_iff resp_variant_field resp_variant_fields (fun _ => eq_refl) (fun _ _ _ _ => eq_refl) vfield_header vfield_else.

(** ** The whole response *)
Lemma set_status_iff x s' : set_variant_status x sser_new = Ok s' <-> exists st, status_from_str x = Ok st /\ s' = mkSser false (Some (mkRespb st [])).
Proof.
  unfold set_variant_status. cbn [sser_new ss_conn assert_invalid bind]. destruct (status_from_str x) as [st| | |]; cbn [bind].
  - split; [intros [= <-]; eauto|]. intros (t & [= <-] & ->). reflexivity.
  - split; [discriminate|]. intros (t & E & _). discriminate.
  - split; [discriminate|]. intros (t & E & _). discriminate.
  - split; [discriminate|]. intros (t & E & _). discriminate.
Qed.

Lemma ser_response_core : forall v s, ser_response v s = ser_response (core v) s.
Proof. induction v; intros s0; try reflexivity; exact (IHv s0). Qed.
Lemma core_not_newtype v : match core v with SNewtypeStruct _ _ | SNewtypeVariant _ _ _ => False | _ => True end.
Proof. induction v; try exact I; exact IHv. Qed.

Theorem encode_response_iff v len r : encode_response v len = Ok r <->
  exists st hs, answers (core v) st hs /\ r = mkRespb st (hs ++ [content_length len]).
Proof.
  unfold encode_response. rewrite ser_response_core. pose proof (core_not_newtype v) as K. generalize dependent (core v). clear v. intros v K.
  assert (X : forall s, (s <- s ;; finish_response len s) = Ok r <->
    exists c st hs, s = Ok (mkSser c (Some (mkRespb st hs))) /\ r = mkRespb st (hs ++ [content_length len])).
  { intros [[c [[st hs]|]]| | |]; cbn [bind finish_response ss_resp pb_status pb_headers].
    - split; [intros [= <-]; eauto 6|]. intros (c' & st' & hs' & [= -> -> ->] & ->). reflexivity.
    - split; [discriminate|]. intros (c' & st' & hs' & E & _). discriminate.
    - split; [discriminate|]. intros (c' & st' & hs' & E & _). discriminate.
    - split; [discriminate|]. intros (c' & st' & hs' & E & _). discriminate.
    - split; [discriminate|]. intros (c' & st' & hs' & E & _). discriminate. }
  rewrite X. clear X.
  assert (Bad : ser_response v sser_new = Err Invalid -> (forall st hs, ~ answers v st hs) ->
    (exists c st hs, ser_response v sser_new = Ok (mkSser c (Some (mkRespb st hs))) /\ r = mkRespb st (hs ++ [content_length len])) <->
    (exists st hs, answers v st hs /\ r = mkRespb st (hs ++ [content_length len]))).
  { intros E N. rewrite E. split; [intros (c & st & hs & D & _); discriminate|]. intros (st & hs & A & _). elim (N st hs A). }
  destruct v; try contradiction; try (apply Bad; [reflexivity | intros st hs A; inversion A]); clear Bad; cbn [ser_response].
  - (* unit variant *) split.
    + intros (c & st & hs & E & ->). apply set_status_iff in E. destruct E as (st' & S & [= -> -> ->]). exists st', []. split; [constructor; exact S | reflexivity].
    + intros (st & hs & A & ->). inversion A; subst. exists false, st, []. split; [|reflexivity]. apply set_status_iff. eauto.
  - (* struct *) destruct fs as [|[k v] fs].
    + split; [intros (c & st & hs & E & _); discriminate|]. intros (st & hs & A & _). inversion A.
    + cbn [resp_fields]. destruct (ustr_eqb_spec k (u "status")) as [->|N].
      * change (resp_field (u "status") v sser_new) with (resp_status v sser_new). split.
        -- intros (c & st & hs & E & ->). destruct (resp_status v sser_new) as [s1| | |] eqn:R; cbn [bind] in E; try discriminate.
           apply resp_status_iff in R. destruct R as (_ & z & st' & Z & C & ->). apply struct_iff in E.
           destruct E as (hv & ls & -> & F & [= -> -> ->]). exists st', (concat ls). split; [|reflexivity]. econstructor; eassumption.
        -- intros (st & hs & A & ->). inversion A as [| |? ? z ? hv ls Z C F]; subst.
           assert (R : resp_status v sser_new = Ok (mkSser false (Some (mkRespb st [])))).
           { apply resp_status_iff. split; [reflexivity|]. eauto. }
           rewrite R. cbn [bind]. exists false, st, (concat ls). split; [|reflexivity]. apply struct_iff. exists hv, ls. auto.
      * assert (Z : resp_field k v sser_new = Err Invalid).
        { unfold resp_field. apply ustr_eqb_neq in N. rewrite N. destruct (ustr_eqb k (u "header")); reflexivity. }
        rewrite Z. split; [intros (c & st & hs & E & _); discriminate|]. intros (st & hs & A & _). inversion A; subst. congruence.
  - (* struct variant *) split.
    + intros (c & st & hs & E & ->). destruct (set_variant_status _ sser_new) as [s1| | |] eqn:R; cbn [bind] in E; try discriminate.
      apply set_status_iff in R. destruct R as (st' & S & ->). apply variant_iff in E. destruct E as (hv & ls & -> & F & [= -> -> ->]).
      exists st', (concat ls). split; [|reflexivity]. constructor; assumption.
    + intros (st & hs & A & ->). inversion A as [|? ? ? hv ls S F|]; subst.
      rewrite (proj2 (set_status_iff _ _) (ex_intro _ st (conj S eq_refl))). cbn [bind]. exists false, st, (concat ls). split; [|reflexivity]. apply variant_iff. exists hv, ls. auto.
Qed.

Theorem encode_response_safe v len : safe (encode_response v len).
Proof.
  unfold encode_response. rewrite ser_response_core. apply safe_bind.
  - pose proof (core_not_newtype v) as K. destruct (core v); try exact I; try contradiction; cbn [ser_response].
    + unfold set_variant_status. destruct (name_ok_or_invalid variant) as [[st E]|E]; rewrite E; exact I.
    + destruct fs as [|[k w] fs]; [exact I|]. cbn [resp_fields]. apply safe_bind.
      * unfold resp_field. destruct (ustr_eqb k (u "status")); [apply resp_status_safe|]. destruct (ustr_eqb k (u "header")); exact I.
      * intros s E. unfold resp_field in E. destruct (ustr_eqb k (u "status")); [|destruct (ustr_eqb k (u "header")); discriminate].
        apply resp_status_iff in E. destruct E as (_ & z & st & _ & _ & ->).
        apply (fields_safe2 resp_field resp_fields (fun _ => eq_refl) (fun _ _ _ _ => eq_refl) field_header field_else).
    + apply safe_bind.
      * unfold set_variant_status. destruct (name_ok_or_invalid variant) as [[st E]|E]; rewrite E; exact I.
      * intros s E. apply set_status_iff in E. destruct E as (st & _ & ->).
        apply (fields_safe2 resp_variant_field resp_variant_fields (fun _ => eq_refl) (fun _ _ _ _ => eq_refl) vfield_header vfield_else).
  - intros s _. unfold finish_response. destruct (ss_resp s); exact I.
Qed.
End Write.
