(** * Proofs about problem documents and problem responses. *)
From Verif Require Import Base Utf8 Decimal Serde Status Json JsonText JsonSpec JsonProofs JsonDe JsonTrip ValueInd ScalarSpec FieldSpec SerHeader SerRequest SerResponse
  DeHeader DeResponse DepHttp FieldProofs HeaderProofs RequestArrives ResponseSpec ResponseProofs ResponseTrip Problem ProblemSpec.
Open Scope N_scope.

(** ** Reading an object member by member *)
Lemma assoc_none {A} k (l : list (ustr * A)) : ~ In k (map fst l) -> assoc k l = None.
Proof.
  induction l as [|[x v] l IH]; intros N; [reflexivity|]. cbn [assoc]. destruct (ustr_eqb k x) eqn:E.
  - apply ustr_eqb_eq in E. subst. elim N. left. reflexivity.
  - apply IH. intros I. apply N. right. exact I.
Qed.
Lemma assoc_app {A} k (l m : list (ustr * A)) : assoc k (l ++ m) = match assoc k l with Some v => Some v | None => assoc k m end.
Proof. induction l as [|[x v] l IH]; [reflexivity|]. cbn [app assoc]. destruct (ustr_eqb k x); [reflexivity | exact IH]. Qed.

Lemma obj_reads decs (val : ustr -> value) : forall l got, NoDup (map fst l) ->
  (forall k d j, assoc k decs = Some d -> assoc k l = Some j -> d j = Ok (val k)) ->
  (forall k, In k (map fst l) -> assoc k got = None) ->
  exists got', obj_loop decs got l = Ok got' /\
    forall k, assoc k got' = match assoc k got with
                             | Some v => Some v
                             | None => match assoc k decs, assoc k l with Some _, Some _ => Some (val k) | _, _ => None end
                             end.
Proof.
  induction l as [|[k j] l IH]; intros got ND D G.
  - exists got. split; [reflexivity|]. intros k. destruct (assoc k got); [reflexivity|]. destruct (assoc k decs); reflexivity.
  - cbn [map fst] in ND. inversion ND as [|? ? Nk ND']; subst. cbn [obj_loop].
    assert (D' : forall k0 d j0, assoc k0 decs = Some d -> assoc k0 l = Some j0 -> d j0 = Ok (val k0)).
    { intros k0 d j0 E1 E2. apply D; [exact E1|]. cbn [assoc]. destruct (ustr_eqb k0 k) eqn:E; [|exact E2].
      apply ustr_eqb_eq in E. subst. rewrite (assoc_none k l Nk) in E2. discriminate. }
    assert (Gk : assoc k got = None) by (apply G; left; reflexivity).
    destruct (assoc k decs) as [d|] eqn:Ek.
    + rewrite Gk. pose proof (D k d j Ek) as Q. cbn [assoc] in Q. rewrite ustr_eqb_refl in Q. rewrite (Q eq_refl). cbn [bind].
      destruct (IH (got ++ [(k, val k)]) ND' D') as (g & E & A).
      { intros x I. rewrite assoc_app, (G x) by (right; exact I). cbn [assoc]. destruct (ustr_eqb x k) eqn:Ex; [|reflexivity]. apply ustr_eqb_eq in Ex. subst. contradiction. }
      exists g. split; [exact E|]. intros x. rewrite A, assoc_app. destruct (assoc x got) eqn:Gx; [reflexivity|]. cbn [assoc].
      destruct (ustr_eqb x k) eqn:Ex; [|reflexivity]. apply ustr_eqb_eq in Ex. subst. rewrite Ek. reflexivity.
    + destruct (IH got ND' D') as (g & E & A).
      { intros x I. apply G. right. exact I. }
      exists g. split; [exact E|]. intros x. rewrite A. destruct (assoc x got); [reflexivity|]. cbn [assoc].
      destruct (ustr_eqb x k) eqn:Ex; [|reflexivity]. apply ustr_eqb_eq in Ex. subst. rewrite Ek. reflexivity.
Qed.

Definition untagged (l : list (ustr * json)) := filter (fun kv => negb (ustr_eqb (fst kv) (u "type"))) l.
Lemma untagged_keys l k : In k (map fst (untagged l)) <-> In k (map fst l) /\ k <> u "type".
Proof.
  unfold untagged. rewrite !in_map_iff. split.
  - intros (kv & <- & I). apply filter_In in I. destruct I as [I N]. apply negb_true_iff, ustr_eqb_neq in N. split; [exists kv; auto | exact N].
  - intros [(kv & <- & I) N]. exists kv. split; [reflexivity|]. apply filter_In. split; [exact I|]. apply negb_true_iff, ustr_eqb_neq. exact N.
Qed.
Lemma untagged_nodup l : NoDup (map fst l) -> NoDup (map fst (untagged l)).
Proof.
  induction l as [|[k j] l IH]; intros N; [constructor|]. inversion N as [|? ? Nk N']; subst. unfold untagged. cbn [filter]. fold (untagged l).
  destruct (negb (ustr_eqb (fst (k, j)) (u "type"))); [|apply IH, N']. cbn [map fst]. constructor; [|apply IH, N']. intros I. apply untagged_keys in I. tauto.
Qed.
Lemma untagged_assoc l k : k <> u "type" -> assoc k (untagged l) = assoc k l.
Proof.
  intros N. induction l as [|[x j] l IH]; [reflexivity|]. unfold untagged. cbn [filter fst assoc]. fold (untagged l). destruct (ustr_eqb x (u "type")) eqn:E; cbn [negb].
  - rewrite IH. destruct (ustr_eqb k x) eqn:Ek; [|reflexivity]. apply ustr_eqb_eq in E, Ek. congruence.
  - cbn [assoc]. rewrite IH. reflexivity.
Qed.
Lemma take_tag_found l : forall t rest, NoDup (map fst l) -> assoc (u "type") l = Some (JStr t) ->
  take_tag None rest l = Ok (t, rest ++ untagged l).
Proof.
  assert (Q : forall l t rest, assoc (u "type") l = None -> take_tag (Some t) rest l = Ok (t, rest ++ untagged l)).
  { clear. induction l as [|[k j] l IH]; intros t rest A; [cbn; rewrite app_nil_r; reflexivity|]. cbn [take_tag assoc] in *. unfold untagged. cbn [filter fst]. fold (untagged l).
    destruct (ustr_eqb_spec k (u "type")) as [->|N]; [rewrite ustr_eqb_refl in A; discriminate|]. apply not_eq_sym, ustr_eqb_neq in N. rewrite N in A.
    rewrite IH by exact A. cbn [negb]. rewrite <- app_assoc. reflexivity. }
  induction l as [|[k j] l IH]; intros t rest ND A; [discriminate|]. cbn [take_tag assoc] in *. inversion ND as [|? ? Nk ND']; subst. unfold untagged. cbn [filter fst]. fold (untagged l).
  destruct (ustr_eqb_spec k (u "type")) as [->|N].
  - rewrite ustr_eqb_refl in A. injection A as ->. cbn [negb]. apply Q. apply assoc_none, Nk.
  - apply not_eq_sym, ustr_eqb_neq in N. rewrite N in A. rewrite (IH t) by assumption. cbn [negb]. rewrite <- app_assoc. reflexivity.
Qed.

Section Proofs.
Context `{floatlib} `{jsonfloat}.
Variable url_norm : ustr -> option ustr.

Lemma from_strings h : arr_all (from_json TStr) (map JStr h) = Ok (map SStr h).
Proof. apply arr_all_ok. induction h; constructor; [reflexivity | assumption]. Qed.
Lemma strings_of h : strings (map SStr h) = h.
Proof. induction h as [|s h IH]; [reflexivity|]. cbn. f_equal. exact IH. Qed.

(** Every object that describes a problem is read as that problem. *)
Theorem describes_read l p : NoDup (map fst l) -> problem_status p < 65536 -> describes url_norm l p ->
  problem_of_json url_norm (JObj l) = Ok p.
Proof.
  intros ND R [St D]. assert (Ru : in_range U16 (Z.of_N (problem_status p)) = true) by (unfold in_range; cbn [imin imax]; lia).
  assert (Rt : forall t fs, assoc (u "type") l = Some (JStr t) -> forall (val : ustr -> value),
    (forall k ty j, assoc k fs = Some ty -> assoc k (untagged l) = Some j -> from_json ty j = Ok (val k)) ->
    exists got, tagged (JObj l) = Ok (t, JObj (untagged l)) /\ read_fields fs (JObj (untagged l)) = struct_fields fs got /\
      forall k, assoc k got = match assoc k fs, assoc k (untagged l) with Some _, Some _ => Some (val k) | _, _ => None end).
  { intros t fs At val V. assert (Am : forall k, assoc k (map (fun f : ustr * ty => (fst f, from_json (snd f))) fs) = option_map from_json (assoc k fs)).
    { intros k. clear. induction fs as [|[n ty] fs IH]; [reflexivity|]. cbn [map assoc fst snd]. destruct (ustr_eqb k n); [reflexivity | exact IH]. }
    destruct (obj_reads (map (fun f : ustr * ty => (fst f, from_json (snd f))) fs) val (untagged l) []) as (g & E & A).
    - apply untagged_nodup, ND.
    - intros k d j E1 E2. rewrite Am in E1. destruct (assoc k fs) eqn:Ef; [|discriminate]. injection E1 as <-. apply (V k t0); assumption.
    - reflexivity.
    - exists g. cbn [tagged]. rewrite (take_tag_found l t [] ND At). split; [reflexivity|]. split.
      + unfold read_fields, json_struct. rewrite E. reflexivity.
      + intros k. rewrite A. cbn [assoc]. rewrite Am. destruct (assoc k fs); reflexivity. }
  assert (Nt : forall n : ustr, ustr_eqb n (u "type") = false -> assoc n (untagged l) = assoc n l) by (intros n E; apply untagged_assoc, ustr_eqb_neq, E).
  destruct p as [title s|title s detail instance history]; cbn [problem_status] in *.
  - destruct D as [At Ti]. destruct (Rt about_tag about_fields At (fun k => if ustr_eqb k (u "title") then SStr title else SInt U16 (Z.of_N s))) as (g & E1 & E2 & A).
    + intros k ty j Ef Ej. unfold about_fields in Ef. cbn [assoc] in Ef. destruct (ustr_eqb k (u "title")) eqn:K1.
      * injection Ef as <-. apply ustr_eqb_eq in K1. subst. rewrite Nt, Ti in Ej by reflexivity. injection Ej as <-. reflexivity.
      * destruct (ustr_eqb k (u "status")) eqn:K2; [|discriminate]. injection Ef as <-. apply ustr_eqb_eq in K2. subst. rewrite Nt, St in Ej by reflexivity. injection Ej as <-. cbn [from_json]. rewrite Ru. reflexivity.
    + unfold problem_of_json. rewrite E1. cbn [bind]. rewrite ustr_eqb_refl, E2. unfold about_fields. cbn [struct_fields].
      rewrite !A, !Nt, Ti, St by reflexivity.
      change (assoc (u "title") about_fields) with (Some TStr). change (assoc (u "status") about_fields) with (Some (TInt U16)).
      change (ustr_eqb (u "title") (u "title")) with true. change (ustr_eqb (u "status") (u "title")) with false. cbn [bind]. rewrite N2Z.id. reflexivity.
  - destruct D as (At & Ti & De & Hi & In).
    set (inst := match assoc (u "instance") l with Some (JStr s) => Some s | _ => None end).
    assert (In' : says l (u "instance") JStr inst /\ match inst with Some s => exists n, instance = Some n /\ url_norm s = Some n | None => instance = None end).
    { unfold inst. destruct instance as [n|].
      - destruct In as (s0 & E & U). rewrite E. cbn [says]. split; [exact E | eauto].
      - destruct In as [E|E]; rewrite E; cbn [says]; auto. }
    clearbody inst. destruct In' as [In1 In2].
    set (val := fun k : ustr => if ustr_eqb k (u "title") then SStr title else if ustr_eqb k (u "status") then SInt U16 (Z.of_N s)
      else if ustr_eqb k (u "detail") then match detail with Some d => SSome (SStr d) | None => SNone end
      else if ustr_eqb k (u "instance") then match inst with Some d => SSome (SStr d) | None => SNone end
      else match history with Some h => SSome (SSeq (map SStr h)) | None => SNone end).
    destruct (Rt trackable_tag trackable_fields At val) as (g & E1 & E2 & A).
    + intros k ty j Ef Ej. unfold trackable_fields, about_fields in Ef. cbn [app assoc] in Ef. unfold val. destruct (ustr_eqb k (u "title")) eqn:K1.
      { injection Ef as <-. apply ustr_eqb_eq in K1. subst. rewrite Nt, Ti in Ej by reflexivity. injection Ej as <-. reflexivity. }
      destruct (ustr_eqb k (u "status")) eqn:K2.
      { injection Ef as <-. apply ustr_eqb_eq in K2. subst. rewrite Nt, St in Ej by reflexivity. injection Ej as <-. cbn [from_json]. rewrite Ru. reflexivity. }
      destruct (ustr_eqb k (u "detail")) eqn:K3.
      { injection Ef as <-. apply ustr_eqb_eq in K3. subst. rewrite Nt in Ej by reflexivity. destruct detail; cbn [says] in De; [|destruct De as [De|De]]; rewrite De in Ej; [|discriminate|]; injection Ej as <-; reflexivity. }
      destruct (ustr_eqb k (u "instance")) eqn:K4.
      { injection Ef as <-. apply ustr_eqb_eq in K4. subst. rewrite Nt in Ej by reflexivity. destruct inst; cbn [says] in In1; [|destruct In1 as [De'|De']; rename De' into In1]; rewrite In1 in Ej; [|discriminate|]; injection Ej as <-; reflexivity. }
      destruct (ustr_eqb k (u "history")) eqn:K5; [|discriminate].
      injection Ef as <-. apply ustr_eqb_eq in K5. subst. rewrite Nt in Ej by reflexivity. destruct history; cbn [says] in Hi; [|destruct Hi as [Hi|Hi]]; rewrite Hi in Ej; [|discriminate|]; injection Ej as <-; [|reflexivity].
      change (res_map SSome (vs <- arr_all (from_json TStr) (map JStr l0) ;; Ok (SSeq vs)) = Ok (SSome (SSeq (map SStr l0)))). rewrite from_strings. reflexivity.
    + unfold problem_of_json. rewrite E1. cbn [bind]. change (ustr_eqb trackable_tag about_tag) with false. rewrite ustr_eqb_refl, E2.
      assert (Opt : forall n t (o : option value) w, assoc n trackable_fields = Some (TOption t) -> ustr_eqb n (u "type") = false ->
        val n = match o with Some v => SSome v | None => SNone end -> (o = None -> assoc n l = None \/ assoc n l = Some w) -> (o <> None -> assoc n l <> None) ->
        (match assoc n g with Some v => Ok v | None => if is_option (TOption t) then Ok SNone else Err Invalid end) = Ok (val n)).
      { intros n t o w Ef Nn Vn On Os. rewrite A, Ef, Nt by exact Nn. destruct (assoc n l) eqn:El; [reflexivity|]. destruct o; [elim Os; congruence|]. rewrite Vn. reflexivity. }
      assert (S3 : (match assoc (u "detail") g with Some v => Ok v | None => if is_option (TOption TStr) then Ok SNone else Err Invalid end) = Ok (val (u "detail"))).
      { apply (Opt _ TStr (option_map SStr detail) JNull); try reflexivity; destruct detail; cbn [says option_map] in *; try congruence; try reflexivity; auto. }
      assert (S4 : (match assoc (u "instance") g with Some v => Ok v | None => if is_option (TOption TStr) then Ok SNone else Err Invalid end) = Ok (val (u "instance"))).
      { apply (Opt _ TStr (option_map SStr inst) JNull); try reflexivity; destruct inst; cbn [says option_map] in *; try congruence; try reflexivity; auto. }
      assert (S5 : (match assoc (u "history") g with Some v => Ok v | None => if is_option (TOption (TSeq TStr)) then Ok SNone else Err Invalid end) = Ok (val (u "history"))).
      { apply (Opt _ (TSeq TStr) (option_map (fun h => SSeq (map SStr h)) history) JNull); try reflexivity; destruct history; cbn [says option_map] in *; try congruence; try reflexivity; auto. }
      unfold trackable_fields at 1. unfold about_fields. cbn [app struct_fields].
      rewrite S3, S4, S5. rewrite !A, !Nt, Ti, St by reflexivity.
      change (assoc (u "title") trackable_fields) with (Some TStr). change (assoc (u "status") trackable_fields) with (Some (TInt U16)). cbn [bind].
      change (val (u "title")) with (SStr title). change (val (u "status")) with (SInt U16 (Z.of_N s)).
      change (val (u "detail")) with (match detail with Some d => SSome (SStr d) | None => SNone end).
      change (val (u "instance")) with (match inst with Some d => SSome (SStr d) | None => SNone end).
      change (val (u "history")) with (match history with Some h => SSome (SSeq (map SStr h)) | None => SNone end).
      cbv iota. rewrite N2Z.id.
      assert (Oi : opt_str (match inst with Some d => SSome (SStr d) | None => SNone end) = inst) by (destruct inst; reflexivity).
      assert (Od : opt_str (match detail with Some d => SSome (SStr d) | None => SNone end) = detail) by (destruct detail; reflexivity).
      rewrite Oi, Od. replace (match (match history with Some h => SSome (SSeq (map SStr h)) | None => SNone end) with SSome (SSeq l0) => Some (strings l0) | _ => None end) with history
        by (destruct history; [rewrite strings_of|]; reflexivity).
      destruct inst as [i|].
      * destruct In2 as (n & -> & ->). reflexivity.
      * subst instance. reflexivity.
Qed.

(** ** Writing *)
Lemma to_strings h : to_json (SSeq (map SStr h)) = Ok (JArr (map JStr h)).
Proof.
  change (to_json (SSeq (map SStr h))) with (js <- jlist (map SStr h) ;; Ok (JArr js)). replace (jlist (map SStr h)) with (Ok (map JStr h)); [reflexivity|].
  symmetry. apply jlist_ok. induction h; constructor; [reflexivity | assumption].
Qed.
Lemma problem_tree p : to_json (problem_value p) = Ok (JObj (document p)).
Proof.
  destruct p as [title s|title s detail instance history]; [reflexivity|].
  change (to_json (problem_value (Trackable title s detail instance history))) with
    (js <- jfields ([(u "type", SStr trackable_tag); (u "title", SStr title); (u "status", SInt U16 (Z.of_N s))] ++
         opt_member (u "detail") (option_map SStr detail) ++ opt_member (u "instance") (option_map SStr instance) ++
         opt_member (u "history") (option_map (fun h => SSeq (map SStr h)) history)) ;; Ok (JObj js)).
  match goal with |- (js <- jfields ?l ;; _) = _ => assert (E : jfields l = Ok (document (Trackable title s detail instance history))) end; [|rewrite E; reflexivity].
  apply jfields_ok. cbn [document app]. do 3 (constructor; [split; reflexivity|]).
  destruct detail; cbn [option_map opt_member member app]; [constructor; [split; reflexivity|]|];
  (destruct instance; cbn [option_map opt_member member app]; [constructor; [split; reflexivity|]|]);
  (destruct history; cbn [option_map opt_member member app]; [constructor; [split; [reflexivity | exact (to_strings l)]|]|]); constructor.
Qed.
Theorem problem_body_is p : problem_body p = Ok (utf8_encode (print_pretty 0 (JObj (document p)))).
Proof. unfold problem_body, to_json_string_pretty. rewrite problem_tree. reflexivity. Qed.
Lemma problem_absent title s detail instance history :
  (exists l, problem_body (Trackable title s detail instance history) = Ok (utf8_encode (print_pretty 0 (JObj l))) /\ let keys := map fst l in
    (In (u "detail") keys <-> detail <> None) /\ (In (u "instance") keys <-> instance <> None) /\ (In (u "history") keys <-> history <> None)) /\
  (exists l, problem_body (AboutBlank title s) = Ok (utf8_encode (print_pretty 0 (JObj l))) /\ map fst l = [u "type"; u "title"; u "status"]).
Proof.
  clear url_norm.
  split; [|exists (document (AboutBlank title s)); split; [apply problem_body_is | reflexivity]].
  exists (document (Trackable title s detail instance history)). split; [apply problem_body_is|].
  cbv zeta. destruct detail, instance, history; cbn [document option_map member app map fst In]; repeat split; intros Q; try discriminate; try tauto;
    repeat (destruct Q as [Q|Q]; [discriminate|]); try contradiction; elim Q; reflexivity.
Qed.

(** The characters of the text are characters. *)
Fixpoint text_ok (j : json) : bool :=
  match j with
  | JFloat t | JStr t => str_ok t
  | JArr l => forallb text_ok l
  | JObj l => forallb (fun kv => str_ok (fst kv) && text_ok (snd kv)) l
  | _ => true
  end.
Lemma str_ok_app a b : str_ok (a ++ b) = str_ok a && str_ok b.
Proof. apply forallb_app. Qed.
Lemma quote_ok s : str_ok s = true -> str_ok (quote s) = true.
Proof.
  intros S. unfold quote. change (34 :: flat_map esc_char s ++ [34]) with ([34] ++ flat_map esc_char s ++ [34]). rewrite !str_ok_app. rewrite andb_true_iff. split; [reflexivity|]. rewrite andb_true_r.
  induction s as [|c s IH]; [reflexivity|]. cbn [str_ok forallb flat_map] in *. apply andb_true_iff in S. destruct S as [Sc S]. change (str_ok (esc_char c ++ flat_map esc_char s) = true). rewrite str_ok_app, (IH S), andb_true_r.
  unfold esc_char. repeat match goal with |- context [if ?b then _ else _] => destruct b eqn:?; [try reflexivity|] end.
  - assert (Hx : forall n, n < 16 -> is_scalar (hexlow n) = true) by (intros n L; unfold hexlow, is_scalar; destruct (n <? 10) eqn:?; lia).
    unfold str_ok. cbn [forallb]. rewrite !Hx; [reflexivity | apply N.mod_upper_bound; lia | apply N.div_lt_upper_bound; lia].
  - cbn. rewrite Sc. reflexivity.
Qed.
Lemma join_ok sep l : str_ok sep = true -> Forall (fun x => str_ok x = true) l -> str_ok (join sep l) = true.
Proof.
  intros S F. induction F as [|x l Hx F IH]; [reflexivity|]. destruct l as [|y l]; [exact Hx|].
  change (join sep (x :: y :: l)) with (x ++ sep ++ join sep (y :: l)). rewrite !str_ok_app, Hx, S, IH. reflexivity.
Qed.
Lemma newline_ok n : str_ok (newline n) = true.
Proof. unfold newline. cbn [str_ok forallb]. change (is_scalar 10) with true. cbn [andb]. generalize (2 * n)%nat. induction n0; [reflexivity|]. exact IHn0. Qed.
Lemma print_ok j : text_ok j = true -> forall ind, str_ok (print_pretty ind j) = true.
Proof.
  induction j as [|b|z|t|s|l IH|l IH] using json_ind2; intros T ind.
  - reflexivity.
  - destruct b; reflexivity.
  - pose proof (show_int_chars z) as C. unfold str_ok. revert C. apply forallb_impl. intros c. cbv beta. unfold is_digit, is_scalar. lia.
  - exact T.
  - apply quote_ok, T.
  - destruct l as [|x l]; [reflexivity|]. cbn [print_pretty]. cbn [text_ok] in T. rewrite forallb_forall in T. rewrite Forall_forall in IH. rewrite !str_ok_app, newline_ok.
    change (str_ok [91]) with true. change (str_ok [93%N]) with true. cbn [andb]. rewrite andb_true_r. apply join_ok; [reflexivity|]. apply Forall_map, Forall_forall. intros y I.
    rewrite str_ok_app, newline_ok. apply IH; auto.
  - destruct l as [|x l]; [reflexivity|]. cbn [print_pretty]. cbn [text_ok] in T. rewrite forallb_forall in T. rewrite Forall_forall in IH. rewrite !str_ok_app, newline_ok.
    change (str_ok [123]) with true. change (str_ok [125%N]) with true. cbn [andb]. rewrite andb_true_r. apply join_ok; [reflexivity|]. apply Forall_map, Forall_forall. intros y I.
    specialize (T y I). cbv beta in T. apply andb_true_iff in T. destruct T as [T1 T2]. rewrite !str_ok_app, newline_ok, quote_ok by exact T1. change (str_ok [58; 32%N]) with true. cbn [andb]. apply IH; auto.
Qed.

Lemma document_keys p : NoDup (map fst (document p)).
Proof.
  destruct p as [title s|title s detail instance history]; [apply nodup_names_NoDup; reflexivity|].
  apply nodup_names_NoDup. destruct detail, instance, history; reflexivity.
Qed.
Lemma document_describes p : problem_ok url_norm p -> describes url_norm (document p) p.
Proof.
  intros [_ O]. destruct p as [title s|title s detail instance history].
  - repeat split.
  - destruct O as (_ & _ & Oi & _). unfold describes. cbn [problem_status].
    assert (Q : forall n, ustr_eqb n (u "type") = false -> ustr_eqb n (u "title") = false -> ustr_eqb n (u "status") = false ->
      assoc n (document (Trackable title s detail instance history)) = assoc n (member (u "detail") (option_map JStr detail) ++ member (u "instance") (option_map JStr instance) ++
      member (u "history") (option_map (fun h => JArr (map JStr h)) history))).
    { intros n E1 E2 E3. cbn [document app assoc]. rewrite E1, E2, E3. reflexivity. }
    assert (Q1 := Q (u "detail") eq_refl eq_refl eq_refl). assert (Q2 := Q (u "instance") eq_refl eq_refl eq_refl). assert (Q3 := Q (u "history") eq_refl eq_refl eq_refl).
    assert (M : forall a b (o : option json), assoc a (member b o) = if ustr_eqb a b then o else None).
    { intros a b [j|]; cbn [member assoc]; destruct (ustr_eqb a b); reflexivity. }
    rewrite !assoc_app, !M in Q1, Q2, Q3.
    change (ustr_eqb (u "detail") (u "detail")) with true in *. change (ustr_eqb (u "instance") (u "detail")) with false in *. change (ustr_eqb (u "history") (u "detail")) with false in *.
    change (ustr_eqb (u "detail") (u "instance")) with false in *. change (ustr_eqb (u "instance") (u "instance")) with true in *. change (ustr_eqb (u "history") (u "instance")) with false in *.
    change (ustr_eqb (u "detail") (u "history")) with false in *. change (ustr_eqb (u "instance") (u "history")) with false in *. change (ustr_eqb (u "history") (u "history")) with true in *.
    cbv iota in Q1, Q2, Q3. split; [reflexivity|]. split; [reflexivity|]. split; [reflexivity|]. unfold says. split; [|split].
    + rewrite Q1. destruct detail; cbn [option_map]; auto.
    + rewrite Q3. destruct history; cbn [option_map]; auto.
    + rewrite Q2. destruct instance as [i|]; cbn [option_map]; auto. exists i. split; [reflexivity|]. apply (Oi i eq_refl).
Qed.
Lemma document_text p : problem_ok url_norm p -> text_ok (JObj (document p)) = true.
Proof.
  intros [_ O]. destruct p as [title s|title s detail instance history]; cbn [text_ok document].
  - cbn [forallb fst snd text_ok]. rewrite O. reflexivity.
  - destruct O as (Ot & Od & Oi & Oh). rewrite !forallb_app. cbn [forallb fst snd text_ok]. rewrite Ot. change (str_ok trackable_tag) with true.
    destruct detail as [d|]; cbn [option_map member forallb fst snd text_ok]; rewrite ?(Od _ eq_refl);
    (destruct instance as [i|]; cbn [option_map member forallb fst snd text_ok]; rewrite ?(proj1 (Oi _ eq_refl)));
    (destruct history as [h|]; cbn [option_map member forallb fst snd text_ok]; [|reflexivity]);
    replace (forallb text_ok (map JStr h)) with true; try reflexivity; symmetry; pose proof (Oh h eq_refl) as F; clear - F; induction F; cbn [map forallb text_ok]; rewrite ?H; auto.
Qed.
Lemma document_numbers p : problem_status p < 65536 -> numbers_ok (JObj (document p)).
Proof.
  intros R. apply numbers_obj. assert (I64 : numbers_ok (JInt (Z.of_N (problem_status p)))) by (cbn [numbers_ok]; unfold int64; lia).
  destruct p as [title s|title s detail instance history]; cbn [problem_status document] in *.
  - do 2 (constructor; [exact I|]). constructor; [exact I64 | constructor].
  - apply Forall_app. split; [do 2 (constructor; [exact I|]); constructor; [exact I64 | constructor]|]. rewrite !Forall_app. split; [destruct detail; repeat constructor|]. split; [destruct instance; repeat constructor|].
    destruct history as [h|]; cbn [option_map member]; [|constructor]. constructor; [|constructor]. apply numbers_arr. induction h; constructor; [exact I | assumption].
Qed.
Lemma document_nesting p : (nesting (JObj (document p)) < 128)%nat.
Proof.
  assert (Hh : forall h, (nesting (JArr (map JStr h)) <= 1)%nat).
  { intros h. cbn [nesting]. assert (E : fold_right (fun j n => Nat.max (nesting j) n) 0%nat (map JStr h) = 0%nat) by (induction h; [reflexivity | exact IHh]). rewrite E. lia. }
  destruct p as [title s|title s detail instance history]; [vm_compute; lia|].
  assert (E : (nesting (JObj (document (Trackable title s detail instance history))) <= 2)%nat); [|lia].
  destruct history as [h|]; [specialize (Hh h)|]; destruct detail, instance; cbn [document option_map member app]; cbn [nesting map fst snd fold_right] in *; lia.
Qed.
Theorem problem_trip p : problem_ok url_norm p -> (b <- problem_body p ;; problem_read url_norm b) = Ok p.
Proof.
  intros O. pose proof O as [R _]. rewrite problem_body_is. cbn [bind]. unfold problem_read. rewrite utf8_decode_encode by (apply print_ok, document_text, O).
  pose proof (parse_json_complete (JObj (document p)) _ [] [] (print_pretty_text _ (document_numbers p R) 0) ws_any ws_any (document_nesting p)) as P. rewrite app_nil_r in P. cbn [app] in P. rewrite P. cbn [bind].
  apply describes_read; [apply document_keys | exact R | apply document_describes, O].
Qed.
(** Any spelling of any object that describes the problem. *)
Theorem problem_spelling l p t w w' : NoDup (map fst l) -> problem_status p < 65536 -> describes url_norm l p ->
  str_ok (w ++ t ++ w') = true -> jtext (JObj l) t -> ws w -> ws w' -> (nesting (JObj l) < 128)%nat ->
  problem_read url_norm (utf8_encode (w ++ t ++ w')) = Ok p.
Proof.
  intros ND R D O T W W' Ne. unfold problem_read. rewrite utf8_decode_encode by exact O. rewrite (parse_json_complete (JObj l) t w w' T W W' Ne). cbn [bind]. apply describes_read; assumption.
Qed.

(** ** Responses *)
Lemma pr_answers r s st : pr_status r = Some s -> s < 65536 -> code_of st = s -> answers (pr_value r) st [(u "content-type", problem_json_type)].
Proof.
  intros Es R C. unfold pr_value. rewrite Es. apply (AStruct (u "ProblemResponse") (SSome (SInt U16 (Z.of_N s))) (Z.of_N s) st
    [SStruct (u "ProblemHeader") [(u "content-type", SUnitStruct problem_json_type)]] [[(u "content-type", problem_json_type)]]).
  - cbn [status_number]. replace ((0 <=? Z.of_N s)%Z && (Z.of_N s <=? 65535)%Z) with true by lia. reflexivity.
  - rewrite N2Z.id. exact C.
  - constructor; [reflexivity | constructor].
Qed.
(** The status sent is the one taken when the response was made. *)
Theorem presp_sent r s len : pr_status r = Some s -> s < 65536 ->
  (forall st, code_of st = s -> encode_response (pr_value r) len = Ok (mkRespb st [(u "content-type", problem_json_type); content_length len])) /\
  (~ known_code s -> encode_response (pr_value r) len = Err Invalid).
Proof.
  intros Es R. split.
  - intros st C. apply (encode_answers (pr_value r) st [(u "content-type", problem_json_type)] len). apply (pr_answers r s st Es R C).
  - intros K. pose proof (encode_response_safe (pr_value r) len) as S. destruct (encode_response (pr_value r) len) as [x|e| |] eqn:E; try contradiction.
    + apply encode_response_iff in E. destruct E as (st & hs & A & _). unfold pr_value in A. rewrite Es in A. cbn [core] in A. inversion A as [| |? ? ? ? ? ? Z C]; subst.
      cbn [status_number] in Z. replace ((0 <=? Z.of_N s)%Z && (Z.of_N s <=? 65535)%Z) with true in Z by lia. injection Z as <-. rewrite N2Z.id in C. elim K. rewrite <- C. apply code_is_known.
    + unfold encode_response, pr_value in E. rewrite Es in E. cbn [ser_response resp_fields] in E. change (resp_field (u "status") (SSome (SInt U16 (Z.of_N s))) sser_new) with (resp_status (SSome (SInt U16 (Z.of_N s))) sser_new) in E.
      unfold resp_status in E. cbn [sser_new ss_conn assert_invalid bind to_json_string to_json print_json] in E. rewrite show_int_u16 in E.
      replace ((0 <=? Z.of_N s)%Z && (Z.of_N s <=? 65535)%Z) with true in E by lia. cbn [ok_or_invalid bind] in E. rewrite N2Z.id in E.
      destruct (normalize s) as [st|] eqn:Nm; [|cbn in E; congruence]. apply normalize_iff in Nm. elim K. rewrite <- Nm. apply code_is_known.
Qed.

Lemma type_header_read len : exists s', de_header (TStruct (u "ProblemHeader") [(u "content-type", TUnitStruct problem_json_type)])
  (hde_new [(u "content-type", problem_json_type); content_length len]) = Ok (SStruct (u "ProblemHeader") [(u "content-type", SUnitStruct problem_json_type)], s').
Proof.
  destruct (header_trip (u "ProblemHeader") [(u "content-type", TUnitStruct problem_json_type)] [(u "content-type", SUnitStruct problem_json_type)]) as (l & W & _ & D).
  - apply nodup_names_NoDup. reflexivity.
  - repeat constructor; discriminate.
  - repeat constructor.
  - assert (E : l = [(u "content-type", problem_json_type)]).
    { change (Some [(u "content-type", utf8_encode problem_json_type)] = Some l) in W. injection W as <-. reflexivity. }
    subst l. apply D.
Qed.

Context `{httpenv}.
(** A problem response of a known status, read by a client through the newtype variant of that status. *)
Theorem problem_arrives reason p q len n variants x st : problem_ok url_norm p -> code_of st = problem_status q -> problem_status q < 65536 ->
  status_from_str x = Ok st -> assoc x variants = Some (VNewtype pr_ty) ->
  exists r hs b v, encode_response (pr_value (set_problem (into_response q) p)) len = Ok r /\ pr_body (set_problem (into_response q) p) = Ok b /\
    pb_status r = st /\ deliver (pb_headers r) = Some hs /\
    de_response (code_of (pb_status r)) hs (TEnum n variants) = Ok (SNewtypeVariant n x v) /\
    exists d, pr_decoded reason v = Some d /\ pr_set_body url_norm d b = mkPresp None p.
Proof.
  intros O C R X A. destruct (presp_sent (set_problem (into_response q) p) (problem_status q) len eq_refl R) as [S _].
  exists (mkRespb st [(u "content-type", problem_json_type); content_length len]), [(u "content-type", problem_json_type); content_length len],
    (utf8_encode (print_pretty 0 (JObj (document p)))),
    (SStruct (u "ProblemResponse") [(u "status", SNone); (u "header", SStruct (u "ProblemHeader") [(u "content-type", SUnitStruct problem_json_type)])]).
  split; [apply S, C|]. split; [apply problem_body_is|]. split; [reflexivity|]. split; [apply deliver_safe; exact (safe_app_len [(u "content-type", problem_json_type)] len eq_refl)|]. split.
  - apply de_response_enum. exists x, (VNewtype pr_ty). split; [apply names_and_codes, X|]. split; [exact A|].
    eexists _, SHeader. split; [|reflexivity]. cbn [pb_status pb_headers]. unfold pr_ty. cbn [de_response_from].
    match goal with |- context [visit_struct 4 resp_next_field ?a ?b ?c SStatus] => assert (V : visit_struct 4 resp_next_field a b c SStatus =
      Ok ([(u "status", SNone); (u "header", SStruct (u "ProblemHeader") [(u "content-type", SUnitStruct problem_json_type)])], SHeader)) end; [|rewrite V; reflexivity].
    apply (read_struct (code_of st) _ false). { apply nodup_names_NoDup. reflexivity. }
    split; [reflexivity|]. split; [discriminate|]. constructor; [|constructor; [|constructor]]; split; try reflexivity.
    + split; reflexivity.
    + exact (type_header_read len).
  - eexists. split; [reflexivity|]. unfold pr_set_body. pose proof (problem_trip p O) as T. rewrite problem_body_is in T. cbn [bind] in T. rewrite T. reflexivity.
Qed.

(** As a response type of its own it is never read. *)
Theorem presp_undecodable code hs : de_response code hs pr_ty = Err Invalid.
Proof. reflexivity. Qed.
Theorem optional_status_unreadable code hs n fs t v : NoDup (map fst fs) -> In (u "status", TOption t) fs -> de_response code hs (TStruct n fs) <> Ok v.
Proof.
  intros ND I E. assert (exists vs, v = SStruct n vs) as [vs ->].
  { unfold de_response in E. cbn [de_response_from] in E. destruct (visit_struct _ _ _ _ _ _) as [[? ?]| | |]; cbn [bind] in E; try discriminate. injection E as <-. eauto. }
  apply de_response_struct in E; [|exact ND]. destruct E as [_ F]. clear ND. induction F as [|f w fs vs [_ P] F IH]; [destruct I|]. destruct I as [->|I]; [|apply IH, I]. cbn in P. discriminate P.
Qed.
End Proofs.
