(** * Requests and responses are decoded exactly as their parts mean (C55, C56). *)
From Verif Require Import Base Utf8 Decimal DepUrl Serde Status Procedure DePath DeQuery DeHeader DeRequest DeResponse.
From Verif Require Import ScalarSpec PathSpec FieldSpec FieldProofs JsonTypeSpec StatusSpec StatusProofs DecodeSpec ValueInd TypeSpec PathProofs QueryProofs HeaderProofs RequestTrip ResponseTrip TypeProofs JsonType ServerProofs DecodeProofs.
From Verif Require Import PathSpec.
Open Scope N_scope.

Section DecodeExact.
Context `{floatlib}.

(** ** The path *)
Section Path.
Variables (ep : entry_point) (segs : list ustr).
Let s0 := mkPde false segs ep (var_count ep).
Lemma scalar_exact t v : readable t = true -> (exists s', de_path t s0 = Ok (v, s')) <-> exists e, var_texts ep segs 1 = Some [e] /\ reads t e v.
Proof.
  intros R. rewrite (de_scalar t s0 R). unfold next_value. cbn [s0 pd_rest pd_segs pd_free pd_in_seq]. split.
  - intros [s' E]. pose proof (next_value_spec ep segs (var_count ep) eq_refl) as NV.
    destruct (next_value_loop ep segs (var_count ep)) as [[e [segs' [rest' free']]]| | |]; cbn [bind] in E; try discriminate.
    destruct NV as (cs & E1 & E2 & _). exists e. rewrite E1, E2, var_texts_consts. cbn [var_texts]. split; [destruct rest' as [|[|] ]; reflexivity|].
    apply path_dec_spec. destruct (path_dec t e) as [w| | |]; cbn [bind] in E; congruence.
  - intros (e & V & Rd). destruct (next_value_complete _ _ _ _ _ _ eq_refl V) as (segs' & rest' & free' & NV & _).
    rewrite NV. cbn [bind]. apply path_dec_spec in Rd. rewrite Rd. cbn [bind]. eauto.
Qed.
Lemma tuple_exact ts vs : (exists s', visit_tuple path_next (map de_path ts) (mkPde true segs ep (var_count ep)) = Ok (vs, s')) <->
  exists es, var_texts ep segs (length ts) = Some es /\ Forall2 (fun te v => reads (fst te) (snd te) v) (combine ts es) vs.
Proof.
  pose proof (de_tuple_iff ep segs ts vs) as T. cbn [de_path] in T. unfold path_enter in T. cbn [pd_in_seq negb assert_invalid bind pd_segs pd_rest pd_free] in T.
  transitivity (exists es, var_texts ep segs (length ts) = Some es /\ length vs = length ts /\
    forall i t e v, nth_error ts i = Some t -> nth_error es i = Some e -> nth_error vs i = Some v -> reads t e v).
  - rewrite <- T. split; intros [s' E]; exists s'.
    + rewrite E. reflexivity.
    + destruct (visit_tuple _ _ _) as [[ws s'']| | |]; cbn [bind] in E; congruence.
  - split; intros (es & V & R); exists es; (split; [exact V|]); apply (Forall2_combine reads); auto; apply (var_texts_length _ _ _ _ V).
Qed.
Theorem path_exact t : forall v, (exists s', de_path t s0 = Ok (v, s')) <-> path_means ep segs t v.
Proof.
  assert (NR : forall t e v, readable t = false -> ~ reads t e v) by (intros t0 e v R (s & _ & Q); apply read_readable in Q; congruence).
  assert (SC : forall t v, readable t = true -> (forall n t', t <> TNewtype n t') -> (exists s', de_path t s0 = Ok (v, s')) <-> path_means ep segs t v).
  { intros t0 v R N. rewrite (scalar_exact t0 v R). split; [intros (e & V & Rd); apply (PmOne ep segs t0 e v V Rd)|].
    intros P. inversion P; subst; try discriminate; eauto. elim (N n t1 eq_refl). }
  induction t; intros v; try (apply SC; [reflexivity | discriminate]).
  all: try (split; [intros [s' E]; discriminate E | intros P; inversion P; subst; match goal with R : reads _ _ _ |- _ => apply NR in R; [contradiction|reflexivity] end]).
  - (* newtype *) cbn [de_path]. split.
    + intros [s' E]. destruct (de_path t s0) as [[w s'']| | |] eqn:D; cbn [bind] in E; try discriminate. injection E as <- <-. apply PmNewtype, IHt. eauto.
    + intros P. inversion P as [t0 e w V Rd|n0 t0 w P'| | |]; subst.
      * destruct Rd as (s & U & Q). cbn [read_scalar] in Q. destruct (read_scalar t s) as [w|] eqn:RS; [|discriminate]. injection Q as <-.
        assert (M : path_means ep segs t w) by (apply (PmOne _ _ t e); [exact V | exists s; auto]).
        apply IHt in M. destruct M as [s' ->]. cbn [bind]. eauto.
      * apply IHt in P'. destruct P' as [s' ->]. cbn [bind]. eauto.
  - (* seq *) split.
    + intros [s' E]. assert (X : exists vs, v = SSeq vs).
      { cbn [de_path] in E. unfold path_enter in E. cbn [s0 pd_in_seq negb assert_invalid bind] in E. destruct (visit_seq _ _ _ _) as [[vs s'']| | |]; cbn [bind] in E; try discriminate.
        injection E as <- _. eauto. }
      destruct X as [vs ->]. destruct (proj1 (de_vec_iff ep segs t vs) (ex_intro _ s' E)) as (es & W & F). apply (PmSeq ep segs t es vs W F).
    + intros P. inversion P as [t0 e w V Rd| | | |t0 es vs W F]; subst; [apply NR in Rd; [contradiction|reflexivity]|]. apply de_vec_iff. eauto.
  - cbn [de_path]. unfold path_enter. cbn [s0 pd_in_seq negb assert_invalid bind pd_segs pd_rest pd_free]. split.
    + intros [s' E]. destruct (visit_tuple _ _ _) as [[vs s'']| | |] eqn:T; cbn [bind] in E; try discriminate. injection E as <- _.
      destruct (proj1 (tuple_exact ts vs) (ex_intro _ _ T)) as (es & V & F). apply (PmTuple ep segs ts es vs V F).
    + intros P. inversion P as [t0 e w V Rd| |ts0 es vs V F| |]; subst; [apply NR in Rd; [contradiction|reflexivity]|].
      destruct (proj2 (tuple_exact ts vs)) as [s' ->]; [eauto|]. cbn [bind]. eauto.
  - cbn [de_path]. unfold path_enter. cbn [s0 pd_in_seq negb assert_invalid bind pd_segs pd_rest pd_free]. split.
    + intros [s' E]. destruct (visit_tuple _ _ _) as [[vs s'']| | |] eqn:T; cbn [bind] in E; try discriminate. injection E as <- _.
      destruct (proj1 (tuple_exact ts vs) (ex_intro _ _ T)) as (es & V & F). apply (PmTupleStruct ep segs name ts es vs V F).
    + intros P. inversion P as [t0 e w V Rd| | |n0 ts0 es vs V F|]; subst; [apply NR in Rd; [contradiction|reflexivity]|].
      destruct (proj2 (tuple_exact ts vs)) as [s' ->]; [eauto|]. cbn [bind]. eauto.
Qed.
End Path.

(** ** Pairs *)
Lemma map_of_exact {X} (rk rv : X -> res value) : forall l m r, map_of rk rv m l = Ok r <->
  exists kvs, Forall2 (fun p kv => rk (fst p) = Ok (fst kv) /\ rv (snd p) = Ok (snd kv)) l kvs /\ r = fold_left (fun m kv => put m (fst kv) (snd kv)) kvs m.
Proof.
  induction l as [|[a b] l IH]; intros m r; cbn [map_of].
  - split; [intros [= <-]; exists []; split; [constructor | reflexivity] | intros (kvs & F & ->); inversion F; reflexivity].
  - split.
    + destruct (rk a) as [k| | |] eqn:K; try discriminate. destruct (rv b) as [v| | |] eqn:V; try discriminate. cbn [bind]. intros E.
      apply IH in E. destruct E as (kvs & F & ->). exists ((k, v) :: kvs). split; [constructor; auto|]. cbn [fold_left fst snd]. rewrite put_insert. reflexivity.
    + intros (kvs & F & ->). inversion F as [|? [k v] ? kvs' [K V] F']; subst. cbn [fst snd] in K, V. rewrite K, V. cbn [bind]. apply IH. exists kvs'.
      split; [exact F'|]. cbn [fold_left fst snd]. rewrite put_insert. reflexivity.
Qed.
(** Types one text is read as, other than options and newtypes of them. *)
Definition plain (t : ty) : bool := match t with TOption _ | TNewtype _ _ | TMap _ _ | TStruct _ _ => false | _ => true end.

Lemma query_plain l t : plain t = true -> de_query t (qde_new l) =
  match l with [] => match query_read t [] with Err Other => Err Other | _ => Err Invalid end | (k, x) :: r => (v <- query_read t k ;; Ok (v, mkQde false (Some x) r)) end.
Proof.
  intros P. destruct l as [|[k x] r]; destruct t; try discriminate P; cbn [de_query query_read]; unfold query_scalar, query_unit, next_str, qde_new; cbn [qd_pending qd_rest qd_in_map bind];
    try reflexivity; try (match goal with |- context [read_scalar ?t []] => destruct (read_scalar t []); reflexivity end).
  all: try (destruct (ustr_eqb k []); reflexivity).
  - cbn [read_scalar]. unfold parse_bool. destruct (ustr_eqb k (u "true")); [reflexivity|]. destruct (ustr_eqb k (u "false")); reflexivity.
  - cbn [read_scalar]. destruct (parse_int k0 k); reflexivity.
  - cbn [read_scalar]. destruct (fparse32 k); reflexivity.
  - cbn [read_scalar]. destruct (fparse64 k); reflexivity.
Qed.
Lemma query_first t : forall l k x r v, l = (k, x) :: r -> query_read t k = Ok v -> exists s', de_query t (qde_new l) = Ok (v, s').
Proof.
  induction t; intros l k0 x r v E Q; cbn [query_read] in Q; try discriminate;
    try (match goal with |- exists s', de_query ?t _ = _ => rewrite (query_plain l t eq_refl), E; cbn [query_read]; rewrite Q; cbn [bind]; eauto; fail end).
  - apply res_map_Ok in Q. destruct Q as (w & Q & ->). destruct (IHt l k0 x r w E Q) as [s' D]. cbn [de_query]. rewrite D. cbn [bind]. eauto.
  - apply res_map_Ok in Q. destruct Q as (w & Q & ->). destruct (IHt l k0 x r w E Q) as [s' D]. cbn [de_query]. rewrite D. cbn [bind]. eauto.
Qed.
Theorem query_exact l t : wf_ty t = true -> forall v, (exists s', de_query t (qde_new l) = Ok (v, s')) <-> query_means l t v.
Proof.
  assert (PL : forall t v, plain t = true -> (exists s', de_query t (qde_new l) = Ok (v, s')) <-> query_means l t v).
  { intros t0 v P. split.
    - intros [s' E]. rewrite (query_plain l t0 P) in E. destruct l as [|[k x] r]; [destruct (query_read t0 []) as [|[]| |]; discriminate|].
      destruct (query_read t0 k) as [w| | |] eqn:Q; cbn [bind] in E; try discriminate. injection E as <- _. apply (PaFirst _ _ _ t0 k x r w eq_refl Q).
    - intros Q. inversion Q; subst; try discriminate P. eapply query_first; eauto. }
  induction t; intros W v; try (apply PL; reflexivity); cbn [wf_ty] in W.
  - cbn [de_query]. split.
    + intros [s' E]. destruct (de_query t (qde_new l)) as [[w s'']| | |] eqn:D; cbn [bind] in E; try discriminate. injection E as <- <-. apply PaOption, (IHt W). eauto.
    + intros Q. inversion Q as [t0 k x r w E R|t0 w M| | |]; subst.
      * exact (query_first (TOption t) _ _ _ _ _ eq_refl R).
      * apply (IHt W) in M. destruct M as [s' ->]. cbn [bind]. eauto.
  - cbn [de_query]. split.
    + intros [s' E]. destruct (de_query t (qde_new l)) as [[w s'']| | |] eqn:D; cbn [bind] in E; try discriminate. injection E as <- <-. apply PaNewtype, (IHt W). eauto.
    + intros Q. inversion Q as [t0 k x r w E R| |n0 t0 w M| |]; subst.
      * exact (query_first (TNewtype name t) _ _ _ _ _ eq_refl R).
      * apply (IHt W) in M. destruct M as [s' ->]. cbn [bind]. eauto.
  - destruct (de_query_map t1 t2 l) as [s1 E1]. rewrite E1. split.
    + intros [s' E]. destruct (map_of _ _ _ _) as [m| | |] eqn:M; cbn [bind] in E; try discriminate. injection E as <- _.
      apply map_of_exact in M. destruct M as (kvs & F & ->). apply PaMap, F.
    + intros Q. inversion Q as [t0 k x r w E R| | |tk tv kvs F|]; subst; [discriminate R|].
      rewrite (proj2 (map_of_exact _ _ l [] _) (ex_intro _ kvs (conj F eq_refl))). cbn [bind]. eauto.
  - apply andb_prop in W. destruct W as [W _]. apply nodup_names_NoDup in W. split.
    + intros [s' E]. assert (X : exists vs, v = SStruct name vs).
      { cbn [de_query] in E. destruct (query_enter _); cbn [bind] in E; try discriminate. destruct (visit_struct _ _ _ _ _ _) as [[vs s'']| | |]; cbn [bind] in E; try discriminate.
        injection E as <- _. eauto. }
      destruct X as [vs ->]. apply PaStruct. apply (de_query_struct name fs l vs W). eauto.
    + intros Q. inversion Q as [t0 k x r w E R| | | |n0 fs0 vs F]; subst; [discriminate R|]. apply (de_query_struct name fs l vs W), F.
Qed.

Lemma ok_or_invalid_cases {A} (o : option A) : (exists a, ok_or_invalid o = Ok a) \/ ok_or_invalid o = Err Invalid.
Proof. destruct o; cbn; eauto. Qed.
Lemma header_plain hs t : plain t = true -> de_header t (hde_new hs) =
  match hs with [] => match header_read t [] with Err Other => Err Other | _ => Err Invalid end | (k, x) :: r => (v <- header_read t (utf8_encode (lowercase k)) ;; Ok (v, mkHde false true hs)) end.
Proof.
  intros P. destruct hs as [|[k x] r]; destruct t; try discriminate P; cbn [de_header header_read]; unfold header_scalar, header_str, next_bytes, hde_new; cbn [hd_value hd_rest hd_in_map bind];
    try reflexivity.
  all: try (change (utf8_decode []) with (Some (@nil N)); cbv iota; first [match goal with |- context [read_scalar ?t []] => destruct (ok_or_invalid_cases (read_scalar t [])) as [[? ->]| ->]; reflexivity end | destruct (ustr_eqb [] name); reflexivity]).
  all: try (destruct (utf8_decode _) as [y|]; cbn [ok_or_invalid bind]; [|reflexivity]; try reflexivity).
  all: try (match goal with |- context [ustr_eqb ?z ?m] => destruct (ustr_eqb z m); reflexivity end).
  - cbn [read_scalar]. unfold parse_bool. destruct (ustr_eqb y (u "true")); [reflexivity|]. destruct (ustr_eqb y (u "false")); reflexivity.
  - cbn [read_scalar]. destruct (parse_int k0 y); reflexivity.
  - cbn [read_scalar]. destruct (fparse32 y); reflexivity.
  - cbn [read_scalar]. destruct (fparse64 y); reflexivity.
Qed.
Lemma header_first t : forall hs k x r v, hs = (k, x) :: r -> header_read t (utf8_encode (lowercase k)) = Ok v -> exists s', de_header t (hde_new hs) = Ok (v, s').
Proof.
  induction t; intros hs k0 x r v E Q; cbn [header_read] in Q; try discriminate;
    try (match goal with |- exists s', de_header ?t _ = _ => rewrite (header_plain hs t eq_refl), E; cbn [header_read]; rewrite Q; cbn [bind]; eauto; fail end).
  - apply res_map_Ok in Q. destruct Q as (w & Q & ->). destruct (IHt hs k0 x r w E Q) as [s' D]. cbn [de_header]. rewrite D. cbn [bind]. eauto.
  - apply res_map_Ok in Q. destruct Q as (w & Q & ->). destruct (IHt hs k0 x r w E Q) as [s' D]. cbn [de_header]. rewrite D. cbn [bind]. eauto.
Qed.
Lemma pairs_first hs k x r : map (fun h : ustr * bytes => (utf8_encode (lowercase (fst h)), snd h)) hs = (k, x) :: r ->
  exists k' r', hs = (k', x) :: r' /\ k = utf8_encode (lowercase k').
Proof. destruct hs as [|[k' x'] hs]; [discriminate|]. intros [= <- <- _]. eauto. Qed.
Theorem header_exact hs t : names_ok hs = true -> wf_ty t = true -> forall v, (exists s', de_header t (hde_new hs) = Ok (v, s')) <-> header_means hs t v.
Proof.
  intros NO.
  assert (FI : forall t v k x r, map (fun h : ustr * bytes => (utf8_encode (lowercase (fst h)), snd h)) hs = (k, x) :: r -> header_read t k = Ok v -> exists s', de_header t (hde_new hs) = Ok (v, s')).
  { intros t0 v k x r E R. apply pairs_first in E. destruct E as (k' & r' & E & ->). exact (header_first t0 hs k' x r' v E R). }
  assert (PL : forall t v, plain t = true -> (exists s', de_header t (hde_new hs) = Ok (v, s')) <-> header_means hs t v).
  { intros t0 v P. split.
    - intros [s' E]. rewrite (header_plain hs t0 P) in E. destruct hs as [|[k x] r]; [destruct (header_read t0 []) as [|[]| |]; discriminate|].
      destruct (header_read t0 (utf8_encode (lowercase k))) as [w| | |] eqn:Q; cbn [bind] in E; try discriminate. injection E as <- _.
      eapply PaFirst; [cbn [map fst snd]; reflexivity | exact Q].
    - intros Q. inversion Q; subst; try discriminate P. eapply FI; eauto. }
  induction t; intros W v; try (apply PL; reflexivity); cbn [wf_ty] in W.
  - cbn [de_header]. split.
    + intros [s' E]. destruct (de_header t (hde_new hs)) as [[w s'']| | |] eqn:D; cbn [bind] in E; try discriminate. injection E as <- <-. apply PaOption, (IHt W). eauto.
    + intros Q. inversion Q as [t0 k x r w E R|t0 w M| | |]; subst.
      * exact (FI (TOption t) _ _ _ _ E R).
      * apply (IHt W) in M. destruct M as [s' ->]. cbn [bind]. eauto.
  - cbn [de_header]. split.
    + intros [s' E]. destruct (de_header t (hde_new hs)) as [[w s'']| | |] eqn:D; cbn [bind] in E; try discriminate. injection E as <- <-. apply PaNewtype, (IHt W). eauto.
    + intros Q. inversion Q as [t0 k x r w E R| |n0 t0 w M| |]; subst.
      * exact (FI (TNewtype name t) _ _ _ _ E R).
      * apply (IHt W) in M. destruct M as [s' ->]. cbn [bind]. eauto.
  - destruct (de_header_map t1 t2 hs) as [s1 E1]. rewrite E1. split.
    + intros [s' E]. destruct (map_of _ _ _ _) as [m| | |] eqn:M; cbn [bind] in E; try discriminate. injection E as <- _.
      apply map_of_exact in M. destruct M as (kvs & F & ->). apply PaMap, F.
    + intros Q. inversion Q as [t0 k x r w E R| | |tk tv kvs F|]; subst; [discriminate R|].
      rewrite (proj2 (map_of_exact _ _ _ [] _) (ex_intro _ kvs (conj F eq_refl))). cbn [bind]. eauto.
  - apply andb_prop in W. destruct W as [W _]. apply nodup_names_NoDup in W. split.
    + intros [s' E]. assert (X : exists vs, v = SStruct name vs).
      { cbn [de_header] in E. destruct (header_enter _); cbn [bind] in E; try discriminate. destruct (visit_struct _ _ _ _ _ _) as [[vs s'']| | |]; cbn [bind] in E; try discriminate.
        injection E as <- _. eauto. }
      destruct X as [vs ->]. apply PaStruct. apply (de_header_struct name fs hs vs W NO). eauto.
    + intros Q. inversion Q as [t0 k x r w E R| | | |n0 fs0 vs F]; subst; [discriminate R|]. apply (de_header_struct name fs hs vs W NO), F.
Qed.

(** ** Messages made of named parts *)
Lemma name_iff t k v : de_str_key t k = Ok v <-> name_means t k v.
Proof.
  destruct t; cbn [de_str_key]; try (split; [discriminate | intros Q; inversion Q]; fail).
  - split; [intros [= <-]; constructor | intros Q; inversion Q; reflexivity].
  - split; [intros [= <-]; constructor | intros Q; inversion Q; reflexivity].
  - split.
    + destruct (assoc k vs) as [[]|] eqn:A; try discriminate. intros [= <-]. constructor. exact A.
    + intros Q. inversion Q as [| |n0 vs0 k0 A]; subst. rewrite A. reflexivity.
Qed.
Lemma names_differ t a b v w : name_means t a v -> name_means t b w -> ustr_eqb a b = false -> ustr_eqb (utf8_encode a) (utf8_encode b) = false -> value_eqb v w = false.
Proof. intros A B D E. destruct A; inversion B; subst; cbn [value_eqb]; rewrite ?D, ?E; rewrite ?andb_false_r; reflexivity. Qed.
Lemma is_option_iff t : is_option t = true <-> exists t', t = TOption t'.
Proof. destruct t; split; intros Q; try discriminate; try (destruct Q; discriminate); eauto. Qed.

Section Request.
Variables (ep : entry_point) (x : url) (hs : list rheader).
Hypothesis NO : names_ok hs = true.
Lemma req_part_iff k t v : wf_ty t = true ->
  part_reads ep x hs k t v <-> match request_part ep x hs k with Some means => means t v | None => (exists t', t = TOption t') /\ v = SNone end.
Proof.
  intros W. unfold part_reads, request_part. destruct (ustr_eqb k (u "path")).
  - split.
    + intros (segs & s' & U & D). exists segs. split; [exact U|]. apply path_exact. eauto.
    + intros (segs & U & D). apply path_exact in D. destruct D as [s' D]. eauto.
  - destruct (ustr_eqb k (u "query")); [apply query_exact, W|]. destruct (ustr_eqb k (u "header")); [apply header_exact; assumption|]. rewrite is_option_iff. reflexivity.
Qed.
Theorem request_exact t : wf_ty t = true -> forall v, de_request ep x hs t = Ok v <-> request_means ep x hs t v.
Proof.
  induction t; intros W v; cbn [wf_ty] in W; try (split; [discriminate | intros Q; inversion Q]; fail).
  - specialize (IHt W). unfold de_request in *. cbn [de_request_from]. split.
    + intros E. destruct (de_request_from ep x hs t RInit) as [[w p]| | |]; cbn [bind] in E; try discriminate. injection E as <-. constructor. apply IHt. reflexivity.
    + intros Q. inversion Q as [|n0 t0 w M|]; subst. apply IHt in M. destruct (de_request_from ep x hs t RInit) as [[w' p]| | |]; cbn [bind] in M |- *; congruence.
  - apply andb_prop in W. destruct W as [_ W].
    assert (E : de_request ep x hs (TMap t1 t2) = (k1 <- de_str_key t1 (u "path") ;; '(v1, _) <- req_value ep x hs t2 RPath ;; k2 <- de_str_key t1 (u "query") ;;
      '(v2, _) <- req_value ep x hs t2 RQuery ;; k3 <- de_str_key t1 (u "header") ;; '(v3, _) <- req_value ep x hs t2 RHeader ;;
      Ok (SMap (map_insert k3 v3 (map_insert k2 v2 (map_insert k1 v1 [])))))).
    { unfold de_request. cbn [de_request_from visit_map req_next_key req_next_field bind]. unfold req_next_key at 1. cbn [req_next_field bind].
      destruct (de_str_key t1 (u "path")) as [k1| | |]; cbn [bind]; try reflexivity.
      destruct (req_value ep x hs t2 RPath) as [[v1 p1]| | |] eqn:V1; cbn [bind]; try reflexivity. assert (p1 = RPath) as -> by (clear - V1; cbn in V1; destruct (pde_new ep x); cbn in V1; try discriminate; destruct (de_path t2 a) as [[? ?]| | |]; cbn in V1; congruence).
      unfold req_next_key at 1. cbn [req_next_field bind].
      destruct (de_str_key t1 (u "query")) as [k2| | |]; cbn [bind]; try reflexivity.
      destruct (req_value ep x hs t2 RQuery) as [[v2 p2]| | |] eqn:V2; cbn [bind]; try reflexivity. assert (p2 = RQuery) as -> by (clear - V2; cbn in V2; destruct (de_query t2 (qde_new (query_pairs x))) as [[? ?]| | |]; cbn in V2; congruence).
      unfold req_next_key at 1. cbn [req_next_field bind].
      destruct (de_str_key t1 (u "header")) as [k3| | |]; cbn [bind]; try reflexivity.
      destruct (req_value ep x hs t2 RHeader) as [[v3 p3]| | |] eqn:V3; cbn [bind]; try reflexivity. assert (p3 = RHeader) as -> by (clear - V3; cbn in V3; destruct (de_header t2 (hde_new hs)) as [[? ?]| | |]; cbn in V3; congruence).
      unfold req_next_key at 1. cbn [req_next_field bind]. reflexivity. }
    rewrite E. clear E. split.
    + intros E. destruct (de_str_key t1 (u "path")) as [k1| | |] eqn:K1; cbn [bind] in E; try discriminate.
      destruct (req_value ep x hs t2 RPath) as [[v1 p1]| | |] eqn:V1; cbn [bind] in E; try discriminate.
      destruct (de_str_key t1 (u "query")) as [k2| | |] eqn:K2; cbn [bind] in E; try discriminate.
      destruct (req_value ep x hs t2 RQuery) as [[v2 p2]| | |] eqn:V2; cbn [bind] in E; try discriminate.
      destruct (de_str_key t1 (u "header")) as [k3| | |] eqn:K3; cbn [bind] in E; try discriminate.
      destruct (req_value ep x hs t2 RHeader) as [[v3 p3]| | |] eqn:V3; cbn [bind] in E; try discriminate.
      apply name_iff in K1. apply name_iff in K2. apply name_iff in K3.
      cbn [map_insert] in E. rewrite (names_differ _ _ _ _ _ K2 K1 eq_refl eq_refl) in E. cbn [map_insert] in E.
      rewrite (names_differ _ _ _ _ _ K3 K1 eq_refl eq_refl) in E. rewrite (names_differ _ _ _ _ _ K3 K2 eq_refl eq_refl) in E. injection E as <-.
      apply RqMap. constructor; [|constructor; [|constructor; [|constructor]]]; (split; [assumption|]).
      * apply (req_part_iff (u "path") t2 v1 W). cbn [req_value] in V1. unfold part_reads. change (ustr_eqb (u "path") (u "path")) with true. cbv iota. apply value_path with (hs := hs). cbn [req_value].
        destruct (pde_new ep x); cbn [bind] in *; try discriminate. destruct (de_path t2 a) as [[? ?]| | |]; cbn [bind] in *; congruence.
      * apply (req_part_iff (u "query") t2 v2 W). apply (value_query ep x hs). cbn [req_value] in *. destruct (de_query _ _) as [[? ?]| | |]; cbn [bind] in *; congruence.
      * apply (req_part_iff (u "header") t2 v3 W). apply (value_header ep x hs). cbn [req_value] in *. destruct (de_header _ _) as [[? ?]| | |]; cbn [bind] in *; congruence.
    + intros Q. inversion Q as [| |tk tv kvs F]; subst. inversion F as [|? [k1 v1] ? r1 [K1 P1] F1]; subst. inversion F1 as [|? [k2 v2] ? r2 [K2 P2] F2]; subst.
      inversion F2 as [|? [k3 v3] ? r3 [K3 P3] F3]; subst. inversion F3; subst. clear F F1 F2 F3. cbn [fst snd] in *.
      apply (req_part_iff (u "path") t2 v1 W) in P1. apply (req_part_iff (u "query") t2 v2 W) in P2. apply (req_part_iff (u "header") t2 v3 W) in P3.
      apply (value_path ep x hs) in P1. apply (value_query ep x hs) in P2. apply (value_header ep x hs) in P3.
      rewrite (proj2 (name_iff _ _ _) K1). cbn [bind]. rewrite P1. cbn [bind]. rewrite (proj2 (name_iff _ _ _) K2). cbn [bind]. rewrite P2. cbn [bind].
      rewrite (proj2 (name_iff _ _ _) K3). cbn [bind]. rewrite P3. cbn [bind]. cbn [map_insert]. rewrite (names_differ _ _ _ _ _ K2 K1 eq_refl eq_refl). cbn [map_insert].
      rewrite (names_differ _ _ _ _ _ K3 K1 eq_refl eq_refl). rewrite (names_differ _ _ _ _ _ K3 K2 eq_refl eq_refl). reflexivity.
  - apply andb_prop in W. destruct W as [ND W]. apply nodup_names_NoDup in ND. pose proof (fun vs => de_request_struct ep x hs name fs vs ND) as R.
    assert (FE : forall vs, Forall2 (fun f v => fst v = fst f /\ part_reads ep x hs (fst f) (snd f) (snd v)) fs vs <-> Forall2 (field_means (request_part ep x hs)) fs vs).
    { intros vs. assert (G : forall gs ws, forallb (fun f => wf_ty (snd f)) gs = true -> Forall2 (fun f v => fst v = fst f /\ part_reads ep x hs (fst f) (snd f) (snd v)) gs ws <-> Forall2 (field_means (request_part ep x hs)) gs ws).
      { induction gs as [|g gs IH]; intros ws Wg; [split; intros F; inversion F; constructor|]. cbn [forallb] in Wg. apply andb_prop in Wg. destruct Wg as [W1 W2].
        split; intros F; inversion F as [|? w ? ws' [N P] F']; subst; constructor; try (apply (IH ws' W2); exact F'); (split; [exact N|]); apply req_part_iff; assumption. }
      apply G, W. }
    split.
    + intros E. assert (X : exists vs, v = SStruct name vs).
      { unfold de_request in E. cbn [de_request_from] in E. destruct (visit_struct _ _ _ _ _ _) as [[vs s'']| | |]; cbn [bind] in E; try discriminate. injection E as <-. eauto. }
      destruct X as [vs ->]. apply R in E. destruct E as (U & Hh & F). apply RqStruct; [exact U | exact Hh | apply FE, F].
    + intros Q. inversion Q as [n0 fs0 vs U Hh F| |]; subst. apply R. split; [exact U|]. split; [exact Hh | apply FE, F].
Qed.
Theorem request_refuses t : wf_ty t = true -> refuses (de_request ep x hs t).
Proof.
  intros W. apply refuses_of; [apply de_request_safe, NO|]. unfold de_request. apply mild_bind; [apply de_request_mild, W|]. intros [? ?] _. discriminate.
Qed.
End Request.

Section Response.
Variables (code : N) (hs : list rheader).
Hypothesis NO : names_ok hs = true.
Lemma code_iff t v : wf_ty t = true -> de_u16 code t = Ok v <-> code_means code t v.
Proof.
  intros W. destruct t; cbn [de_u16]; try discriminate W; try (split; [discriminate | intros Q; inversion Q]; fail).
  - destruct (in_range k (Z.of_N code)) eqn:R.
    + split; [intros [= <-]; constructor; apply in_range_bounds, R | intros Q; inversion Q; reflexivity].
    + split; [discriminate|]. intros Q. inversion Q as [k0 B| |]; subst. apply in_range_bounds in B. congruence.
  - split; [intros [= <-]; constructor | intros Q; inversion Q; reflexivity].
  - split; [intros [= <-]; constructor | intros Q; inversion Q; reflexivity].
Qed.
Lemma resp_part_iff i k t v : wf_ty t = true ->
  resp_part code hs (negb i) k t v <-> match response_part code hs i k with Some means => means t v | None => (exists t', t = TOption t') /\ v = SNone end.
Proof.
  intros W. unfold resp_part, response_part. destruct (negb i && ustr_eqb k (u "status")); [apply code_iff, W|].
  destruct (ustr_eqb k (u "header")); [apply header_exact; assumption|]. rewrite is_option_iff. reflexivity.
Qed.
Lemma resp_fields_iff i fs vs : nodup_names (map fst fs) && forallb (fun f => wf_ty (snd f)) fs = true ->
  (exists q, visit_struct 4 resp_next_field (resp_skip hs) (map (fun f => (fst f, resp_value code hs (snd f))) fs) fs (if i : bool then SStatus else SInit) = Ok (vs, q)) <->
  (~ In (u "header") (map fst fs) -> hs <> []) /\ Forall2 (field_means (response_part code hs i)) fs vs.
Proof.
  intros W. apply andb_prop in W. destruct W as [ND W]. apply nodup_names_NoDup in ND.
  assert (S : (if i then SStatus else SInit) = (if negb i then SInit else SStatus)) by (destruct i; reflexivity). rewrite S.
  assert (FE : Forall2 (fun f v => fst v = fst f /\ resp_part code hs (negb i) (fst f) (snd f) (snd v)) fs vs <-> Forall2 (field_means (response_part code hs i)) fs vs).
  { clear ND. revert vs W. induction fs as [|g gs IH]; intros ws Wg; [split; intros F; inversion F; constructor|]. cbn [forallb] in Wg. apply andb_prop in Wg. destruct Wg as [W1 W2].
    split; intros F; inversion F as [|? w ? ws' [N P] F']; subst; constructor; try (apply (IH ws' W2); exact F'); (split; [exact N|]); apply resp_part_iff; assumption. }
  pose proof (fun q => read_struct code hs (negb i) fs vs q ND) as R. split.
  - intros [q E]. apply R in E. destruct E as (_ & Hh & F). split; [exact Hh | apply FE, F].
  - intros (Hh & F). exists SHeader. apply R. split; [reflexivity|]. split; [exact Hh | apply FE, F].
Qed.
Lemma from_map_header t1 t2 m f : visit_map (S (S f)) (resp_next_key t1) (fun _ => Err Invalid) (resp_value code hs t2) m SStatus =
  (k <- de_str_key t1 (u "header") ;; '(v, _) <- resp_value code hs t2 SHeader ;; Ok (map_insert k v m, SHeader)).
Proof.
  cbn [visit_map]. unfold resp_next_key at 1. cbn [resp_next_field bind]. destruct (de_str_key t1 (u "header")) as [k| | |]; cbn [bind]; try reflexivity.
  destruct (resp_value code hs t2 SHeader) as [[v p]| | |] eqn:V; cbn [bind]; try reflexivity. apply resp_value_stays in V. subst p. reflexivity.
Qed.
Lemma from_map_init t1 t2 : visit_map 4 (resp_next_key t1) (fun _ => Err Invalid) (resp_value code hs t2) [] SInit =
  (k <- de_str_key t1 (u "status") ;; '(v, _) <- resp_value code hs t2 SStatus ;;
   visit_map 3 (resp_next_key t1) (fun _ => Err Invalid) (resp_value code hs t2) (map_insert k v []) SStatus).
Proof.
  remember 3%nat as f. cbn [visit_map]. unfold resp_next_key at 1. cbn [resp_next_field bind]. destruct (de_str_key t1 (u "status")) as [k| | |]; cbn [bind]; try reflexivity.
  destruct (resp_value code hs t2 SStatus) as [[v p]| | |] eqn:V; cbn [bind]; try reflexivity. apply resp_value_stays in V. subst p. reflexivity.
Qed.
Lemma resp_map_iff i t1 t2 m : wf_ty t2 = true ->
  (exists q, visit_map 4 (resp_next_key t1) (fun _ => Err Invalid) (resp_value code hs t2) [] (if i : bool then SStatus else SInit) = Ok (m, q)) <->
  Forall2 (fun k kv => name_means t1 k (fst kv) /\ match response_part code hs i k with Some means => means t2 (snd kv) | None => False end)
      (if i then [u "header"] else [u "status"; u "header"]) m.
Proof.
  intros W. assert (VH : forall v, (exists p, resp_value code hs t2 SHeader = Ok (v, p)) <-> header_means hs t2 v).
  { intros v. rewrite <- (header_exact hs t2 NO W). rewrite <- value_header_iff with (code := code). split; [intros [p E]; pose proof (resp_value_stays _ _ _ _ _ _ E); congruence | eauto]. }
  assert (VS : forall v, (exists p, resp_value code hs t2 SStatus = Ok (v, p)) <-> code_means code t2 v).
  { intros v. rewrite <- (code_iff t2 v W). rewrite <- value_status_iff with (hs := hs). split; [intros [p E]; pose proof (resp_value_stays _ _ _ _ _ _ E); congruence | eauto]. }
  destruct i.
  - rewrite from_map_header. split.
    + intros [q E]. destruct (de_str_key t1 (u "header")) as [k| | |] eqn:K; cbn [bind] in E; try discriminate. destruct (resp_value code hs t2 SHeader) as [[v p]| | |] eqn:V; cbn [bind] in E; try discriminate.
      cbn [map_insert] in E. injection E as <- _. apply name_iff in K. constructor; [|constructor]. split; [exact K|]. apply VH. eauto.
    + intros F. inversion F as [|? [k v] ? r [K P] F1]; subst. inversion F1; subst. cbn [fst snd] in *. apply VH in P. destruct P as [p P].
      rewrite (proj2 (name_iff _ _ _) K). cbn [bind]. rewrite P. cbn [bind map_insert]. eauto.
  - rewrite from_map_init. split.
    + intros [q E]. destruct (de_str_key t1 (u "status")) as [k1| | |] eqn:K1; cbn [bind] in E; try discriminate. destruct (resp_value code hs t2 SStatus) as [[v1 p1]| | |] eqn:V1; cbn [bind] in E; try discriminate.
      rewrite from_map_header in E. destruct (de_str_key t1 (u "header")) as [k| | |] eqn:K; cbn [bind] in E; try discriminate. destruct (resp_value code hs t2 SHeader) as [[v p]| | |] eqn:V; cbn [bind] in E; try discriminate.
      apply name_iff in K. apply name_iff in K1. cbn [map_insert] in E. rewrite (names_differ _ _ _ _ _ K K1 eq_refl eq_refl) in E. injection E as <- _.
      constructor; [|constructor; [|constructor]]; (split; [assumption|]); [apply VS; eauto | apply VH; eauto].
    + intros F. inversion F as [|? [k1 v1] ? r [K1 P1] F1]; subst. inversion F1 as [|? [k v] ? r1 [K P] F2]; subst. inversion F2; subst. cbn [fst snd] in *. apply VH in P. destruct P as [p P].
      apply VS in P1. destruct P1 as [p1 P1]. rewrite (proj2 (name_iff _ _ _) K1). cbn [bind]. rewrite P1. cbn [bind]. rewrite from_map_header. rewrite (proj2 (name_iff _ _ _) K). cbn [bind]. rewrite P. cbn [bind map_insert].
      rewrite (names_differ _ _ _ _ _ K K1 eq_refl eq_refl). eauto.
Qed.
(** What a variant means once its name is known. *)
Definition variant_of (n x : ustr) (t : vty) (v : value) : Prop :=
  match t with
  | VUnit => v = SUnitVariant n x
  | VNewtype t => exists w, response_means code hs status_named true t w /\ v = SNewtypeVariant n x w
  | VTuple _ => False
  | VStruct fs => exists ws, ((~ In (u "header") (map fst fs) -> hs <> []) /\ Forall2 (field_means (response_part code hs true)) fs ws) /\ v = SStructVariant n x ws
  end.
Theorem response_from_exact t : wf_ty t = true -> forall (i : bool) v, (exists q, de_response_from code hs t (if i then SStatus else SInit) = Ok (v, q)) <-> response_means code hs status_named i t v.
Proof.
  revert t. apply (ty_ind2 (fun t => wf_ty t = true -> forall (i : bool) v, (exists q, de_response_from code hs t (if i then SStatus else SInit) = Ok (v, q)) <-> response_means code hs status_named i t v)
    (fun t => wf_vty t = true -> forall n x v, (exists q, de_variant code hs t n x SStatus = Ok (v, q)) <-> variant_of n x t v)).
  all: try (intros; split; [intros [? Q]; discriminate Q | intros Q; inversion Q]; fail).
  - intros n t IH W i v. cbn [de_response_from]. specialize (IH W i). split.
    + intros [q E]. destruct (de_response_from code hs t _) as [[w p]| | |]; cbn [bind] in E; try discriminate. injection E as <- _. constructor. apply IH. eauto.
    + intros Q. inversion Q as [|i0 n0 t0 w M| | | |]; subst. apply IH in M. destruct M as [q ->]. cbn [bind]. eauto.
  - intros k v0 _ _ W i v. cbn [wf_ty] in W. apply andb_prop in W. cbn [de_response_from]. pose proof (fun m => resp_map_iff i k v0 m (proj2 W)) as R. split.
    + intros [q E]. destruct (visit_map _ _ _ _ _ _) as [[m p]| | |]; cbn [bind] in E; try discriminate. injection E as <- _. constructor. apply R. eauto.
    + intros Q. inversion Q as [| |i0 tk tv kvs F| | |]; subst. apply R in F. destruct F as [q ->]. cbn [bind]. eauto.
  - intros n fs _ W i v. cbn [wf_ty] in W. cbn [de_response_from]. pose proof (fun vs => resp_fields_iff i fs vs W) as R. split.
    + intros [q E]. destruct (visit_struct _ _ _ _ _ _) as [[vs p]| | |]; cbn [bind] in E; try discriminate. injection E as <- _. destruct (proj1 (R vs) (ex_intro _ p eq_refl)). constructor; assumption.
    + intros Q. inversion Q as [i0 n0 fs0 vs Hh F| | | | |]; subst. destruct (proj2 (R vs) (conj Hh F)) as [q ->]. cbn [bind]. eauto.
  - intros n vs IH W i v. rewrite from_enum. cbn [wf_ty] in W.
    assert (V : forall x t, assoc x vs = Some t -> forall w, (exists q, de_variant code hs t n x SStatus = Ok (w, q)) <-> variant_of n x t w).
    { intros x t A w. apply assoc_In in A. rewrite Forall_forall in IH. apply (IH _ A). apply (proj1 (forallb_forall _ _) W _ A). }
    assert (AM : forall x, assoc x (map (fun f => (fst f, de_variant code hs (snd f) n (fst f))) vs) = option_map (fun t => de_variant code hs t n x) (assoc x vs)).
    { intros x. clear. induction vs as [|[y t] r IH]; [reflexivity|]. cbn [map assoc fst snd]. destruct (ustr_eqb_spec x y) as [->|]; [reflexivity | exact IH]. }
    split.
    + intros [q E]. destruct (status_code_to_str code) as [x| | |] eqn:C; cbn [bind] in E; try discriminate. apply code_named in C. rewrite AM in E.
      destruct (assoc x vs) as [t|] eqn:A; cbn [option_map] in E; [|discriminate]. pose proof (proj1 (V x t A v) (ex_intro _ q E)) as P. destruct t as [|t|ts|fs]; cbn [variant_of] in P.
      * subst v. apply RsUnit; assumption.
      * destruct P as (w & M & ->). eapply RsInner; eassumption.
      * contradiction.
      * destruct P as (ws & [Hh F] & ->). eapply RsVariant; eassumption.
    + intros Q. inversion Q as [| | |i0 n0 vs0 x C A|i0 n0 vs0 x t w C A M|i0 n0 vs0 x fs ws C A Hh F]; subst; apply code_named in C; rewrite C; cbn [bind]; rewrite AM, A; cbn [option_map].
      * apply (V x VUnit A). reflexivity.
      * apply (V x (VNewtype t) A). exists w. auto.
      * apply (V x (VStruct fs) A). exists ws. auto.
  - intros _ n x v. cbn. split; [intros [q [= <- _]]; reflexivity | intros ->; eauto].
  - intros t IH W n x v. rewrite variant_newtype. specialize (IH W true). cbv iota in IH. split.
    + intros [q E]. destruct (de_response_from code hs t SStatus) as [[w p]| | |]; cbn [bind] in E; try discriminate. injection E as <- _. exists w. split; [apply IH; eauto | reflexivity].
    + intros (w & M & ->). apply IH in M. destruct M as [q ->]. cbn [bind]. eauto.
  - intros fs _ W n x v. cbn [wf_vty] in W. cbn [de_variant]. pose proof (fun vs => resp_fields_iff true fs vs W) as R. cbv iota in R. split.
    + intros [q E]. destruct (visit_struct _ _ _ _ _ _) as [[vs p]| | |]; cbn [bind] in E; try discriminate. injection E as <- _. exists vs. split; [apply (proj1 (R vs)); eauto | reflexivity].
    + intros (ws & F & ->). destruct (proj2 (R ws) F) as [q ->]. cbn [bind]. eauto.
Qed.
Theorem response_exact t : wf_ty t = true -> forall v, de_response code hs t = Ok v <-> response_means code hs status_named false t v.
Proof.
  intros W v. rewrite <- (response_from_exact t W false v). unfold de_response. split.
  - intros E. destruct (de_response_from code hs t SInit) as [[w q]| | |]; cbn [bind] in E; try discriminate. injection E as <-. eauto.
  - intros [q ->]. reflexivity.
Qed.
Theorem response_refuses t : wf_ty t = true -> refuses (de_response code hs t).
Proof.
  intros W. apply refuses_of; [apply de_response_safe, NO|]. unfold de_response. apply mild_bind; [apply de_response_mild, W|]. intros [? ?] _. discriminate.
Qed.
End Response.
End DecodeExact.
