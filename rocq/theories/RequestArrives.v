(** * A request travels from the client to its handler (C09). *)
From Verif Require Import Base Utf8 Decimal DepUrl Serde Procedure ScalarSpec PathSpec FieldSpec SerPath SerQuery SerHeader SerRequest
  DePath DeQuery DeHeader DeRequest Router RouterSpec RouterProofs DepHttp
  UrlProofs PathProofs PathTrip FieldProofs QueryProofs HeaderProofs FieldMore RequestSpec RequestProofs RequestTrip MapSpec MapTrip.
Open Scope N_scope.

Section Arrives.
Context `{urlenv} `{floatlib}.

(** The parts a request may have, each with its type: the path fits the entry point and gives its variables the texts [ss]. *)
Definition path_fits (ep : entry_point) (o : option (ty * value)) (ss : list ustr) : Prop :=
  match o with
  | None => var_count ep = 0%nat /\ ss = []
  | Some (t, v) => exists ts vs, path_shape t v ts vs /\ Forall2 faithful ts vs /\ length ts = var_count ep /\
      all_some (map scalar_text vs) = Some ss
  end.
Definition query_fits (o : option (ty * value)) : Prop :=
  match o with
  | None => True
  | Some (t, v) => query_whole t v
  end.
(** The value for the headers, and the headers [l] it stands for. *)
Definition header_fits (o : option (ty * value)) (l : list (bytes * bytes)) : Prop :=
  match o with
  | None => l = []
  | Some (t, v) => header_whole t v /\ header_written v = Some l
  end.
Definition field (A : Type) (k : ustr) (o : option A) : list (ustr * A) := match o with Some a => [(k, a)] | None => [] end.
Definition typed_parts (p q h : option (ty * value)) : list (ustr * ty) :=
  field _ (u "path") (option_map fst p) ++ field _ (u "query") (option_map fst q) ++ field _ (u "header") (option_map fst h).
Definition value_parts (p q h : option (ty * value)) : list (ustr * value) :=
  field _ (u "path") (option_map snd p) ++ field _ (u "query") (option_map snd q) ++ field _ (u "header") (option_map snd h).

Lemma matches_fill : forall ep ss, plain_entry ep -> length ss = var_count ep -> matches ep (map enc (fill ep ss)).
Proof.
  induction ep as [|[c|] ep IH]; intros ss P L; [exact Logic.I| |]; rewrite var_count_cons in L.
  - cbn [fill map matches]. split; [symmetry; apply plain_enc, P; left; reflexivity|].
    apply IH; [|exact L]. intros d I. apply P. right. exact I.
  - destruct ss as [|s ss]; [discriminate|]. cbn [fill map matches]. apply IH; [|injection L as L; exact L]. intros d I. apply P. right. exact I.
Qed.

Lemma path_fits_length ep o ss : path_fits ep o ss -> length ss = var_count ep.
Proof.
  destruct o as [[t v]|]; [|intros [-> ->]; reflexivity]. intros (ts & vs & S & F & L & A).
  destruct (all_some_texts ts vs F) as (ss' & A' & L1 & L2). congruence.
Qed.

Context `{httpenv}.

Theorem request_arrives_as (Hd : Type) (gs : list (method * entry_point * Hd)) m ep h n p q hd ss l len :
  In (m, ep, h) (accepted gs) -> unshadowed (accepted gs) ep (map enc (fill ep ss)) ->
  plain_entry ep -> ep <> [] ->
  path_fits ep p ss -> Forall path_safe ss -> first_ok (fill ep ss) ->
  query_fits q -> (p = None -> q = None) ->
  header_fits hd l -> forallb safe_header (l ++ [content_length len]) = true ->
  exists r x hs, encode_request ep (SStruct n (value_parts p q hd)) len = Ok r /\
    deliver (rb_headers r) = Some hs /\ parse_url (rb_target r) = Some x /\
    route (build gs) m (u_path x) = Ok (inl h) /\
    de_request ep x hs (TStruct n (typed_parts p q hd)) = Ok (SStruct n (value_parts p q hd)) /\
    hs = l ++ [content_length len] /\ match q with Some (_, w) => query_written w = Some (query_pairs x) | None => query_pairs x = [] end.
Proof.
  intros I Un Pe Ne Pf Ps Fo Qf Pq Hf Sh.
  pose proof (path_fits_length _ _ _ Pf) as Ls.
  set (path := fold_left push (fill ep ss) [[]]).
  assert (Gp : good_path path).
  { apply pushes_good; [|exact good_root]. apply Forall_impl with (P := path_safe); [exact path_safe_ok | apply fill_safe; assumption]. }
  assert (Ep : path = map enc (fill ep ss)).
  { unfold path. rewrite push_root; [|apply fill_safe; assumption|exact Fo].
    pose proof (fill_length ep ss Ls) as Lf. destruct (fill ep ss); [|reflexivity]. destruct ep; [contradiction | discriminate]. }
  (* the query *)
  assert (Q : exists ql, query_part (option_map snd q) ql /\ match ql with Some ps => pairs_ok ps = true | None => True end /\
    match q with Some (t, v) => exists ps s', ql = Some ps /\ de_query t (qde_new ps) = Ok (v, s') | None => True end).
  { destruct q as [[t v]|]; [|exists None; repeat split]. 
    destruct (query_whole_trip t v Qf) as (ps & W & Op & s' & D). exists (Some ps). split; [exact W|]. split; [exact Op|]. eauto. }
  destruct Q as (ql & Qp & Qo & Qd).
  (* the headers *)
  assert (Hw : exists ls, Forall2 (fun h l => header_written h = Some l) (map snd (field _ (u "header") (option_map snd hd))) ls /\ concat ls = l).
  { destruct hd as [[t v]|]; [|exists []; split; [constructor | symmetry; exact Hf]].
    destruct Hf as [_ W]. exists [l]. split; [constructor; [exact W | constructor] | cbn; apply app_nil_r]. }
  destruct Hw as (ls & Hw & Cl).
  exists (mkReqb (url_text path (option_map pairs_text ql)) (l ++ [content_length len])), (mkUrl (Some path) (option_map pairs_text ql)), (l ++ [content_length len]).
  split; [|split; [|split; [|split; [|split; [|split; [reflexivity|]]]]]].
  - apply encode_ok_iff. exists (false, value_parts p q hd). split; [reflexivity|].
    assert (V : value_parts p q hd = parts (map snd (field _ (u "path") (option_map snd p))) (option_map snd q) (map snd (field _ (u "header") (option_map snd hd)))).
    { unfold value_parts, parts. destruct p, q, hd; reflexivity. }
    rewrite V, <- Cl. unfold path.
    replace (fill ep ss) with (flat_map (fill ep) [ss]) by (cbn; apply app_nil_r).
    apply Sends; [| |exact Qp|exact Hw].
    + destruct p; [discriminate|]. intros _. rewrite (Pq eq_refl). reflexivity.
    + destruct p as [[t v]|]; cbn; apply Forall2_cons; try apply Forall2_nil.
      * split; [|exact Ls]. destruct Pf as (ts & vs & S & F & L & A). rewrite (shape_args _ _ _ _ S). exact A.
      * split; [|exact Ls]. destruct Pf as [_ ->]. reflexivity.
  - apply deliver_safe, Sh.
  - apply parse_url_text; [exact Gp|]. destruct ql as [ps|]; [|exact Logic.I]. apply pairs_text_chars, Qo.
  - cbn [u_path]. rewrite Ep. apply (routing_complete gs m ep h); [exact I | apply matches_fill; assumption | exact Un].
  - apply de_request_struct.
    { apply nodup_names_NoDup. destruct p, q, hd; reflexivity. }
    split; [discriminate|]. split; [intros _ E; destruct l; discriminate|].
    unfold typed_parts, value_parts. apply Forall2_app; [|apply Forall2_app].
    + destruct p as [[t v]|]; [|constructor]. apply Forall2_cons; [|constructor]. split; [reflexivity|].
      destruct Pf as (ts & vs & S & F & L & A). destruct (path_trip_shape ep t v ts vs ss S Pe F L A Ps Fo) as (p & s' & E & _ & D).
      rewrite ser_path_spec, (shape_args _ _ _ _ S), A, Ls, Nat.eqb_refl in E. injection E as <-.
      exists path, s'. split; [reflexivity | exact D].
    + destruct q as [[t v]|]; [|constructor]. apply Forall2_cons; [|constructor]. split; [reflexivity|].
      destruct Qd as (ps & s' & -> & D). exists s'. unfold query_pairs. cbn [u_query option_map]. rewrite (form_parse_pairs ps Qo). exact D.
    + destruct hd as [[t v]|]; [|constructor]. apply Forall2_cons; [|constructor]. split; [reflexivity|].
      destruct Hf as [Hh W]. destruct (header_whole_trip t v Hh) as (l' & W' & _ & D).
      rewrite W in W'. injection W' as <-. destruct (D len) as [s' D']. exists s'. exact D'.
  - destruct q as [[t v]|]; unfold query_pairs; cbn [u_query].
    + destruct Qd as (ps & s' & -> & _). cbn [option_map]. rewrite (form_parse_pairs ps Qo). exact Qp.
    + destruct ql; [destruct Qp | reflexivity].
Qed.
Theorem request_arrives (Hd : Type) (gs : list (method * entry_point * Hd)) m ep h n p q hd ss l len :
  In (m, ep, h) (accepted gs) -> unshadowed (accepted gs) ep (map enc (fill ep ss)) ->
  plain_entry ep -> ep <> [] ->
  path_fits ep p ss -> Forall path_safe ss -> first_ok (fill ep ss) ->
  query_fits q -> (p = None -> q = None) ->
  header_fits hd l -> forallb safe_header (l ++ [content_length len]) = true ->
  exists r x hs, encode_request ep (SStruct n (value_parts p q hd)) len = Ok r /\
    deliver (rb_headers r) = Some hs /\ parse_url (rb_target r) = Some x /\
    route (build gs) m (u_path x) = Ok (inl h) /\
    de_request ep x hs (TStruct n (typed_parts p q hd)) = Ok (SStruct n (value_parts p q hd)).
Proof.
  intros I Un Pe Ne Pf Ps Fo Qf Pq Hf Sh. destruct (request_arrives_as Hd gs m ep h n p q hd ss l len I Un Pe Ne Pf Ps Fo Qf Pq Hf Sh) as (r & x & hs & A & B & C & D & E & _).
  exists r, x, hs. repeat split; assumption.
Qed.
End Arrives.

(** ** Queries need a path (C10) *)
Section NeedsPath.
Context `{urlenv} `{floatlib}.

Lemma parts_query_path ps q hs pre v post : parts ps q hs = pre ++ (u "query", v) :: post -> (ps = [] -> q = None) -> In (u "path") (map fst pre).
Proof.
  unfold parts. intros E Pq.
  assert (Z : q <> None).
  { intros ->. assert (I : In (u "query", v) (pre ++ (u "query", v) :: post)) by (apply in_or_app; right; left; reflexivity).
    rewrite <- E in I. apply in_app_or in I. cbn [app] in I. destruct I as [I|I]; apply in_map_iff in I; destruct I as (? & I & _); discriminate I. }
  destruct ps as [|p ps]; [elim Z; auto|]. destruct pre as [|[k w] pre]; cbn in E; [discriminate E|].
  injection E as <- _ _. left. reflexivity.
Qed.

Theorem query_needs_path ep v len pre q post : body_of v = Some (false, pre ++ (u "query", q) :: post) ->
  ~ In (u "path") (map fst pre) ->
  (encode_request ep v len = Err Invalid \/ encode_request ep v len = Panic) /\ (pre = [] -> encode_request ep v len = Err Invalid).
Proof.
  intros B N.
  assert (X : forall r, encode_request ep v len <> Ok r).
  { intros r E. apply encode_ok_iff in E. destruct E as (b & B' & S). rewrite B in B'. injection B' as <-.
    inversion S as [ps q' hs tss ql ls Pq F Q Hd Ef|]; subst. apply N. eapply parts_query_path; eassumption. }
  destruct (encode_total ep v len) as [[r E]|[E|E]]; [elim (X r E)|auto|]. split; [auto|]. intros ->.
  apply encode_panic_iff in E. unfold panics in E. rewrite B in E. cbn [app] in E. destruct E as [_ [E|(h & r & E)]]; [discriminate|].
  injection E as E _ _. discriminate E.
Qed.
End NeedsPath.

Section Order.
Context `{urlenv} `{floatlib}.
Lemma sent_field_order ep v len r fs : encode_request ep v len = Ok r -> body_of v = Some (false, fs) ->
  exists ps q hs, (ps = [] -> q = None) /\ fs = parts ps q hs.
Proof.
  intros E B. apply encode_ok_iff in E. destruct E as (b & B' & S). rewrite B in B'. injection B' as <-.
  inversion S as [ps q hs tss ql ls Pq F Q Hd Ef|]; subst. eauto.
Qed.
Lemma unknown_field_refused ep v len b k w : body_of v = Some b -> In (k, w) (snd b) ->
  k <> u "path" -> k <> u "query" -> k <> u "header" -> forall r, encode_request ep v len <> Ok r.
Proof.
  intros B I N1 N2 N3 r E. apply encode_ok_iff in E. destruct E as (b' & B' & S). rewrite B in B'. injection B' as <-.
  destruct S as [ps q hs tss ql ls Pq F Q Hd|ts A]; cbn [snd] in I; [|exact I].
  unfold parts in I. apply in_app_or in I. destruct I as [I|I]; [apply in_map_iff in I; destruct I as (? & I & _); congruence|].
  apply in_app_or in I. destruct I as [I|I]; [|apply in_map_iff in I; destruct I as (? & I & _); congruence].
  destruct q; [|contradiction]. destruct I as [I|[]]. congruence.
Qed.
End Order.
