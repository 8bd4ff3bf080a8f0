(** * Proofs for C100: calls to a server whose procedures do not clash. *)
From Verif Require Import Base Utf8 Decimal DepUrl Serde Procedure ScalarSpec PathSpec FieldSpec Status SerPath SerQuery SerHeader SerRequest SerResponse DePath DeQuery DeHeader DeRequest DeResponse
  Router RouterSpec RouterProofs DepHttp UrlProofs PathProofs PathTrip FieldProofs QueryProofs HeaderProofs FieldMore RequestSpec RequestProofs RequestTrip RequestArrives
  ResponseSpec ResponseProofs ResponseTrip Json JsonText Problem ProblemSpec ProblemProofs Error Client ClientSpec ClientProofs Server ServerSpec ServerProofs EndToEndSpec EndToEnd
  GrowthSpec Growth ClashSpec Clash.
Open Scope N_scope.

Lemma calls_arrive (F : floatlib) (U : urlenv) (W : httpenv) (CConn SConn R : Type)
    (explain : request SConn -> ekind -> ustr * option ustr * option (list ustr)) (reason : status -> ustr)
    (w : wire CConn) (ln : link SConn) (ps : list (hproc SConn R)) (peer : CConn -> SConn) (content : SConn -> bytes)
    (p : proc) (hp : hproc SConn R) n pa qu hd ss l body connect c mk v1 b1 :
  pr_method p = hp_method hp -> pr_entry p = hp_entry hp ->
  In (hp_method hp, hp_entry hp, hp) (accepted (registrations ps)) ->
  clash_free (registrations ps) ->
  plain_entry (hp_entry hp) -> hp_entry hp <> [] ->
  hp_req hp = TStruct n (typed_parts pa qu hd) ->
  path_fits (hp_entry hp) pa ss -> Forall path_safe ss -> first_ok (fill (hp_entry hp) ss) ->
  query_fits qu -> (pa = None -> qu = None) ->
  header_fits hd l -> forallb safe_header (l ++ [length_header (N.of_nat (length body))]) = true ->
  settle connect = Comes c -> (forall r, exists c1, settle (w_write w r body c) = Comes c1) ->
  carries_requests w ln peer content (pr_method p) -> carries_responses explain reason w ln ps peer ->
  (forall q, content (q_conn q) = body -> exists q', settle (hp_body hp (SStruct n (value_parts pa qu hd)) q) = Comes (q', mk (SStruct n (value_parts pa qu hd)) body)) ->
  nsettle (hp_call hp (mk (SStruct n (value_parts pa qu hd)) body)) = Comes (v1, b1) ->
  suits (pr_resp p) v1 ->
  exists c0 n0, forall n', (n0 <= n')%nat ->
    snd (drive w p n' (call_new (SStruct n (value_parts pa qu hd), body) connect)) =
      Ok (Done v1 (match pr_method p with MHead => [] | _ => b1 end) c0).
Proof.
  intros A1 A2 I C P Q R1 Pf. intros.
  apply (call_end_to_end explain reason w ln ps peer content p hp n pa qu hd ss l body connect c mk v1 b1); try assumption.
  apply clash_free_unshadowed; [exact C | exists (hp_method hp), hp; apply accepted_In, I |].
  apply matches_fill; [exact P | exact (path_fits_length _ _ _ Pf)].
Qed.

(** ** Where two clash there is a call that is lost *)
Section Lost.
Context `{urlenv}.

Lemma plain_safe c : plain_const c -> path_safe c.
Proof.
  intros (_ & P & A & B). split; [|split; [exact A | split; [exact B|]]].
  - intros x I. destruct (P x I) as [X _]. lia.
  - intros _ a x b -> _. destruct (P x) as [X _]; [apply in_app_iff; right; left; reflexivity | lia].
Qed.
Lemma x_safe : path_safe [120].
Proof.
  split; [|split; [discriminate | split; [discriminate|]]].
  - intros c [<-|[]]. lia.
  - intros _ a c b E _. destruct a as [|y [|z a]]; [injection E as <- | discriminate | discriminate]. lia.
Qed.

Lemma some_values : forall ep : entry_point, exists ss, length ss = var_count ep /\ Forall path_safe ss /\ Forall (fun s => s <> []) ss.
Proof.
  intros ep. exists (repeat [120] (var_count ep)). split; [apply repeat_length|].
  split; apply Forall_forall; intros s I; apply repeat_spec in I; subst s; [exact x_safe | discriminate].
Qed.

Definition good_for (a b : entry_point) (ss : list ustr) : Prop :=
  length ss = var_count a /\ Forall path_safe ss /\ Forall (fun s => s <> []) ss /\ diverts a b (map enc (fill a ss)).

Lemma clash_values : forall a b, plain_entry a -> plain_entry b -> clash a b ->
  exists ss, good_for a b ss \/ good_for b a ss.
Proof.
  assert (T : forall (sg : segment) e, plain_entry (sg :: e) -> plain_entry e) by (intros sg e P c I; apply P; right; exact I).
  induction a as [|[c|] a IH]; intros [|[c'|] b] P Q; cbn [clash]; try contradiction.
  - intros [<- X]. destruct (IH b (T _ _ P) (T _ _ Q) X) as (ss & [(L & S & N & D)|(L & S & N & D)]); exists ss; [left | right];
      unfold good_for; rewrite var_count_cons; cbn [is_var plus fill map diverts]; auto.
  - intros _. destruct (some_values b) as (ss & L & S & N). pose proof (P c (or_introl eq_refl)) as Pc. exists (c :: ss). right.
    unfold good_for. rewrite var_count_cons. cbn [is_var plus fill map diverts length]. rewrite L.
    split; [reflexivity|]. split; [constructor; [apply plain_safe, Pc | exact S]|].
    split; [constructor; [apply Pc | exact N]|]. symmetry. apply plain_enc, Pc.
  - intros _. destruct (some_values a) as (ss & L & S & N). pose proof (Q c' (or_introl eq_refl)) as Pc. exists (c' :: ss). left.
    unfold good_for. rewrite var_count_cons. cbn [is_var plus fill map diverts length]. rewrite L.
    split; [reflexivity|]. split; [constructor; [apply plain_safe, Pc | exact S]|].
    split; [constructor; [apply Pc | exact N]|]. symmetry. apply plain_enc, Pc.
  - intros X. destruct (IH b (T _ _ P) (T _ _ Q) X) as (ss & [(L & S & N & D)|(L & S & N & D)]); exists ([120] :: ss); [left | right];
      unfold good_for; rewrite var_count_cons; cbn [is_var plus fill map diverts length]; rewrite L;
      (split; [reflexivity | split; [constructor; [exact x_safe | exact S] | split; [constructor; [discriminate | exact N] | exact D]]]).
Qed.

Lemma fill_first_ok ep ss : plain_entry ep -> Forall (fun s => s <> []) ss -> first_ok (fill ep ss).
Proof.
  intros P N. destruct ep as [|[c|] ep]; cbn [fill]; [exact I | |].
  - destruct (P c (or_introl eq_refl)) as [X _]. destruct c; [contradiction | exact I].
  - destruct ss as [|s ss]; [exact I|]. inversion N; subst. destruct s; [contradiction | exact I].
Qed.

Context `{floatlib}.
Lemma texts_call ep n ss len : plain_entry ep -> ep <> [] -> length ss = var_count ep -> Forall path_safe ss -> first_ok (fill ep ss) ->
  exists r, encode_request ep (SStruct n [(u "path", STuple (map SStr ss))]) len = Ok r /\
    parse_url (rb_target r) = Some (mkUrl (Some (map enc (fill ep ss))) None).
Proof.
  intros P Ne L S Fo. set (path := fold_left push (fill ep ss) [[]]).
  assert (Gp : good_path path).
  { apply pushes_good; [|exact good_root]. apply Forall_impl with (P := path_safe); [exact path_safe_ok | apply fill_safe; assumption]. }
  assert (Ep : path = map enc (fill ep ss)).
  { unfold path. rewrite push_root; [|apply fill_safe; assumption|exact Fo].
    pose proof (fill_length ep ss L) as Lf. destruct (fill ep ss); [|reflexivity]. destruct ep; [contradiction | discriminate]. }
  exists (mkReqb (url_text path None) [length_header len]). split.
  - apply encode_ok_iff. exists (false, [(u "path", STuple (map SStr ss))]). split; [reflexivity|].
    change [(u "path", STuple (map SStr ss))] with (parts [STuple (map SStr ss)] None []).
    unfold path. replace (fill ep ss) with (flat_map (fill ep) [ss]) by (cbn; apply app_nil_r).
    apply (RequestSpec.Sends ep len [STuple (map SStr ss)] None [] [ss] None []); [discriminate | | exact Logic.I | constructor].
    constructor; [|constructor]. split; [|exact L]. cbn [path_args]. clear.
    induction ss as [|s ss IH]; [reflexivity|]. cbn [map all_some scalar_text]. cbn in IH. rewrite IH. reflexivity.
  - cbn [rb_target]. rewrite (parse_url_text path None Gp Logic.I), Ep. reflexivity.
Qed.

Lemma clash_costs {Hd : Type} (gs : list (method * entry_point * Hd)) g g' n len : NoDup (map snd (accepted gs)) ->
  In g (accepted gs) -> In g' (accepted gs) -> plain_entry (snd (fst g)) -> plain_entry (snd (fst g')) ->
  clash (snd (fst g)) (snd (fst g')) ->
  exists m ep h ss r segs, ((m, ep, h) = g \/ (m, ep, h) = g') /\
    encode_request ep (SStruct n [(u "path", STuple (map SStr ss))]) len = Ok r /\
    parse_url (rb_target r) = Some (mkUrl (Some segs) None) /\ matches ep segs /\
    route (build gs) m (Some segs) <> Ok (inl h).
Proof.
  intros N I J P Q C. destruct (clash_values _ _ P Q C) as (ss & G).
  assert (K : forall m ep h m' ep' h', In (m, ep, h) (accepted gs) -> In (m', ep', h') (accepted gs) -> plain_entry ep -> good_for ep ep' ss ->
    exists r segs, encode_request ep (SStruct n [(u "path", STuple (map SStr ss))]) len = Ok r /\
      parse_url (rb_target r) = Some (mkUrl (Some segs) None) /\ matches ep segs /\ route (build gs) m (Some segs) <> Ok (inl h)).
  { intros m ep h m' ep' h' I0 J0 P0 (L & S & E & D).
    assert (Ne : ep <> []) by (intros ->; destruct ep'; destruct D).
    destruct (texts_call ep n ss len P0 Ne L S (fill_first_ok ep ss P0 E)) as (r & A & B).
    assert (M : matches ep (map enc (fill ep ss))) by (apply matches_fill; assumption).
    exists r, (map enc (fill ep ss)). split; [exact A|]. split; [exact B|]. split; [exact M|].
    exact (diverted_lost gs m ep h m' ep' h' _ N I0 J0 M D). }
  destruct g as [[m ep] h], g' as [[m' ep'] h']. destruct G as [G|G].
  - destruct (K m ep h m' ep' h' I J P G) as (r & segs & R). exists m, ep, h, ss, r, segs. split; [left; reflexivity | exact R].
  - destruct (K m' ep' h' m ep h J I Q G) as (r & segs & R). exists m', ep', h', ss, r, segs. split; [right; reflexivity | exact R].
Qed.
End Lost.
