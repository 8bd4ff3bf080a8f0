(** * [false] arrives (C13), the kind of refusals (C14), duplicates among other parameters (C18). *)
From Verif Require Import Base Utf8 Decimal DepUrl Serde ScalarSpec PathSpec FieldSpec Procedure Msgpack SerPath SerQuery SerHeader SerRequest DePath DeQuery DeHeader DepHttp
  UrlProofs PathProofs PathTrip FieldProofs QueryProofs HeaderProofs FieldMore TypeSpec JsonType DecodeProofs.
Open Scope N_scope.

(** Booleans, possibly inside options and newtypes, and [false] of such a type. *)
Inductive falsish : ty -> value -> Prop :=
| FFalse : falsish TBool (SBool false)
| FSome t v : falsish t v -> falsish (TOption t) (SSome v)
| FNew n t v : falsish t v -> falsish (TNewtype n t) (SNewtypeStruct n v).

Section FieldExtra.
Context `{floatlib}.

Lemma falsish_cell t v : falsish t v -> cell scalar_text v = Some (Some (u "false")) /\ cell header_leaf v = Some (Some (u "false")).
Proof. induction 1; cbn [cell]; auto. Qed.
Lemma falsish_query t v : falsish t v -> query_read t (u "false") = Ok v.
Proof. induction 1; cbn [query_read]; [reflexivity | rewrite IHfalsish; reflexivity | rewrite IHfalsish; reflexivity]. Qed.
Lemma falsish_header t v : falsish t v -> header_read t (u "false") = Ok v.
Proof. induction 1; cbn [header_read]; [reflexivity | rewrite IHfalsish; reflexivity | rewrite IHfalsish; reflexivity]. Qed.
Lemma falsish_text t v s : falsish t v -> scalar_text v = Some s -> s = u "false" /\ read_scalar t s = Some v.
Proof.
  intros B. revert s. induction B as [| |n t v B IH]; intros s; cbn [scalar_text]; [intros [= <-]; auto | discriminate|].
  intros E. destruct (IH s E) as [-> R]. split; [reflexivity|]. cbn [read_scalar]. rewrite R. reflexivity.
Qed.

Lemma query_false_arrives n n' fs vs l nm t v ws s' : NoDup (map fst fs) -> In (nm, t) fs -> In (nm, v) vs -> falsish t v ->
  incl (map fst vs) (map fst fs) -> query_written (SStruct n vs) = Some l ->
  de_query (TStruct n' fs) (qde_new l) = Ok (SStruct n' ws, s') -> In (nm, v) ws.
Proof.
  intros N I Iv B In1 W D. pose proof (proj1 (de_query_struct n' fs l ws N) (ex_intro _ s' D)) as F.
  change (struct_pairs scalar_text (fun n => n) vs = Some l) in W.
  assert (K : forall k x, In (k, x) l -> smem k (map fst fs) = true).
  { intros k x J. destruct (struct_pairs_names _ _ _ _ _ _ W J) as (m & Im & ->). apply smem_In, In1, Im. }
  rewrite (walk_all_known _ _ K) in F.
  pose proof (struct_pairs_in _ _ _ _ _ _ _ W Iv (proj1 (falsish_cell _ _ B))) as Il.
  destruct (filled_field _ _ _ _ _ _ F I) as (w & Iw & [(x & Ix & R)|(A & _ & _)]).
  - destruct F as [ND _].
    assert (x = u "false") as ->. { apply (In_assoc nm l x ND) in Ix. apply (In_assoc nm l _ ND) in Il. congruence. }
    rewrite (falsish_query _ _ B) in R. injection R as <-. exact Iw.
  - exfalso. exact (A _ Il).
Qed.

Lemma header_false_arrives n n' fs vs l nm t v more ws s' : NoDup (map fst fs) -> In (nm, t) fs -> In (nm, v) vs -> falsish t v ->
  lower_name nm -> header_written (SStruct n vs) = Some l -> names_ok (l ++ more) = true ->
  de_header (TStruct n' fs) (hde_new (l ++ more)) = Ok (SStruct n' ws, s') -> In (nm, v) ws.
Proof.
  intros N I Iv B [As Lo] W O D. pose proof (proj1 (de_header_struct n' fs (l ++ more) ws N O) (ex_intro _ s' D)) as F.
  change (struct_pairs header_leaf utf8_encode vs = Some l) in W.
  pose proof (struct_pairs_in _ _ _ _ _ _ _ W Iv (proj2 (falsish_cell _ _ B))) as Il.
  rewrite (utf8_encode_ascii nm As) in Il.
  assert (Ir : In (nm, u "false") (relevant (map fst fs) (l ++ more))).
  { unfold relevant. apply filter_In. split.
    - apply in_map_iff. exists (nm, u "false"). split; [cbn [fst snd]; rewrite Lo; reflexivity | apply in_or_app; left; exact Il].
    - cbn [fst]. apply smem_In. apply (in_map fst) in I. exact I. }
  destruct (filled_field _ _ _ _ _ _ F I) as (w & Iw & [(x & Ix & R)|(A & _ & _)]).
  - destruct F as [ND _].
    assert (x = u "false") as ->. { apply (In_assoc nm _ x ND) in Ix. apply (In_assoc nm _ _ ND) in Ir. congruence. }
    rewrite (falsish_header _ _ B) in R. injection R as <-. exact Iw.
  - exfalso. exact (A _ Ir).
Qed.

(** ** Refusals are [Invalid] *)
Lemma refuses_err {A} (r : res A) e : refuses r -> r = Err e -> r = Err Invalid.
Proof. intros [[v ->]| ->] E; [discriminate | reflexivity]. Qed.
Lemma query_unreadable_kind n fs l nm t : wf_ty (TStruct n fs) = true -> In (nm, t) fs -> unreadable t ->
  de_query (TStruct n fs) (qde_new l) = Err Invalid.
Proof.
  intros W I U. pose proof W as W'. cbn [wf_ty] in W'. apply andb_prop in W'. destruct W' as [N _]. apply nodup_names_NoDup in N.
  destruct (query_unreadable n fs l nm t N I U) as [e E]. refine (refuses_err _ e _ E). apply refuses_of; [apply de_query_safe | apply de_query_mild, W].
Qed.
Lemma header_unreadable_kind n fs hs nm t : wf_ty (TStruct n fs) = true -> names_ok hs = true -> In (nm, t) fs -> unreadable t \/ t = TUnit ->
  de_header (TStruct n fs) (hde_new hs) = Err Invalid.
Proof.
  intros W O I U. pose proof W as W'. cbn [wf_ty] in W'. apply andb_prop in W'. destruct W' as [N _]. apply nodup_names_NoDup in N.
  destruct (header_unreadable n fs hs nm t N O I U) as [e E]. refine (refuses_err _ e _ E). apply refuses_of; [apply de_header_safe, O | apply de_header_mild, W].
Qed.
Lemma path_unreadable_kind ep segs ts t : forallb wf_ty ts = true ->
  In t ts -> (t = TChar \/ t = TUnit \/ (exists n vs, t = TEnum n vs) \/ (exists n, t = TNewtype n TChar)) ->
  de_path (TTuple ts) (mkPde false segs ep (var_count ep)) = Err Invalid.
Proof.
  intros W I U.
  assert (R : refuses (de_path (TTuple ts) (mkPde false segs ep (var_count ep)))) by (apply refuses_of; [apply de_path_safe | apply de_path_mild; exact W]).
  destruct R as [[[v s'] E]|E]; [|exact E]. exfalso.
  assert (X : exists vs, v = STuple vs).
  { cbn [de_path] in E. repeat match type of E with bind ?r _ = _ => destruct r as [[? ?]| | |]; cbn [bind] in E; try discriminate E end. injection E as <- _. eauto. }
  destruct X as [vs ->]. exact (path_refused ep segs ts t vs s' I U E).
Qed.

(** ** Duplicates *)
Lemma query_twice_walk n fs l : NoDup (map fst fs) -> ~ NoDup (map fst (walk (map fst fs) (flat l))) ->
  exists e, de_query (TStruct n fs) (qde_new l) = Err e.
Proof. intros N D. apply query_refuse; [exact N|]. intros vs [ND _]. exact (D ND). Qed.
End FieldExtra.

Section PathFalse.
Context `{urlenv} `{floatlib}.
Lemma path_false_arrives ep vs ss ts i t v ws s' : plain_entry ep -> length ss = var_count ep -> length ts = var_count ep ->
  all_some (map scalar_text vs) = Some ss -> Forall path_safe ss -> first_ok (fill ep ss) ->
  nth_error ts i = Some t -> nth_error vs i = Some v -> falsish t v ->
  de_path (TTuple ts) (mkPde false (fold_left push (fill ep ss) [[]]) ep (var_count ep)) = Ok (STuple ws, s') -> nth_error ws i = Some v.
Proof.
  intros P L1 L2 A Sa O T V B D.
  destruct (proj1 (client_path_iff ep ss ts ws P L1 L2 Sa O) (ex_intro _ s' D)) as [L R].
  assert (X : nth_error ss i = scalar_text v /\ nth_error ss i <> None).
  { clear - A V. revert vs ss A V. induction i as [|i IH]; intros [|w vs] ss A V; try discriminate; cbn in A, V.
    - injection V as ->. destruct (scalar_text v) as [x|] eqn:E; [|discriminate]. destruct (all_some _); [|discriminate].
      injection A as <-. split; [reflexivity | discriminate].
    - destruct (scalar_text w); [|discriminate]. destruct (all_some (map scalar_text vs)) as [xs|] eqn:E; [|discriminate].
      injection A as <-. apply (IH vs xs E V). }
  destruct X as [X1 X2]. destruct (nth_error ss i) as [x|] eqn:Y; [|congruence].
  destruct (nth_error ws i) as [w|] eqn:W.
  - specialize (R i t x w T Y W). rewrite (proj2 (falsish_text t v x B (eq_sym X1))) in R. congruence.
  - apply nth_error_None in W. assert (Q : nth_error ts i <> None) by congruence. apply nth_error_Some in Q. lia.
Qed.
End PathFalse.
