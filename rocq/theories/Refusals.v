(** * The kind of error of a refusal. *)
From Verif Require Import Base Utf8 Decimal DepUrl Serde Json Status Procedure SerHeader SerRequest SerResponse DePath DeQuery DeHeader DeRequest DeResponse.
From Verif Require Import ScalarSpec FieldSpec ResponseSpec FieldProofs ResponseProofs DecodeProofs ValueInd JsonWriteSpec JsonWrite.
Open Scope N_scope.

Section Refusals.
Context `{floatlib}.

Lemma header_mild v hs : mild (ser_header v (hser_new hs)).
Proof. pose proof (ser_header_spec v hs) as Q. destruct (header_written v); [destruct Q as (s & E & _) | rename Q into E]; rewrite E; discriminate. Qed.
Lemma resp_header_mild v s : mild (resp_header v s).
Proof. unfold resp_header. destruct (ss_resp s); [|discriminate]. apply mild_bind; [apply header_mild | discriminate]. Qed.
Lemma set_status_mild x s : mild (set_variant_status x s).
Proof.
  unfold set_variant_status. apply mild_bind; [apply mild_assert|]. intros _ _. apply mild_bind; [|discriminate].
  destruct (name_ok_or_invalid x) as [[st E]|E]; rewrite E; discriminate.
Qed.
Lemma json_mild v : mild (to_json_string v).
Proof.
  unfold to_json_string. apply mild_bind; [|discriminate]. destruct (to_json_cases v) as [[E _]|(j & E & _)]; rewrite E; discriminate.
Qed.
Lemma resp_field_mild k v s : mild (resp_field k v s).
Proof.
  unfold resp_field. destruct (ustr_eqb k _).
  - unfold resp_status. apply mild_bind; [apply mild_assert|]. intros _ _. apply mild_bind; [apply json_mild|]. intros t _. apply mild_bind; [apply mild_ok_or|]. intros c _.
    apply mild_bind; [apply mild_ok_or | discriminate].
  - destruct (ustr_eqb k _); [|discriminate]. apply mild_bind; [apply mild_assert|]. intros _ _. apply resp_header_mild.
Qed.
Lemma resp_fields_mild fs : forall s, mild (resp_fields fs s).
Proof. induction fs as [|[k v] fs IH]; intros s; cbn [resp_fields]; [discriminate|]. apply mild_bind; [apply resp_field_mild|]. intros s' _. apply IH. Qed.
Lemma resp_variant_fields_mild fs : forall s, mild (resp_variant_fields fs s).
Proof.
  induction fs as [|[k v] fs IH]; intros s; cbn [resp_variant_fields]; [discriminate|]. apply mild_bind; [|intros s' _; apply IH].
  unfold resp_variant_field. destruct (ustr_eqb k _); [apply resp_header_mild | discriminate].
Qed.
Lemma encode_response_mild v len : mild (encode_response v len).
Proof.
  unfold encode_response. apply mild_bind; [|intros s _; unfold finish_response; destruct (ss_resp s); discriminate].
  generalize sser_new as st. induction v; intros st; cbn [ser_response]; try discriminate; auto using set_status_mild, resp_fields_mild.
  apply mild_bind; [apply set_status_mild|]. intros s' _. apply resp_variant_fields_mild.
Qed.
Theorem encode_response_refused v len : (forall st hs, ~ answers (core v) st hs) <-> encode_response v len = Err Invalid.
Proof.
  pose proof (encode_response_safe v len) as S. pose proof (encode_response_mild v len) as M. pose proof (encode_response_iff v len) as X. split.
  - intros N. destruct (encode_response v len) as [r|[]| |]; try contradiction; [|reflexivity].
    destruct (proj1 (X r) eq_refl) as (st & hs & A & _). destruct (N st hs A).
  - intros E st hs A. pose proof (proj2 (X _) (ex_intro _ st (ex_intro _ hs (conj A eq_refl)))) as Q. congruence.
Qed.

(** Self-describing types, bare or inside newtypes. *)
Inductive self_describing : ty -> Prop :=
| SdAny : self_describing TAny
| SdNewtype n t : self_describing t -> self_describing (TNewtype n t).
Theorem self_describing_refused t : self_describing t ->
  (forall s, de_path t s = Err Other) /\ (forall s, de_query t s = Err Other) /\ (forall s, de_header t s = Err Other) /\
  (forall ep x hs, de_request ep x hs t = Err Other) /\ (forall code hs, de_response code hs t = Err Other).
Proof.
  unfold de_request, de_response. generalize RInit SInit. intros r p.
  induction 1 as [|n t _ (A & B & C & D & E)]; [repeat split|].
  split; [intros s; cbn [de_path]; rewrite A; reflexivity|]. split; [intros s; cbn [de_query]; rewrite B; reflexivity|]. split; [intros s; cbn [de_header]; rewrite C; reflexivity|].
  split; [intros ep x hs; specialize (D ep x hs) | intros code hs; specialize (E code hs)]; [cbn [de_request_from] | cbn [de_response_from]].
  - destruct (de_request_from ep x hs t r) as [[v q]|k| |]; cbn [bind] in *; try discriminate; exact D.
  - destruct (de_response_from code hs t p) as [[v q]|k| |]; cbn [bind] in *; try discriminate; exact E.
Qed.
Theorem self_describing_status code hs n : hs <> [] ->
  de_response code hs (TStruct n [(u "status", TAny)]) = Ok (SStruct n [(u "status", SInt U16 (Z.of_N code))]) /\
  de_response code hs (TStruct n [(u "status", TAny); (u "header", TAny)]) = Err Other.
Proof. intros N. destruct hs as [|[k v] r]; [congruence|]. split; reflexivity. Qed.
End Refusals.
