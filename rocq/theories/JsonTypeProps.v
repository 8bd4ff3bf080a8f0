(** * Property C54: a JSON text is decoded as a value of a type exactly when it means that value. *)
From Verif Require Import Base Utf8 Decimal Serde Json JsonText JsonSpec JsonProofs JsonSound JsonDe JsonField ScalarSpec TypeSpec JsonProps Exhibit Problem ProblemSpec ProblemProofs ProblemProps ProblemExactSpec ProblemExact ExactProps JsonTypeSpec JsonType.
Open Scope N_scope.

(** A tree decodes as a value of a type exactly when it means that value. *)
Theorem C54_tree_exactly (F : floatlib) (J : jsonfloat) t j v : wf_ty t = true -> (from_json t j = Ok v <-> means t j v).
Proof. intros W. exact (from_json_exact t W j v). Qed.
Print Assumptions C54_tree_exactly.

(** A text does so exactly when it stands, by the grammar of RFC 8259, for a tree that means the value ... *)
Theorem C54_text_exactly (F : floatlib) (J : jsonfloat) t s v : wf_ty t = true -> (from_json_str t s = Ok v <-> exists j, json_document s j /\ means t j v).
Proof. intros W. exact (from_str_exact t W s v). Qed.
Print Assumptions C54_text_exactly.

(** ... and a body exactly when it is the UTF-8 of such a text. *)
Theorem C54_body_exactly (F : floatlib) (J : jsonfloat) t b v : wf_ty t = true ->
  (from_json_slice t b = Ok v <-> exists s j, utf8_decode b = Some s /\ json_document s j /\ means t j v).
Proof. intros W. exact (from_slice_exact t W b v). Qed.
Print Assumptions C54_body_exactly.

(** A field declared with [with = "htrpc::json"] (or the pretty form) is read so from the string of the URL or header. *)
Theorem C54_field_exactly (F : floatlib) (J : jsonfloat) c t s v : c <> Plain -> wf_ty t = true ->
  (field_read c t (SStr s) = Ok v <-> exists j, json_document s j /\ means t j v).
Proof.
  intros C W. rewrite <- (from_str_exact t W). destruct c; [congruence| |]; cbn [field_read]; destruct (from_json_str t s); split; congruence.
Qed.
Print Assumptions C54_field_exactly.

(** Everything else is refused with [Invalid]: no panic, no other error. *)
Theorem C54_refuses_the_rest (F : floatlib) (J : jsonfloat) t : wf_ty t = true ->
  (forall j, (forall v, ~ means t j v) <-> from_json t j = Err Invalid) /\
  (forall s, (forall j v, json_document s j -> ~ means t j v) <-> from_json_str t s = Err Invalid) /\
  (forall b, (forall s j v, utf8_decode b = Some s -> json_document s j -> ~ means t j v) <-> from_json_slice t b = Err Invalid) /\
  (forall c s, c <> Plain -> (forall j v, json_document s j -> ~ means t j v) <-> field_read c t (SStr s) = Err Invalid).
Proof.
  intros W. split; [|split; [|split]].
  - intros j. split.
    + intros N. destruct (from_json_refuses t j) as [[v E]|E]; [|exact E]. apply (from_json_exact t W) in E. elim (N v E).
    + intros E v M. apply (from_json_exact t W) in M. congruence.
  - intros s. split.
    + intros N. destruct (from_str_refuses t s) as [[v E]|E]; [|exact E]. apply (from_str_exact t W) in E. destruct E as (j & D & M). elim (N j v D M).
    + intros E j v D M. assert (X := proj2 (from_str_exact t W s v) (ex_intro _ j (conj D M))). congruence.
  - intros b. split.
    + intros N. destruct (from_slice_refuses t b) as [[v E]|E]; [|exact E]. apply (from_slice_exact t W) in E. destruct E as (s & j & U & D & M). elim (N s j v U D M).
    + intros E s j v U D M. assert (X := proj2 (from_slice_exact t W b v) (ex_intro _ s (ex_intro _ j (conj U (conj D M))))). congruence.
  - intros c s C. assert (Q : field_read c t (SStr s) = Err Invalid <-> from_json_str t s = Err Invalid).
    { destruct (from_str_refuses t s) as [[v E]|E]; destruct c; cbn [field_read]; try congruence; rewrite E; split; congruence. }
    rewrite Q. split.
    + intros N. destruct (from_str_refuses t s) as [[v E]|E]; [|exact E]. apply (from_str_exact t W) in E. destruct E as (j & D & M). elim (N j v D M).
    + intros E j v D M. assert (X := proj2 (from_str_exact t W s v) (ex_intro _ j (conj D M))). congruence.
Qed.
Print Assumptions C54_refuses_the_rest.

(** No tree means two values of a type. *)
Theorem C54_one_value (F : floatlib) (J : jsonfloat) t j v v' : wf_ty t = true -> means t j v -> means t j v' -> v = v'.
Proof. intros W M M'. apply (from_json_exact t W) in M, M'. congruence. Qed.
Print Assumptions C54_one_value.

Example C54_case : let F := ex_jfloat in let J := ex_json in
  let point := TStruct (u "P") [(u "x", TInt I8); (u "y", TOption TStr)] in
  let shape := TEnum (u "E") [(u "A", VUnit); (u "B", VNewtype TBool); (u "C", VTuple [TChar; point]); (u "D", VStruct [(u "k", TMap (TInt U8) (TSeq TF64))])] in
  wf_ty shape = true /\ AsJson <> Plain /\
  (* members in any order, unknown ones skipped, an absent option *)
  means point (JObj [(u "z", JNull); (u "x", JInt (-128)); (u "z", JBool true)]) (SStruct (u "P") [(u "x", SInt I8 (-128)); (u "y", SNone)]) /\
  (* every kind of variant; maps keep the last value of a repeated key in the place of the first *)
  from_json_str shape (u " ""A"" ") = Ok (SUnitVariant (u "E") (u "A")) /\
  from_json_str shape (u "{""A"":null}") = Ok (SUnitVariant (u "E") (u "A")) /\
  field_read AsJson shape (SStr (u "{""B"":true}")) = Ok (SNewtypeVariant (u "E") (u "B") (SBool true)) /\
  from_json_slice shape (u "{""C"":[""c"",[7,""t""]]}") =
    Ok (STupleVariant (u "E") (u "C") [SChar 99; SStruct (u "P") [(u "x", SInt I8 7); (u "y", SSome (SStr (u "t")))]]) /\
  from_json_str shape (u "{""D"":{""k"":{""1"":[2],""+3"":[],""1"":[4.0]}}}") =
    Ok (SStructVariant (u "E") (u "D") [(u "k", SMap [(SInt U8 1, SSeq [SF64 4]); (SInt U8 3, SSeq [])])]) /\
  (* refused *)
  Forall (fun s => from_json_str shape s = Err Invalid)
    [u """B"""; u """Z"""; u "{""A"":null,""B"":true}"; u "{}"; u "{""B"":1}"; u "{""C"":[""cc"",[7,null]]}"; u "{""C"":[""c"",[128,null]]}";
     u "{""C"":[""c"",[7]]}"; u "{""C"":[""c"",{""x"":1,""x"":1}]}"; u "{""C"":[""c"",{""y"":null}]}"; u "{""C"":[""c"",[7,null],0]}";
     u "{""D"":{""k"":{""256"":[]}}}"; u "{""D"":{""k"":{""1"":[null]}}}"; u "{""D"":{}}"; u "null"; u "{""B"":true"] /\
  from_json_slice shape [255] = Err Invalid.
Proof.
  cbv zeta. split; [reflexivity|]. split; [discriminate|]. split; [refine (proj1 (@from_json_exact ex_jfloat ex_json (TStruct (u "P") [(u "x", TInt I8); (u "y", TOption TStr)]) eq_refl _ _) _); vm_compute; reflexivity|].
  do 5 (split; [vm_compute; reflexivity|]). split; [repeat (apply Forall_cons; [vm_compute; reflexivity|]); constructor | vm_compute; reflexivity].
Qed.
