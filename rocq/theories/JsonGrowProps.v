(** * Property C83: JSON documents between versions of a type. *)
From Verif Require Import Base Utf8 Decimal Serde Json JsonText JsonSpec JsonDe JsonTrip JsonField ScalarSpec FieldProofs TypeSpec JsonTypeSpec JsonType JsonProps JsonGrowSpec JsonGrow.
Open Scope N_scope.

(** The text written for a value of [t], compact or pretty, is read by every type [t] is readable as, as a value of that type saying the
    same: fields the reader does not know are left out, fields the writer does not know are absent. *)
Theorem C83_text (F : floatlib) (J : jsonfloat) t t' v j : readable_as t t' -> wf_ty t' = true -> has_ty t v = true -> json_faithful v -> to_json v = Ok j -> (nesting j < 128)%nat ->
  exists v', from_json_str t' (print_json j) = Ok v' /\ from_json_str t' (print_pretty 0 j) = Ok v' /\ has_ty t' v' = true /\ kept v v'.
Proof. exact (text_passes t t' v j). Qed.
Print Assumptions C83_text.

(** So it is between fields declared with [htrpc::json] or the pretty form, also if one side has the other form. *)
Theorem C83_field (F : floatlib) (J : jsonfloat) c c' t t' v j w : c <> Plain -> c' <> Plain -> readable_as t t' -> wf_ty t' = true -> has_ty t v = true -> json_faithful v ->
  to_json v = Ok j -> (nesting j < 128)%nat -> field_value c v = Ok w -> exists v', field_read c' t' w = Ok v' /\ has_ty t' v' = true /\ kept v v'.
Proof.
  intros C C' R W T Fa E D V. destruct (text_passes t t' v j R W T Fa E D) as (v' & P1 & P2 & Y & K). exists v'. split; [|auto].
  destruct c; [congruence| |]; cbn [field_value json_text] in V; unfold to_json_string, to_json_string_pretty in V; rewrite E in V; cbn [bind] in V; injection V as <-;
    (destruct c'; [congruence| |]; cbn [field_read]; rewrite ?P1, ?P2; reflexivity).
Qed.
Print Assumptions C83_field.

(** A text with something the reader does not know is refused, however deep in the value it is. *)
Theorem C83_too_new_refused (F : floatlib) (J : jsonfloat) t t' v j : too_new v t' -> wf_ty t' = true -> has_ty t v = true -> json_faithful v -> to_json v = Ok j -> (nesting j < 128)%nat ->
  from_json_str t' (print_json j) = Err Invalid /\ from_json_str t' (print_pretty 0 j) = Err Invalid.
Proof. exact (text_refused t t' v j). Qed.
Print Assumptions C83_too_new_refused.

(** All this is about what htrpc writes. A document from elsewhere may give a struct as an array, by position: of two versions one of which is
    readable as the other the old one may read it and the new one refuse it, or read other values for the same fields. *)
Theorem C83_by_position_refuted (F : floatlib) (J : jsonfloat) : exists t t1 t2 s v v2, readable_as t t1 /\ readable_as t t2 /\ wf_ty t1 = true /\ wf_ty t2 = true /\
  from_json_str t s = Ok v /\ from_json_str t1 s = Err Invalid /\ from_json_str t2 s = Ok v2 /\ ~ kept v v2.
Proof.
  exists (TStruct (u "R") [(u "lo", TInt U8); (u "hi", TInt U8)]), (TStruct (u "R") [(u "lo", TInt U8); (u "hi", TInt U8); (u "by", TOption (TInt U8))]),
    (TStruct (u "R") [(u "hi", TInt U8); (u "lo", TInt U8)]), (u "[1,2]"),
    (SStruct (u "R") [(u "lo", SInt U8 1); (u "hi", SInt U8 2)]), (SStruct (u "R") [(u "hi", SInt U8 1); (u "lo", SInt U8 2)]).
  split; [|split]; [| |split; [|split; [|split; [|split; [|split]]]]]; try (vm_compute; reflexivity).
  - apply RaStruct. constructor; [apply nodup_names_NoDup; reflexivity|]. intros k t' [Q|[Q|[Q|[]]]]; injection Q as <- <-.
    + left. exists (TInt U8). split; [left; reflexivity | apply RaSame].
    + left. exists (TInt U8). split; [right; left; reflexivity | apply RaSame].
    + right. split; [intros [Q|[Q|[]]]; discriminate Q | exists (TInt U8); reflexivity].
  - apply RaStruct. constructor; [apply nodup_names_NoDup; reflexivity|]. intros k t' [Q|[Q|[]]]; injection Q as <- <-; left; exists (TInt U8); (split; [|apply RaSame]).
    + right. left. reflexivity.
    + left. reflexivity.
  - intros K. inversion K as [| | | | | | | | | | | | |? ? ? ? Kf| | | |]; subst.
    inversion Kf as [? ? H]; subst. destruct (H (u "hi") (SInt U8 1) (or_introl eq_refl)) as [(v & [Q|[Q|[]]] & Kv)|(N & _)].
    + discriminate Q.
    + injection Q as <-. inversion Kv.
    + apply N. right. left. reflexivity.
Qed.
Print Assumptions C83_by_position_refuted.

(** A type, a newer one and a value of each. *)
Definition old_doc : ty := TStruct (u "Doc")
  [(u "id", TInt U32); (u "kind", TEnum (u "Kind") [(u "Plain", VUnit); (u "Mark", VNewtype TChar)]); (u "title", TStr); (u "draft", TBool);
   (u "parts", TSeq (TTuple [TInt U8; TOption TStr]))].
Definition new_doc : ty := TStruct (u "Document")
  [(u "kind", TEnum (u "Kind") [(u "Plain", VUnit); (u "Mark", VNewtype TStr); (u "Link", VStruct [(u "to", TStr)])]); (u "id", TNewtype (u "Id") (TInt U64)); (u "title", TOption TStr);
   (u "parts", TSeq (TTuple [TInt I16; TOption TStr])); (u "lang", TOption TStr)].
Definition old_value : value := SStruct (u "Doc")
  [(u "id", SInt U32 7); (u "kind", SNewtypeVariant (u "Kind") (u "Mark") (SChar 33)); (u "title", SStr (u "A")); (u "draft", SBool true);
   (u "parts", SSeq [STuple [SInt U8 200; SNone]; STuple [SInt U8 1; SSome (SStr (u "x"))]])].
Definition new_value : value := SStruct (u "Document")
  [(u "kind", SStructVariant (u "Kind") (u "Link") [(u "to", SStr (u "B"))]); (u "id", SNewtypeStruct (u "Id") (SInt U64 7)); (u "title", SNone);
   (u "parts", SSeq []); (u "lang", SSome (SStr (u "en")))].

Example C83_case : readable_as old_doc new_doc /\ wf_ty new_doc = true /\
  let F := ex_jfloat in let J := ex_json in has_ty old_doc old_value = true /\ json_faithful old_value /\
  to_json_string old_value = Ok (u "{""id"":7,""kind"":{""Mark"":""!""},""title"":""A"",""draft"":true,""parts"":[[200,null],[1,""x""]]}") /\
  (s <- to_json_string old_value ;; from_json_str new_doc s) = Ok (SStruct (u "Document")
    [(u "kind", SNewtypeVariant (u "Kind") (u "Mark") (SStr (u "!"))); (u "id", SNewtypeStruct (u "Id") (SInt U64 7)); (u "title", SSome (SStr (u "A")));
     (u "parts", SSeq [STuple [SInt I16 200; SNone]; STuple [SInt I16 1; SSome (SStr (u "x"))]]); (u "lang", SNone)]).
Proof.
  split; [|split; [reflexivity|]].
  - apply RaStruct. constructor; [apply nodup_names_NoDup; reflexivity|]. intros k t' [Q|[Q|[Q|[Q|[Q|[]]]]]]; injection Q as <- <-.
    + left. eexists. split; [right; left; reflexivity|]. apply RaEnum. intros x t A. cbn [assoc] in A |- *. destruct (ustr_eqb x (u "Plain")); [injection A as <-; exists VUnit; split; [reflexivity | constructor]|].
      destruct (ustr_eqb x (u "Mark")); [|discriminate]. injection A as <-. exists (VNewtype TStr). split; [reflexivity|]. apply RvNewtype, RaChar.
    + left. eexists. split; [left; reflexivity|]. apply RaWrap, RaInt; cbn; lia.
    + left. eexists. split; [right; right; left; reflexivity|]. apply RaOptional; [reflexivity | apply RaSame].
    + left. eexists. split; [right; right; right; right; left; reflexivity|]. apply RaSeq, RaTuple. constructor; [apply RaInt; cbn; lia|]. constructor; [apply RaSame | constructor].
    + right. split; [|exists TStr; reflexivity]. intros I. cbn [map fst In old_doc] in I. repeat (destruct I as [Q|I]; [discriminate Q|]). exact I.
  - split; [vm_compute; reflexivity|]. split; [cbn; tauto|]. split; vm_compute; reflexivity.
Qed.
Example C83_too_new_case : too_new new_value old_doc /\ wf_ty old_doc = true /\
  let F := ex_jfloat in let J := ex_json in has_ty new_doc new_value = true /\ json_faithful new_value /\ (s <- to_json_string new_value ;; from_json_str old_doc s) = Err Invalid.
Proof.
  split; [|split; [reflexivity | split; [vm_compute; reflexivity | split; [cbn; tauto | vm_compute; reflexivity]]]].
  apply TnInField with (k := u "kind") (v := SStructVariant (u "Kind") (u "Link") [(u "to", SStr (u "B"))]) (t := TEnum (u "Kind") [(u "Plain", VUnit); (u "Mark", VNewtype TChar)]).
  - left. reflexivity.
  - right. left. reflexivity.
  - apply TnVariant with (u "Link"); reflexivity.
Qed.
