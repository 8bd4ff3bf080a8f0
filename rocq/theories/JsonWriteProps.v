(** * Property C57: the JSON text of a value, exactly. *)
From Verif Require Import Base Utf8 Decimal Serde Exhibit Json JsonText JsonSpec JsonProofs JsonDe JsonField JsonProps Problem ProblemSpec ProblemProofs ProblemProps
  JsonWriteSpec JsonWrite.
Open Scope N_scope.

Theorem C57_tree_exactly (F : floatlib) v j : to_json v = Ok j <-> shown v j.
Proof. exact (to_json_exact v j). Qed.
Print Assumptions C57_tree_exactly.

(** Only the keys of maps can be the reason for a refusal. *)
Theorem C57_refused_exactly (F : floatlib) v : (to_json v = Err Invalid <-> odd_key v) /\ ((exists j, shown v j) \/ odd_key v) /\ forall j, ~ (shown v j /\ odd_key v).
Proof. exact (json_refusal v). Qed.
Print Assumptions C57_refused_exactly.

(** Both fields, [htrpc::json] and [htrpc::json_pretty], hand exactly this text on as a string. *)
Theorem C57_compact_field (F : floatlib) v w : field_value AsJson v = Ok w <-> exists j s, shown v j /\ spelled Compact j s /\ w = SStr s.
Proof. exact (field_value_exact AsJson v w ltac:(discriminate)). Qed.
Print Assumptions C57_compact_field.

Theorem C57_pretty_field (F : floatlib) v w : field_value AsJsonPretty v = Ok w <-> exists j s, shown v j /\ spelled (Pretty 0) j s /\ w = SStr s.
Proof. exact (field_value_exact AsJsonPretty v w ltac:(discriminate)). Qed.
Print Assumptions C57_pretty_field.

Theorem C57_field_refused (F : floatlib) c v : c <> Plain -> (field_value c v = Err Invalid <-> odd_key v).
Proof. exact (field_value_refused c v). Qed.
Print Assumptions C57_field_refused.

(** One text per tree and layout, and it is a document of that tree. *)
Theorem C57_one_document (J : jsonfloat) o j s : spelled o j s -> (forall s', spelled o j s' -> s' = s) /\ (numbers_ok j -> (nesting j < 128)%nat -> json_document s j).
Proof. exact (spelled_document o j s). Qed.
Print Assumptions C57_one_document.

(** The body of a problem response. *)
Theorem C57_problem_body (F : floatlib) p b : problem_body p = Ok b <-> exists s, spelled (Pretty 0) (JObj (document p)) s /\ b = utf8_encode s.
Proof. exact (problem_body_exact p b). Qed.
Print Assumptions C57_problem_body.

Definition ex_wval : value := SStruct (u "S")
  [(u "id", SNewtypeStruct (u "Id") (SInt I64 (-42))); (u "s", SStr (u "a" ++ [34; 92; 31; 10; 8364])); (u "w", SSome (SF64 7)); (u "no", SSeq []);
   (u "m", SMap [(SInt U8 3, STuple [SBool true; SUnit]); (SChar 120, SUnitVariant (u "E") (u "A"))]);
   (u "e", SStructVariant (u "E") (u "C") [(u "x", SBytes [0; 255])])].
Example C57_case : let F := ex_jfloat in let J := ex_json in
  field_value AsJson ex_wval = Ok (SStr (u "{""id"":-42,""s"":""a\""\\\u001f\n" ++ [8364] ++ u """,""w"":7.0,""no"":[],""m"":{""3"":[true,null],""x"":""A""},""e"":{""C"":{""x"":[0,255]}}}")) /\
  (exists j, shown ex_wval j) /\
  field_value AsJsonPretty (STuple [SInt U8 1; SMap [(SStr (u "a"), SSeq [])]; SNone]) =
    Ok (SStr (u "[" ++ [10] ++ u "  1," ++ [10] ++ u "  {" ++ [10] ++ u "    ""a"": []" ++ [10] ++ u "  }," ++ [10] ++ u "  null" ++ [10] ++ u "]")) /\
  (* a key that is a tuple, deep inside *)
  odd_key (SSome (SStruct (u "S") [(u "m", SMap [(SStr (u "k"), SUnit); (STuple [], SUnit)])])) /\
  field_value AsJson (SSome (SStruct (u "S") [(u "m", SMap [(SStr (u "k"), SUnit); (STuple [], SUnit)])])) = Err Invalid /\
  problem_body (AboutBlank (u "Gone") 410) =
    Ok (u "{" ++ [10] ++ u "  ""type"": ""about:blank""," ++ [10] ++ u "  ""title"": ""Gone""," ++ [10] ++ u "  ""status"": 410" ++ [10] ++ u "}").
Proof.
  cbv zeta. split; [vm_compute; reflexivity|]. split; [exists (match @to_json ex_jfloat ex_wval with Ok j => j | _ => JNull end); apply to_json_exact; vm_compute; reflexivity|].
  split; [vm_compute; reflexivity|]. split; [apply (@to_json_refused ex_jfloat); vm_compute; reflexivity|]. split; vm_compute; reflexivity.
Qed.
