(** * Property C79: the order of headers, query parameters and members of objects. *)
From Coq Require Import Sorting.Permutation.
From Verif Require Import Base Utf8 Decimal DepUrl Serde Status Procedure DeQuery DeRequest DeResponse Json JsonText JsonDe Problem JsonField JsonSpec HeaderProofs TypeSpec OrderSpec OrderProofs
  JsonProps JsonSound Exhibit PathProps FieldProps RequestProps ResponseProps ProblemProps TypeProps DecodeProps JsonTypeProps.
Open Scope N_scope.

(** A request comes to the same whatever the order of its headers and of its query parameters, and whatever the case of the names of its
    headers: the same value, or refused alike; if the two are read by name and all parameters are known. *)
Theorem C79_request (F : floatlib) ep x x' hs hs' t : names_ok hs = true -> names_ok hs' = true -> wf_ty t = true ->
  u_path x = u_path x' -> Permutation (query_pairs x) (query_pairs x') -> same_headers hs hs' -> asks_by_name (query_pairs x) t ->
  de_request ep x hs t = de_request ep x' hs' t.
Proof. exact (request_same ep x x' hs hs' t). Qed.
Print Assumptions C79_request.
(** Likewise a response. *)
Theorem C79_response (F : floatlib) code hs hs' t : names_ok hs = true -> names_ok hs' = true -> wf_ty t = true -> same_headers hs hs' -> replies_by_name t ->
  de_response code hs t = de_response code hs' t.
Proof. exact (response_same code hs hs' t). Qed.
Print Assumptions C79_response.
(** Likewise a JSON document, whatever the order of the members of its objects and however it is spelt: as a whole ... *)
Theorem C79_document (F : floatlib) (J : jsonfloat) t s s' j j' : wf_ty t = true -> mapless t = true ->
  json_document s j -> json_document s' j' -> reordered j j' -> from_json_str t s = from_json_str t s'.
Proof. exact (text_same t s s' j j'). Qed.
Print Assumptions C79_document.
(** ... in a field ... *)
Theorem C79_field (F : floatlib) (J : jsonfloat) c t s s' j j' : c <> Plain -> wf_ty t = true -> mapless t = true ->
  json_document s j -> json_document s' j' -> reordered j j' -> field_read c t (SStr s) = field_read c t (SStr s').
Proof. intros C W B D D' R. destruct c; [congruence|..]; cbn [field_read]; rewrite (text_same t s s' j j' W B D D' R); reflexivity. Qed.
Print Assumptions C79_field.
(** ... and as a problem. *)
Theorem C79_problem (F : floatlib) (J : jsonfloat) url_norm b b' s s' j j' : utf8_decode b = Some s -> utf8_decode b' = Some s' ->
  json_document s j -> json_document s' j' -> reordered j j' -> problem_read url_norm b = problem_read url_norm b'.
Proof. exact (problem_same url_norm b b' s s' j j'). Qed.
Print Assumptions C79_problem.

(** With an unknown parameter the order does matter: it can decide between a value, another value and a refusal. *)
Theorem C79_unknown_parameter_refuted (F : floatlib) :
  exists t ns l l' l'' v v', by_name t ns /\ wf_ty t = true /\ Permutation l l' /\ Permutation l l'' /\ v <> v' /\
    (exists s, de_query t (qde_new l) = Ok (v, s)) /\ (exists s, de_query t (qde_new l') = Ok (v', s)) /\ de_query t (qde_new l'') = Err Invalid.
Proof.
  exists (TStruct (u "Q") [(u "a", TStr)]), [u "a"], [(u "z", u "a"); (u "a", u "y"); (u "w", u "w")], [(u "a", u "y"); (u "w", u "w"); (u "z", u "a")], [(u "z", u "a"); (u "w", u "w"); (u "a", u "y")],
    (SStruct (u "Q") [(u "a", SStr (u "a"))]), (SStruct (u "Q") [(u "a", SStr (u "y"))]).
  split; [constructor|]. split; [reflexivity|]. split; [apply (Permutation_app_comm [_] [_; _])|]. split; [apply perm_skip, perm_swap|]. split; [discriminate|].
  split; [eexists; vm_compute; reflexivity|]. split; [eexists; vm_compute; reflexivity | vm_compute; reflexivity].
Qed.
Print Assumptions C79_unknown_parameter_refuted.
(** Nor is a type that is not read by name safe from it: a lone text is the name of the first header. *)
Theorem C79_lone_value_refuted (F : floatlib) :
  exists ep x hs hs' t v v', names_ok hs = true /\ names_ok hs' = true /\ wf_ty t = true /\ same_headers hs hs' /\ v <> v' /\ de_request ep x hs t = Ok v /\ de_request ep x hs' t = Ok v'.
Proof.
  exists [Val (u "a")], (mkUrl (Some [u "a"]) None), [(u "Host", u "h"); (u "X", u "1")], [(u "X", u "1"); (u "Host", u "h")], (TStruct (u "R") [(u "header", TStr)]),
    (SStruct (u "R") [(u "header", SStr (u "host"))]), (SStruct (u "R") [(u "header", SStr (u "x"))]).
  split; [reflexivity|]. split; [reflexivity|]. split; [reflexivity|]. split; [apply perm_swap|]. split; [discriminate|]. split; vm_compute; reflexivity.
Qed.
Print Assumptions C79_lone_value_refuted.

(** ** Cases *)
Example C79_case : let F := ex_float in let U := ex_url in
  let hs := [(u "X-Token", u "t"); (u "Host", u "foo")] in let hs' := [(u "HOST", u "foo"); (u "x-token", u "t")] in
  let t := u "/users/007/files/a%20b?name=x&deep=true&id=1" in let t' := u "/users/007/files/a%20b?id=1&name=x&deep=true" in
  exists x x', parse_url t = Some x /\ parse_url t' = Some x' /\ x <> x' /\ names_ok hs = true /\ names_ok hs' = true /\ wf_ty ex_rty = true /\ u_path x = u_path x' /\
    Permutation (query_pairs x) (query_pairs x') /\ same_headers hs hs' /\ asks_by_name (query_pairs x) ex_rty /\ (exists v, de_request ex_ep x' hs' ex_rty = Ok v) /\
    replies_by_name (TEnum (u "Res") ex_res) /\ wf_ty (TEnum (u "Res") ex_res) = true /\
    exists v, de_response 200 hs' (TEnum (u "Res") ex_res) = Ok v.
Proof.
  cbv zeta. do 2 eexists. split; [vm_compute; reflexivity|]. split; [vm_compute; reflexivity|]. split; [discriminate|]. split; [reflexivity|]. split; [reflexivity|]. split; [vm_compute; reflexivity|]. split; [vm_compute; reflexivity|].
  split; [vm_compute; apply (Permutation_app_comm [_; _] [_])|]. split; [vm_compute; apply perm_swap|].
  assert (B : forall n fs, exists ns, by_name (TStruct n fs) ns) by (intros n fs; eexists; constructor).
  split; [constructor; intros t I; destruct I as [I|[I|[I|[]]]]; try discriminate I; injection I as <-|].
  - apply B.
  - eexists. split; [constructor|]. apply Forall_forall. vm_compute. repeat (constructor; [tauto|]). constructor.
  - split; [eexists; vm_compute; reflexivity|]. split; [|split; [vm_compute; reflexivity | eexists; vm_compute; reflexivity]].
    constructor.
    + intros x t I. destruct I as [I|[I|[I|[I|[]]]]]; try discriminate I. injection I as <- <-. constructor. intros t I. cbn in I. repeat (destruct I as [I|I]; [try discriminate I; injection I as <-; apply B|]). contradiction.
    + intros x fs t I J. destruct I as [I|[I|[I|[I|[]]]]]; try discriminate I; injection I as <- <-; [destruct J as [J|[]]; injection J as <-; apply B | destruct J].
Qed.
Example C79_json_case : let F := ex_jfloat in let J := ex_json in
  let point := TStruct (u "P") [(u "x", TInt I8); (u "y", TOption TStr)] in
  exists j j', json_document (u "{""k"":1,""x"":-7,""y"":""a""}") j /\ json_document (u " { ""y"": ""\u0061"", ""x"": -7, ""k"": 1 }") j' /\ j <> j' /\ reordered j j' /\
    wf_ty point = true /\ mapless point = true /\ AsJson <> Plain /\
    from_json_str point (u "{""k"":1,""x"":-7,""y"":""a""}") = Ok (SStruct (u "P") [(u "x", SInt I8 (-7)); (u "y", SSome (SStr (u "a")))]).
Proof.
  cbv zeta. exists (JObj [(u "k", JInt 1); (u "x", JInt (-7)); (u "y", JStr (u "a"))]), (JObj [(u "y", JStr (u "a")); (u "x", JInt (-7)); (u "k", JInt 1)]).
  split; [apply (@parse_json_iff ex_json); vm_compute; reflexivity|]. split; [apply (@parse_json_iff ex_json); vm_compute; reflexivity|]. split; [discriminate|].
  split.
  - eapply RoObj; [repeat (constructor; [split; [reflexivity | constructor]|]); constructor|]. apply Permutation_rev.
  - split; [reflexivity|]. split; [reflexivity|]. split; [discriminate|]. vm_compute. reflexivity.
Qed.
Example C79_problem_case : let F := ex_jfloat in let J := ex_json in
  let b := u "{""type"":""about:blank"",""title"":""No"",""status"":404,""more"":[]}" in let b' := u "{""status"":404,""more"":[],""type"":""about:blank"",""title"":""No""}" in
  exists j j', utf8_decode b = Some b /\ utf8_decode b' = Some b' /\ json_document b j /\ json_document b' j' /\ reordered j j' /\ j <> j' /\
    problem_read (fun s => Some s) b = Ok (AboutBlank (u "No") 404).
Proof.
  cbv zeta. set (m1 := (u "type", JStr (u "about:blank"))). set (m2 := (u "title", JStr (u "No"))). set (m3 := (u "status", JInt 404)). set (m4 := (u "more", JArr [])).
  exists (JObj [m1; m2; m3; m4]), (JObj [m3; m4; m1; m2]). split; [vm_compute; reflexivity|]. split; [vm_compute; reflexivity|].
  split; [apply (@parse_json_iff ex_json); vm_compute; reflexivity|]. split; [apply (@parse_json_iff ex_json); vm_compute; reflexivity|].
  split; [eapply RoObj; [repeat (constructor; [split; [reflexivity | constructor]|]); constructor | apply (Permutation_app_comm [m1; m2] [m3; m4])]|].
  split; [discriminate | vm_compute; reflexivity].
Qed.
