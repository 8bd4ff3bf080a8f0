(** * Properties C43-C45: problem details. *)
From Verif Require Import Base FieldSpec Utf8 Decimal Serde Status Json JsonText JsonSpec JsonProofs JsonDe DepHttp SerRequest SerResponse DeResponse
  ResponseSpec ResponseProofs ResponseTrip Problem ProblemSpec ProblemProofs Exhibit JsonProps.
Open Scope N_scope.

(** The cases: [about_blank(NotFound)] and a trackable problem with everything but an instance. *)
Definition ex_reason (s : status) : ustr := match s with StNotFound => u "Not Found" | StInternalServerError => u "Internal Server Error" | _ => u "?" end.
Definition ex_url_norm (s : ustr) : option ustr := if ustr_eqb s (u "HTTP://host") then Some (u "http://host/") else if ustr_eqb s (u "http://host/") then Some s else None.
Definition ex_about : problem := about_blank ex_reason StNotFound.
Definition ex_track : problem := trackable StBadRequest (u "Invalid (cause; x)") (Some [233; 34; 10]) (Some [u "at a"; u "at b"]).
Definition ex_inst : problem := Trackable (u "T") 299 None (Some (u "http://host/")) (Some []).
Definition ex_text : ustr := u "{""history"":null,""x"":[1],""status"":400,""title"":""T"",""type"":""https://docs.rs/htrpc/0.0.2/htrpc/rfc7807/struct.TrackableProblem.html"",""instance"":""HTTP://host""}".

(** ** C43 *)
Theorem C43_document (F : floatlib) p : problem_body p = Ok (utf8_encode (print_pretty 0 (JObj (document p)))).
Proof. exact (problem_body_is p). Qed.
Print Assumptions C43_document.

Theorem C43_absent_stays_absent (F : floatlib) title s detail instance history :
  (exists l, problem_body (Trackable title s detail instance history) = Ok (utf8_encode (print_pretty 0 (JObj l))) /\ let keys := map fst l in
    (In (u "detail") keys <-> detail <> None) /\ (In (u "instance") keys <-> instance <> None) /\ (In (u "history") keys <-> history <> None)) /\
  (exists l, problem_body (AboutBlank title s) = Ok (utf8_encode (print_pretty 0 (JObj l))) /\ map fst l = [u "type"; u "title"; u "status"]).
Proof. exact (problem_absent title s detail instance history). Qed.
Print Assumptions C43_absent_stays_absent.

Theorem C43_round_trip (F : floatlib) (J : jsonfloat) url_norm p : problem_ok url_norm p ->
  (b <- problem_body p ;; problem_read url_norm b) = Ok p.
Proof. exact (problem_trip url_norm p). Qed.
Print Assumptions C43_round_trip.

Theorem C43_any_document (F : floatlib) (J : jsonfloat) url_norm l p t w w' : NoDup (map fst l) -> problem_status p < 65536 ->
  describes url_norm l p -> str_ok (w ++ t ++ w') = true -> jtext (JObj l) t -> ws w -> ws w' -> (nesting (JObj l) < 128)%nat ->
  problem_read url_norm (utf8_encode (w ++ t ++ w')) = Ok p.
Proof. exact (problem_spelling url_norm l p t w w'). Qed.
Print Assumptions C43_any_document.

(** The status sent is that of the problem the response was made from, whatever it is replaced with. *)
Theorem C43_status_sent (F : floatlib) q p len : problem_status q < 65536 ->
  let r := set_problem (into_response q) p in
  (forall st, code_of st = problem_status q -> encode_response (pr_value r) len = Ok (mkRespb st [(u "content-type", u "application/problem+json"); length_header len])) /\
  (~ known_code (problem_status q) -> encode_response (pr_value r) len = Err Invalid) /\
  pr_body r = problem_body p /\ pr_value r = pr_value (into_response q).
Proof. intros R. destruct (presp_sent (set_problem (into_response q) p) (problem_status q) len eq_refl R) as [A B]. split; [exact A|]. split; [exact B|]. split; reflexivity. Qed.
Print Assumptions C43_status_sent.

Theorem C43_own_status_sent (F : floatlib) p len r : problem_status p < 65536 -> encode_response (pr_value (into_response p)) len = Ok r ->
  code_of (pb_status r) = problem_status p.
Proof.
  intros R E.
  apply encode_response_iff in E. destruct E as (st & hs & An & ->). cbn [pb_status]. cbn [into_response pr_value pr_status core] in An.
  inversion An as [| |? ? ? ? ? ? Z C]; subst. cbn [status_number] in Z. replace ((0 <=? Z.of_N (problem_status p))%Z && (Z.of_N (problem_status p) <=? 65535)%Z) with true in Z by lia.
  injection Z as <-. rewrite N2Z.id in C. exact C.
Qed.
Print Assumptions C43_own_status_sent.

(** So a response can carry a document that names another status than its own. *)
Theorem C43_replaced_status_refuted : exists (F : floatlib) (J : jsonfloat) un p q r b, problem_ok un p /\ problem_ok un q /\
  encode_response (pr_value (set_problem (into_response q) p)) 0 = Ok r /\ pr_body (set_problem (into_response q) p) = Ok b /\
  problem_read un b = Ok p /\ code_of (pb_status r) <> problem_status p.
Proof.
  exists ex_float, ex_json, ex_url_norm, ex_about, ex_track. eexists _, _.
  assert (O : problem_ok ex_url_norm ex_about) by (split; [vm_compute; reflexivity | reflexivity]).
  split; [exact O|]. split.
  - split; [vm_compute; reflexivity|]. split; [reflexivity|]. split; [intros s [= <-]; reflexivity|]. split; [discriminate|]. intros h [= <-]. repeat constructor.
  - split; [vm_compute; reflexivity|]. split; [vm_compute; reflexivity|]. split; [vm_compute; reflexivity|]. vm_compute. discriminate.
Qed.
Print Assumptions C43_replaced_status_refuted.

Example C43_case : let F := ex_float in let J := ex_json in
  problem_ok ex_url_norm ex_about /\ problem_ok ex_url_norm ex_track /\ problem_ok ex_url_norm ex_inst /\
  problem_body ex_about = Ok (u "{
  ""type"": ""about:blank"",
  ""title"": ""Not Found"",
  ""status"": 404
}") /\
  map fst (document ex_track) = [u "type"; u "title"; u "status"; u "detail"; u "history"] /\
  problem_read ex_url_norm ex_text = Ok (Trackable (u "T") 400 None (Some (u "http://host/")) None) /\
  encode_response (pr_value (into_response ex_inst)) 5 = Err Invalid /\ ~ known_code 299 /\
  encode_response (pr_value (into_response ex_about)) 5 = Ok (mkRespb StNotFound [(u "content-type", u "application/problem+json"); (u "Content-Length", u "5")]) /\
  (* refused: repeated or missing tag, unknown type, status too large, a URL that does not parse *)
  problem_read ex_url_norm (u "{""type"":""about:blank"",""type"":""about:blank"",""title"":"""",""status"":1}") = Err Invalid /\
  problem_read ex_url_norm (u "{""title"":"""",""status"":1}") = Err Invalid /\
  problem_read ex_url_norm (u "{""type"":""about:other"",""title"":"""",""status"":1}") = Err Invalid /\
  problem_read ex_url_norm (u "{""type"":""about:blank"",""title"":"""",""status"":65536}") = Err Invalid /\
  problem_read ex_url_norm (u "[""https://docs.rs/htrpc/0.0.2/htrpc/rfc7807/struct.TrackableProblem.html"",""T"",400,null,""nowhere""]") = Err Invalid /\
  problem_read ex_url_norm (u "[""https://docs.rs/htrpc/0.0.2/htrpc/rfc7807/struct.TrackableProblem.html"",""T"",400,null]") = Ok (Trackable (u "T") 400 None None None).
Proof.
  cbv zeta. split; [split; [vm_compute; reflexivity | reflexivity]|]. split.
  { split; [vm_compute; reflexivity|]. split; [reflexivity|]. split; [intros s [= <-]; reflexivity|]. split; [discriminate|]. intros h [= <-]. repeat constructor. }
  split.
  { split; [vm_compute; reflexivity|]. split; [reflexivity|]. split; [discriminate|]. split; [intros s [= <-]; split; reflexivity|]. intros h [= <-]. constructor. }
  split; [vm_compute; reflexivity|]. split; [reflexivity|]. split; [vm_compute; reflexivity|]. split; [vm_compute; reflexivity|]. split; [unfold known_code; lia|].
  split; [vm_compute; reflexivity|]. split; [vm_compute; reflexivity|]. split; [vm_compute; reflexivity|]. split; [vm_compute; reflexivity|]. split; [vm_compute; reflexivity|]. split; vm_compute; reflexivity.
Qed.

(** ** C44 *)
Theorem C44_problem_arrives (F : floatlib) (J : jsonfloat) (W : httpenv) url_norm reason p len n variants x st :
  problem_ok url_norm p -> code_of st = problem_status p -> status_from_str x = Ok st -> assoc x variants = Some (VNewtype pr_ty) ->
  exists r hs b v, encode_response (pr_value (into_response p)) len = Ok r /\ pr_body (into_response p) = Ok b /\ pb_status r = st /\
    deliver (pb_headers r) = Some hs /\ de_response (code_of (pb_status r)) hs (TEnum n variants) = Ok (SNewtypeVariant n x v) /\
    exists d, pr_decoded reason v = Some d /\ pr_set_body url_norm d b = mkPresp None p.
Proof. intros O C X A. exact (problem_arrives url_norm reason p p len n variants x st O C (proj1 O) X A). Qed.
Print Assumptions C44_problem_arrives.

Example C44_case : let F := ex_float in let J := ex_json in let W := ex_http in
  let variants := [(u "Ok", VUnit); (u "NotFound", VNewtype pr_ty); (u "BadRequest", VNewtype pr_ty)] in
  problem_ok ex_url_norm ex_about /\ code_of StNotFound = problem_status ex_about /\ status_from_str (u "NotFound") = Ok StNotFound /\
  assoc (u "NotFound") variants = Some (VNewtype pr_ty) /\
  (* a body that is no problem leaves the default one *)
  pr_set_body ex_url_norm (mkPresp None (default_problem ex_reason)) (u "oops") = mkPresp None (AboutBlank (u "Internal Server Error") 500).
Proof. cbv zeta. split; [split; [vm_compute; reflexivity | reflexivity]|]. split; [reflexivity|]. split; [reflexivity|]. split; reflexivity. Qed.

(** ** C45 *)
Theorem C45_never_decodes (F : floatlib) code hs : de_response code hs pr_ty = Err Invalid.
Proof. exact (presp_undecodable code hs). Qed.
Print Assumptions C45_never_decodes.

(** The reason: no struct with an optional status is ever decoded as a whole response, whatever else it holds. *)
Theorem C45_optional_status (F : floatlib) code hs n fs t v : NoDup (map fst fs) -> In (u "status", TOption t) fs ->
  de_response code hs (TStruct n fs) <> Ok v.
Proof. exact (optional_status_unreadable code hs n fs t v). Qed.
Print Assumptions C45_optional_status.

Example C45_case : let F := ex_float in
  In (u "status", TOption (TInt U16)) [(u "status", TOption (TInt U16)); (u "header", TStruct (u "ProblemHeader") [(u "content-type", TUnitStruct problem_json_type)])] /\
  match encode_response (pr_value (into_response ex_about)) 5 with
  | Ok r => code_of (pb_status r) = 404 /\ de_response 404 (pb_headers r) pr_ty = Err Invalid
  | _ => False
  end.
Proof. cbv zeta. split; [left; reflexivity|]. vm_compute. auto. Qed.
