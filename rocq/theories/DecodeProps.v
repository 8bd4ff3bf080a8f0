(** * Properties C55, C56: messages are decoded exactly as they mean; C20: the names of statuses. *)
From Verif Require Import Base Utf8 Decimal DepUrl Serde Status Procedure Router RouterSpec SerHeader SerRequest SerResponse DePath DeQuery DeHeader DeRequest DeResponse DepHttp.
From Verif Require Import ScalarSpec PathSpec FieldSpec JsonTypeSpec StatusSpec StatusProofs DecodeSpec TypeSpec HeaderProofs JsonType DecodeProofs DecodeExact.
From Verif Require Import Client ClientSpec ClientProofs Server ServerSpec ServerProofs Exhibit PathProps FieldProps RequestProps ResponseProps ProblemProps ServerProps ClientProps TypeProps.
Open Scope N_scope.

(** ** C55 *)
Theorem C55_path_exactly (F : floatlib) ep segs t v : (exists s, de_path t (mkPde false segs ep (var_count ep)) = Ok (v, s)) <-> path_means ep segs t v.
Proof. exact (path_exact ep segs t v). Qed.
Print Assumptions C55_path_exactly.
Theorem C55_query_exactly (F : floatlib) l t v : wf_ty t = true -> ((exists s, de_query t (qde_new l) = Ok (v, s)) <-> query_means l t v).
Proof. exact (fun W => query_exact l t W v). Qed.
Print Assumptions C55_query_exactly.
Theorem C55_header_exactly (F : floatlib) hs t v : names_ok hs = true -> wf_ty t = true -> ((exists s, de_header t (hde_new hs) = Ok (v, s)) <-> header_means hs t v).
Proof. exact (fun N W => header_exact hs t N W v). Qed.
Print Assumptions C55_header_exactly.

Theorem C55_request_exactly (F : floatlib) ep x hs t v : names_ok hs = true -> wf_ty t = true -> (de_request ep x hs t = Ok v <-> request_means ep x hs t v).
Proof. exact (fun N W => request_exact ep x hs N t W v). Qed.
Print Assumptions C55_request_exactly.

(** Whatever means nothing is refused, and never with another kind of error. *)
Theorem C55_refuses_the_rest (F : floatlib) ep x hs t : names_ok hs = true -> wf_ty t = true -> ((forall v, ~ request_means ep x hs t v) <-> de_request ep x hs t = Err Invalid).
Proof.
  intros N W. split.
  - intros M. destruct (request_refuses ep x hs N t W) as [[v E]|E]; [|exact E]. elim (M v). apply (request_exact ep x hs N t W), E.
  - intros E v M. apply (request_exact ep x hs N t W) in M. congruence.
Qed.
Print Assumptions C55_refuses_the_rest.

Theorem C55_one_value (F : floatlib) ep x hs t v v' : names_ok hs = true -> wf_ty t = true -> request_means ep x hs t v -> request_means ep x hs t v' -> v = v'.
Proof. intros N W M M'. apply (request_exact ep x hs N t W) in M, M'. congruence. Qed.
Print Assumptions C55_one_value.

(** What the server does with it: the handler gets the value the request means; if there is none the answer is 400. *)
Theorem C55_served (F : floatlib) (U : urlenv) (Conn R : Type) explain reason ln (ps : list (hproc Conn R)) r r' p segs q :
  names_ok (q_headers r) = true -> wf_ty (hp_req p) = true -> parse_url (q_target r) = Some (mkUrl (Some segs) q) ->
  route_spec (accepted (map (fun p => (hp_method p, hp_entry p, p)) ps)) (q_method r) segs = inl p -> settle (l_drain ln r) = Comes r' ->
  let means := request_means (hp_entry p) (mkUrl (Some segs) q) (q_headers r) (hp_req p) in
  ((forall v, ~ means v) -> exists h b, reply_to explain reason ln ps r = Sends (q_conn r') h b /\ code_of (pb_status h) = 400) /\
  (forall v r1 y v1 b1 h1, means v -> settle (hp_body p v r) = Comes (r1, y) -> nsettle (hp_call p y) = Comes (v1, b1) ->
     encode_response v1 (N.of_nat (length b1)) = Ok h1 -> reply_to explain reason ln ps r = Sends (q_conn r1) h1 b1).
Proof.
  intros N W P Ro D means. destruct (C28_statuses F U Conn R explain reason ln ps r r' D) as [_ S]. destruct (S segs q P) as (_ & _ & S4 & S2). split.
  - intros M. apply (S4 p Invalid Ro). apply C55_refuses_the_rest; assumption.
  - intros v r1 y v1 b1 h1 M. apply (S2 p v r1 y v1 b1 h1 Ro). apply C55_request_exactly; assumption.
Qed.
Print Assumptions C55_served.

Example C55_case : let F := ex_float in let U := ex_url in
  let host := [(u "Host", u "foo")] in
  let ask t hs := match parse_url t with Some x => de_request ex_ep x hs ex_rty | None => Panic end in
  let token := [(u "X-Token", u "t"); (u "Host", u "foo")] in
  names_ok token = true /\ wf_ty ex_rty = true /\ Forall (fun p => wf_ty (hp_req p) = true) ex_procs /\
  ask (u "/users/007/files/a%20b?name=x&deep=true&id=1") token =
    Ok (SStruct (u "Req") [(u "path", STuple [SInt U32 7; SStr (u "a b")]);
      (u "query", SStruct (u "Q") [(u "id", SInt U32 1); (u "name", SStr (u "x")); (u "limit", SNone); (u "deep", SNewtypeStruct (u "D") (SBool true))]);
      (u "header", SStruct (u "H") [(u "x-token", SStr (u "t")); (u "x-retry", SNone)])]) /\
  (* refused: a bad number, a missing field, a field twice, a missing header, too few segments *)
  Forall (fun th => ask (fst th) (snd th) = Err Invalid)
    [(u "/users/x/files/a?name=x&deep=true&id=1", token); (u "/users/7/files/a?name=x&deep=true", token); (u "/users/7/files/a?name=x&deep=true&id=1&id=1", token);
     (u "/users/7/files/a?name=x&deep=true&id=1", host); (u "/users/7", token); (u "/users/7/files/a?name=x&deep=true&id=1&limit=128", token)] /\
  (* a map of the parts; a request type without headers needs a header nevertheless; a lone number is the first segment *)
  (let parts := TMap TStr (TMap TStr TStr) in
   de_request [Val (u "a")] (mkUrl (Some [u "a"]) None) host parts = Err Invalid) /\
  de_request [Val (u "a"); Var] (mkUrl (Some [u "a"; u "5"]) None) host (TStruct (u "R") [(u "path", TInt U8)]) = Ok (SStruct (u "R") [(u "path", SInt U8 5)]) /\
  de_request [Val (u "a"); Var] (mkUrl (Some [u "a"; u "5"]) None) [] (TStruct (u "R") [(u "path", TInt U8)]) = Err Invalid /\
  de_request [Val (u "a"); Var] (mkUrl (Some [u "a"; u "5"]) (Some (u "b&c"))) host (TMap (TEnum (u "E") [(u "header", VUnit); (u "path", VUnit); (u "query", VUnit)]) TStr) =
    Ok (SMap [(SUnitVariant (u "E") (u "path"), SStr (u "5")); (SUnitVariant (u "E") (u "query"), SStr (u "b")); (SUnitVariant (u "E") (u "header"), SStr (u "host"))]).
Proof.
  cbv zeta. split; [reflexivity|]. split; [reflexivity|]. split; [repeat constructor|]. split; [vm_compute; reflexivity|].
  split; [repeat (apply Forall_cons; [vm_compute; reflexivity|]); constructor|]. repeat split; vm_compute; reflexivity.
Qed.

(** ** C56 *)
Theorem C56_response_exactly (F : floatlib) code hs t v : names_ok hs = true -> wf_ty t = true -> (de_response code hs t = Ok v <-> response_means code hs status_named false t v).
Proof. exact (fun N W => response_exact code hs N t W v). Qed.
Print Assumptions C56_response_exactly.

Theorem C56_refuses_the_rest (F : floatlib) code hs t : names_ok hs = true -> wf_ty t = true ->
  ((forall v, ~ response_means code hs status_named false t v) <-> de_response code hs t = Err Invalid).
Proof.
  intros N W. split.
  - intros M. destruct (response_refuses code hs N t W) as [[v E]|E]; [|exact E]. elim (M v). apply (response_exact code hs N t W), E.
  - intros E v M. apply (response_exact code hs N t W) in M. congruence.
Qed.
Print Assumptions C56_refuses_the_rest.

Theorem C56_one_value (F : floatlib) code hs t v v' : names_ok hs = true -> wf_ty t = true ->
  response_means code hs status_named false t v -> response_means code hs status_named false t v' -> v = v'.
Proof. intros N W M M'. apply (response_exact code hs N t W) in M, M'. congruence. Qed.
Print Assumptions C56_one_value.

(** What a call that got its response comes to: the value the response means, or an error if it means none. *)
Theorem C56_call (F : floatlib) (U : urlenv) (Conn : Type) (w : wire Conn) (p : proc) v b connect c r c1 h h' y :
  wf_ty (pr_resp p) = true -> names_ok (r_headers h') = true ->
  settle connect = Comes c -> encode_request (pr_entry p) v (N.of_nat (length b)) = Ok r -> settle (w_write w r b c) = Comes c1 -> settle (w_head w c1) = Comes h ->
  (if is_head p then h' = h /\ y = [] else settle (w_body w h) = Comes (h', y)) ->
  let means := response_means (r_code h') (r_headers h') status_named false (pr_resp p) in
  (forall x, snd (sequential w p v b connect) = Yields x y (r_conn h') <-> means x) /\
  ((forall x, ~ means x) <-> snd (sequential w p v b connect) = Fails Invalid).
Proof.
  intros W N Ec Er Ew Eh Eb means.
  assert (E : sequential w p v b connect = ([Write r b c; ReadHead c1] ++ (if is_head p then [] else [ReadBody h]), snd (decoding p h' y))).
  { unfold sequential. rewrite Ec. cbn [after]. rewrite Er, Ew. cbn [after]. rewrite Eh. cbn [after]. unfold is_head in *.
    assert (D : fst (decoding p h' y) = []) by (unfold decoding; destruct (de_response _ _ _); reflexivity).
    destruct (pr_method p); try (rewrite Eb; cbn [after]; unfold doing; cbn [fst snd app]; rewrite D; reflexivity).
    destruct Eb as [-> ->]. unfold doing. cbn [fst snd app]. rewrite D. reflexivity. }
  rewrite E. cbn [snd]. unfold decoding. pose proof (response_exact (r_code h') (r_headers h') N (pr_resp p) W) as X. pose proof (C56_refuses_the_rest F (r_code h') (r_headers h') (pr_resp p) N W) as Y.
  split.
  - intros x. unfold means. rewrite <- X. destruct (de_response _ _ _); cbn [snd]; split; congruence.
  - unfold means. rewrite Y. destruct (de_response _ _ _); cbn [snd]; split; congruence.
Qed.
Print Assumptions C56_call.

Example C56_case : let F := ex_float in
  let t := TEnum (u "Res") ex_res in
  let host := [(u "Host", u "foo")] in
  wf_ty t = true /\ names_ok host = true /\ wf_ty (pr_resp (ex_proc MGet)) = true /\
  de_response 201 [] t = Ok (SUnitVariant (u "Res") (u "Created")) /\
  de_response 200 [(u "X-RETRY", u "3"); (u "x-token", u "s")] t = Ok (SStructVariant (u "Res") (u "Ok") [(u "header", SStruct (u "H") [(u "x-token", SStr (u "s")); (u "x-retry", SSome (SInt U8 3))])]) /\
  de_response 303 host t = Ok (SStructVariant (u "Res") (u "SeeOther") []) /\
  (* refused: no such variant, no such status, a missing header field, no header at all *)
  Forall (fun ch => de_response (fst ch) (snd ch) t = Err Invalid) [(204, host); (429, host); (200, host); (303, [])] /\
  de_response 404 host (TMap TStr (TInt U16)) = Err Invalid /\
  de_response 404 [(u "7", u "x")] (TMap TStr (TInt U16)) = Ok (SMap [(SStr (u "status"), SInt U16 404); (SStr (u "header"), SInt U16 7)]) /\
  de_response 404 host (TStruct (u "R") [(u "status", TInt U8)]) = Err Invalid /\
  (* the status is not read again inside a variant *)
  de_response 404 host (TEnum (u "E") [(u "NotFound", VNewtype (TStruct (u "R") [(u "status", TInt U16)]))]) = Err Invalid /\
  de_response 404 host (TEnum (u "E") [(u "NotFound", VNewtype (TStruct (u "R") [(u "status", TOption (TInt U16))]))]) =
    Ok (SNewtypeVariant (u "E") (u "NotFound") (SStruct (u "R") [(u "status", SNone)])).
Proof.
  cbv zeta. do 6 (split; [vm_compute; reflexivity|]). split; [repeat (apply Forall_cons; [vm_compute; reflexivity|]); constructor|]. repeat split; vm_compute; reflexivity.
Qed.

(** ** C20, the names themselves *)
(** The name of a status is its standard reason phrase in camel case, except for 417 and the four statuses the library does not have. *)
Theorem C20_standard_names c x : status_code_to_str c = Ok x <-> status_named c x.
Proof. exact (code_named c x). Qed.
Print Assumptions C20_standard_names.
Theorem C20_all_names_standard_refuted : exists c phrase, In (c, phrase) registry /\ ~ In c missing /\ status_code_to_str c <> Ok (camel true phrase).
Proof.
  exists 417, (u "Expectation Failed"). split; [unfold registry; repeat (try (left; reflexivity); right)|]. split; [|vm_compute; discriminate].
  intros [Q|[Q|[Q|[Q|[]]]]]; discriminate.
Qed.
Print Assumptions C20_all_names_standard_refuted.
Theorem C20_all_standard_statuses_refuted : exists c phrase, In (c, phrase) registry /\ status_code_to_str c = Err Invalid.
Proof. exists 429, (u "Too Many Requests"). split; [unfold registry; repeat (try (left; reflexivity); right) | reflexivity]. Qed.
Print Assumptions C20_all_standard_statuses_refuted.
Example C20_names_case : status_code_to_str 418 = Ok (u "ImATeapot") /\ status_named 203 (u "NonAuthoritativeInformation") /\ camel true (u "I'm a teapot") = u "ImATeapot".
Proof. split; [reflexivity|]. split; [apply code_named; reflexivity | reflexivity]. Qed.
