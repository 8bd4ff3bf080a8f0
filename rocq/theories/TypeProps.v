(** * Property C51: whatever arrives, what is decoded is a value of the declared type. *)
From Verif Require Import Base Utf8 Decimal DepUrl Serde Procedure DePath DeQuery DeHeader DeRequest DeResponse Json JsonText JsonDe Router SerRequest Error
  Client ClientSpec Server ServerSpec ServerProofs TypeSpec TypeProofs Exhibit PathProps FieldProps RequestProps ResponseProps ProblemProps JsonProps ClientProps ServerProps.
Open Scope N_scope.

(** ** C51 *)
(** Requests: any target, any headers.  About "file:" URLs, whose parsing is left open, only that they consist of strings. *)
Theorem C51_request (U : urlenv) (F : floatlib) ep target x hs t v :
  (forall r p q, str_ok r = true -> file_url r = Some (p, q) -> forallb str_ok p = true) ->
  str_ok target = true -> parse_url target = Some x -> headers_ok hs = true -> wf_ty t = true ->
  de_request ep x hs t = Ok v -> has_ty t v = true.
Proof. exact (fun Fi O P Hh W E => request_sound ep x hs (parse_url_ok target x Fi O P) Hh t v W E). Qed.
Print Assumptions C51_request.

(** Handlers: what they do with a request that is not of their type makes no difference to any answer. *)
Theorem C51_handlers (U : urlenv) (F : floatlib) (Conn R : Type) explain reason ln (ps : list (hproc Conn R)) other r :
  (forall t p q, str_ok t = true -> file_url t = Some (p, q) -> forallb str_ok p = true) ->
  Forall (fun p => wf_ty (hp_req p) = true) ps -> request_ok r = true ->
  reads_reply (on_request explain reason ln (build (registrations (map (guarded other) ps))) r) =
  reads_reply (on_request explain reason ln (build (registrations ps)) r).
Proof. exact (answers_typed explain reason ln ps other r). Qed.
Print Assumptions C51_handlers.

(** Responses: any status code, any headers. *)
Theorem C51_response (F : floatlib) code hs t v : headers_ok hs = true -> wf_ty t = true -> de_response code hs t = Ok v -> has_ty t v = true.
Proof. exact (fun Hh W E => response_sound code hs Hh t v W E). Qed.
Print Assumptions C51_response.

(** What a call returns, for any network whose headers are headers and stay the same while the body is read. *)
Theorem C51_call (U : urlenv) (F : floatlib) (Conn : Type) (w : wire Conn) (p : proc) req body connect n log v b c :
  wf_ty (pr_resp p) = true ->
  (forall c x, settle (w_head w c) = Comes x -> headers_ok (r_headers x) = true) ->
  (forall r x, settle (w_body w r) = Comes x -> r_headers (fst x) = r_headers r) ->
  drive w p n (call_new (req, body) connect) = (log, Ok (Done v b c)) -> has_ty (pr_resp p) v = true.
Proof. exact (driven_typed w p req body connect n log v b c). Qed.
Print Assumptions C51_call.

(** JSON, as text and as bytes. *)
Theorem C51_json_text (F : floatlib) (J : jsonfloat) t s v : wf_ty t = true -> str_ok s = true -> from_json_str t s = Ok v -> has_ty t v = true.
Proof. exact (json_text_sound t s v). Qed.
Print Assumptions C51_json_text.
Theorem C51_json_bytes (F : floatlib) (J : jsonfloat) t b v : wf_ty t = true -> from_json_slice t b = Ok v -> has_ty t v = true.
Proof. exact (json_bytes_sound t b v). Qed.
Print Assumptions C51_json_bytes.

Definition ex_rty : ty := TStruct (u "Req") [(u "path", TTuple ex_ts); (u "query", TStruct (u "Q") ex_fs); (u "header", TStruct (u "H") ex_hfs)].
Example C51_case : let U := ex_url in let F := ex_jfloat in let J := ex_json in
  (forall r p q, str_ok r = true -> file_url r = Some (p, q) -> forallb str_ok p = true) /\
  wf_ty ex_rty = true /\ wf_ty (TEnum (u "Res") ex_res) = true /\ wf_ty ex_jty = true /\ Forall (fun p => wf_ty (hp_req p) = true) ex_procs /\
  match parse_url (u "/users/7/files/a%2Fb%ff?unknown&id=7&name=a+b%fe&deep=false") with
  | Some x => match de_request ex_ep x [(u "X-Token", [226; 130; 172])] ex_rty with Ok v => has_ty ex_rty v = true | _ => False end
  | None => False
  end /\
  request_ok (mkRequest MGet (u "/items/7") [(u "Host", u "foo")] ([] : ex_conn)) = true /\
  (match de_response 200 [(u "x-token", u "t")] (TEnum (u "Res") ex_res) with Ok _ => True | _ => False end) /\
  from_json_slice (TTuple [TStr; TMap (TInt U8) TBool]) (u "[""😀"",{""7"":true,""+7"":false}]") = Ok (STuple [SStr [128512]; SMap [(SInt U8 7, SBool false)]]) /\
  has_ty (TTuple [TStr; TMap (TInt U8) TBool]) (STuple [SStr [55357; 56832]; SMap [(SInt U8 7, SBool true); (SInt U8 7, SBool false)]]) = false.
Proof.
  cbv zeta. split; [discriminate|]. split; [reflexivity|]. split; [reflexivity|]. split; [reflexivity|]. split; [repeat constructor|].
  split; [vm_compute; reflexivity|]. split; [reflexivity|]. split; [vm_compute; exact I|]. split; vm_compute; reflexivity.
Qed.
(** The network of C41's case. *)
Example C51_call_case : wf_ty (pr_resp (ex_proc MPost)) = true /\
  (forall c x, settle (w_head ex_wire c) = Comes x -> headers_ok (r_headers x) = true) /\
  (forall r x, settle (w_body ex_wire r) = Comes x -> r_headers (fst x) = r_headers r).
Proof. split; [reflexivity|]. split; [intros c x [= <-]; reflexivity | intros r x [= <-]; reflexivity]. Qed.
