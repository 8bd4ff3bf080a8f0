(** * Property C97: what a server has decoded it can send on, and a client what it has got. *)
From Verif Require Import Base Utf8 Decimal DepUrl Serde Procedure ScalarSpec PathSpec SerRequest DeRequest Router RouterSpec RouterProofs DepHttp
  PathTrip Status SerResponse DeResponse FieldProofs ResponseSpec ResponseProofs TypeProofs RelaySpec Relay Exhibit PathProps FieldProps RequestProps ResponseProps.
Open Scope N_scope.

(** ** C97 *)
(** From any target and any headers HTTP can carry; strings in the path have to be fit for a path. *)
Theorem C97_request (U : urlenv) (F : floatlib) (W : httpenv) (H : Type) (gs : list (method * entry_point * H)) m ep h target x hs n pt qt ht v len :
  (forall r p q, str_ok r = true -> file_url r = Some (p, q) -> forallb str_ok p = true) ->
  str_ok target = true -> parse_url target = Some x -> forallb safe_header hs = true ->
  In (m, ep, h) (accepted gs) -> plain_entry ep -> ep <> [] ->
  path_there text_ty ep pt -> if_there query_ty qt -> if_there header_ty ht -> (pt = None -> qt = None) ->
  de_request ep x hs (request_ty n pt qt ht) = Ok v ->
  (forall ss, path_texts path_args v = Some ss -> Forall path_safe ss /\ first_ok (fill ep ss) /\ unshadowed (accepted gs) ep (map enc (fill ep ss))) ->
  exists r x' hs', encode_request ep v len = Ok r /\ deliver (rb_headers r) = Some hs' /\ parse_url (rb_target r) = Some x' /\
    route (build gs) m (u_path x') = Ok (inl h) /\ de_request ep x' hs' (request_ty n pt qt ht) = Ok v.
Proof. exact (fun Fi Ot P => relayed H gs ep m h x hs n pt qt ht v len (parse_url_ok target x Fi Ot P)). Qed.
Print Assumptions C97_request.

(** With numbers only in the path nothing is asked of the values. *)
Theorem C97_numbers (U : urlenv) (F : floatlib) (W : httpenv) (H : Type) (gs : list (method * entry_point * H)) m ep h target x hs n pt qt ht v len :
  (forall r p q, str_ok r = true -> file_url r = Some (p, q) -> forallb str_ok p = true) ->
  str_ok target = true -> parse_url target = Some x -> forallb safe_header hs = true ->
  In (m, ep, h) (accepted gs) -> plain_entry ep -> ep <> [] ->
  path_there number_ty ep pt -> if_there query_ty qt -> if_there header_ty ht -> (pt = None -> qt = None) ->
  de_request ep x hs (request_ty n pt qt ht) = Ok v ->
  (forall ss, path_texts path_args v = Some ss -> unshadowed (accepted gs) ep (map enc (fill ep ss))) ->
  exists r x' hs', encode_request ep v len = Ok r /\ deliver (rb_headers r) = Some hs' /\ parse_url (rb_target r) = Some x' /\
    route (build gs) m (u_path x') = Ok (inl h) /\ de_request ep x' hs' (request_ty n pt qt ht) = Ok v.
Proof. exact (fun Fi Ot P => numbers_relayed H gs ep m h x hs n pt qt ht v len (parse_url_ok target x Fi Ot P)). Qed.
Print Assumptions C97_numbers.

Theorem C97_response (F : floatlib) (W : httpenv) code hs t v len : response_ty t -> forallb safe_header hs = true -> (is_enum t = false -> known_code code) ->
  de_response code hs t = Ok v ->
  exists r hs', encode_response v len = Ok r /\ deliver (pb_headers r) = Some hs' /\ de_response (code_of (pb_status r)) hs' t = Ok v.
Proof. exact (response_relayed code hs t v len). Qed.
Print Assumptions C97_response.

(** A request as no client of htrpc writes it: signs, leading zeros, other keys, other headers, header names in capitals. *)
Definition ex_relay_ep : entry_point := [Val (u "users"); Var].
Definition ex_relay_q : ty := TStruct (u "Q") [(u "limit", TInt U8); (u "name", TOption TStr)].
Definition ex_relay_h : ty := TStruct (u "H") [(u "x-token", TStr); (u "x-id", TOption (TNewtype (u "Id") TBytes))].
Definition ex_relay_gs : list (method * entry_point * nat) := [(MGet, ex_relay_ep, 1); (MGet, [Val (u "users"); Val (u "all")], 2)]%nat.
Example C97_case : let U := ex_url in let F := ex_float in let W := ex_http in
  let target := u "/users/+007?name=a%20b%ff&limit=%307" in
  let hs := [(u "Host", u "foo"); (u "X-Token", [226; 130; 172]); (u "X-ID", [255; 33])] in
  (forall r p q, str_ok r = true -> file_url r = Some (p, q) -> forallb str_ok p = true) /\ str_ok target = true /\ forallb safe_header hs = true /\
  In (MGet, ex_relay_ep, 1%nat) (accepted ex_relay_gs) /\ plain_entry ex_relay_ep /\ ex_relay_ep <> [] /\
  path_there number_ty ex_relay_ep (Some (TTuple [TInt U16])) /\ if_there query_ty (Some ex_relay_q) /\ if_there header_ty (Some ex_relay_h) /\
  exists x v r, parse_url target = Some x /\ de_request ex_relay_ep x hs (request_ty (u "R") (Some (TTuple [TInt U16])) (Some ex_relay_q) (Some ex_relay_h)) = Ok v /\
    path_texts path_args v = Some [u "7"] /\ unshadowed (accepted ex_relay_gs) ex_relay_ep (map enc (fill ex_relay_ep [u "7"])) /\
    encode_request ex_relay_ep v 3 = Ok r /\ rb_target r = u "/users/7?limit=7&name=a+b%EF%BF%BD" /\
    rb_headers r = [(u "x-token", [226; 130; 172]); (u "x-id", [255; 33]); (u "Content-Length", u "3")].
Proof.
  cbv zeta. split; [discriminate|]. split; [reflexivity|]. split; [reflexivity|]. split; [vm_compute; auto|]. split; [apply plain_entryb_ok; reflexivity|]. split; [discriminate|].
  split; [constructor; reflexivity|]. split; [apply QtStruct; [apply nodup_names_NoDup; reflexivity | repeat constructor]|].
  split; [apply HtStruct; [apply nodup_names_NoDup; reflexivity | repeat constructor; discriminate]|].
  eexists _, _, _. split; [vm_compute; reflexivity|]. split; [vm_compute; reflexivity|]. split; [vm_compute; reflexivity|]. split; [vm_compute; auto|].
  split; [vm_compute; reflexivity|]. split; vm_compute; reflexivity.
Qed.
Example C97_string_case : let U := ex_url in let F := ex_float in
  path_there text_ty ex_relay_ep (Some (TTuple [TStr])) /\
  exists x v, parse_url (u "/users/a%2fb") = Some x /\ de_request ex_relay_ep x [(u "a", u "b")] (request_ty (u "R") (Some (TTuple [TStr])) None None) = Ok v /\
    path_texts path_args v = Some [u "a/b"] /\ Forall path_safe [u "a/b"] /\ first_ok (fill ex_relay_ep [u "a/b"]) /\
    unshadowed (accepted ex_relay_gs) ex_relay_ep (map enc (fill ex_relay_ep [u "a/b"])).
Proof.
  cbv zeta. split; [constructor; reflexivity|]. eexists _, _. split; [vm_compute; reflexivity|]. split; [vm_compute; reflexivity|]. split; [vm_compute; reflexivity|].
  split; [constructor; [apply path_safeb_spec; reflexivity | constructor]|]. split; [exact I|]. vm_compute. auto.
Qed.
Example C97_response_case : let F := ex_float in
  let t := TEnum (u "Res") [(u "Ok", VStruct [(u "header", ex_relay_h)]); (u "NoContent", VUnit)] in
  let s := TStruct (u "S") [(u "status", TInt U16); (u "header", ex_relay_h)] in
  let hs := [(u "Server", u "any"); (u "X-TOKEN", u "t")] in
  response_ty t /\ response_ty s /\ forallb safe_header hs = true /\ known_code 404 /\
  de_response 200 hs t = Ok (SStructVariant (u "Res") (u "Ok") [(u "header", SStruct (u "H") [(u "x-token", SStr (u "t")); (u "x-id", SNone)])]) /\
  de_response 404 hs s = Ok (SStruct (u "S") [(u "status", SInt U16 404); (u "header", SStruct (u "H") [(u "x-token", SStr (u "t")); (u "x-id", SNone)])]).
Proof.
  cbv zeta. assert (Ht : header_ty ex_relay_h) by (apply HtStruct; [apply nodup_names_NoDup; reflexivity | repeat constructor; discriminate]).
  split; [constructor; constructor; [right; exists (Some ex_relay_h); split; [reflexivity | exact Ht] | constructor; [left; reflexivity | constructor]]|].
  split; [exact (RtStruct (u "S") U16 (Some ex_relay_h) Ht)|]. split; [reflexivity|]. split; [unfold known_code; lia|]. split; vm_compute; reflexivity.
Qed.

(** Without the conditions.  A string in the path that is not ASCII is another one at the next hop. *)
Theorem C97_any_string_refuted : exists (U : urlenv) (F : floatlib) ep x hs n pt v r x' v',
  path_there text_ty ep (Some pt) /\ de_request ep x hs (request_ty n (Some pt) None None) = Ok v /\
  encode_request ep v 0 = Ok r /\ parse_url (rb_target r) = Some x' /\ de_request ep x' (rb_headers r) (request_ty n (Some pt) None None) = Ok v' /\ v' <> v.
Proof.
  exists ex_url, ex_float, ex_relay_ep, (mkUrl (Some [u "users"; u "%E9"]) None), [(u "a", u "b")], (u "R"), (TTuple [TStr]).
  eexists _, _, _, _. split; [constructor; reflexivity|]. split; [vm_compute; reflexivity|]. split; [vm_compute; reflexivity|]. split; [vm_compute; reflexivity|].
  split; [vm_compute; reflexivity | discriminate].
Qed.
Print Assumptions C97_any_string_refuted.

(** A number may be written in another way than it came, and so be another handler's. *)
Theorem C97_same_handler_refuted : exists (U : urlenv) (F : floatlib) (gs : list (method * entry_point * nat)) m ep h h' x hs n pt v r x',
  path_there number_ty ep (Some pt) /\ route (build gs) m (u_path x) = Ok (inl h) /\ de_request ep x hs (request_ty n (Some pt) None None) = Ok v /\
  encode_request ep v 0 = Ok r /\ parse_url (rb_target r) = Some x' /\ route (build gs) m (u_path x') = Ok (inl h') /\ h' <> h.
Proof.
  exists ex_url, ex_float, [(MGet, ex_relay_ep, 1%nat); (MGet, [Val (u "users"); Val (u "7")], 2%nat)], MGet, ex_relay_ep, 1%nat, 2%nat,
    (mkUrl (Some [u "users"; u "+7"]) None), [(u "a", u "b")], (u "R"), (TTuple [TInt U8]).
  eexists _, _, _. split; [constructor; reflexivity|]. split; [vm_compute; reflexivity|]. split; [vm_compute; reflexivity|]. split; [vm_compute; reflexivity|].
  split; [vm_compute; reflexivity|]. split; [vm_compute; reflexivity | discriminate].
Qed.
Print Assumptions C97_same_handler_refuted.

(** A [true] that was read is refused at the next hop; a status without a name cannot be sent on. *)
Theorem C97_booleans_refuted : exists (U : urlenv) (F : floatlib) ep x hs n pt qt v r x',
  de_request ep x hs (request_ty n (Some pt) (Some qt) None) = Ok v /\
  encode_request ep v 0 = Ok r /\ parse_url (rb_target r) = Some x' /\ de_request ep x' (rb_headers r) (request_ty n (Some pt) (Some qt) None) = Err Invalid.
Proof.
  exists ex_url, ex_float, ex_relay_ep, (mkUrl (Some [u "users"; u "7"]) (Some (u "deep=true"))), [(u "a", u "b")], (u "R"), (TTuple [TInt U8]), (TStruct (u "Q") [(u "deep", TBool)]).
  eexists _, _, _. split; [vm_compute; reflexivity|]. split; [vm_compute; reflexivity|]. split; [vm_compute; reflexivity|]. vm_compute. reflexivity.
Qed.
Print Assumptions C97_booleans_refuted.
Theorem C97_any_status_refuted : exists (F : floatlib) code hs t v, response_ty t /\ forallb safe_header hs = true /\ de_response code hs t = Ok v /\
  forall len r, encode_response v len <> Ok r.
Proof.
  exists ex_float, 299, [(u "a", u "b")], (TStruct (u "S") [(u "status", TInt U16)]), (SStruct (u "S") [(u "status", SInt U16 299)]).
  split; [exact (RtStruct (u "S") U16 None I)|]. split; [reflexivity|]. split; [vm_compute; reflexivity|]. intros len r E. apply encode_response_iff in E. destruct E as (st & l & A & _). inversion A as [| |? ? z st' ? ? Sn C]; subst. cbn in Sn. injection Sn as <-.
  pose proof (code_is_known st) as K. rewrite C in K. unfold known_code in K. cbn in K. lia.
Qed.
Print Assumptions C97_any_status_refuted.
