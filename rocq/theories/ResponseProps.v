(** * Properties C19-C22: responses. *)
From Verif Require Import Base Utf8 Decimal DepUrl Serde Json Status Procedure ScalarSpec FieldSpec SerHeader SerRequest SerResponse
  DeHeader DeResponse DepHttp FieldProofs HeaderProofs MapSpec RequestArrives ResponseSpec ResponseProofs ResponseTrip Exhibit RequestProps.
Open Scope N_scope.

(** The response type of the cases:
    [enum Res { Ok { header: H }, Created, NotFound(Inner), SeeOther {} }]. *)
Definition ex_inner : ty := TStruct (u "Inner") [(u "status", TOption (TInt U16)); (u "header", TStruct (u "H") ex_hfs)].
Definition ex_res : list (ustr * vty) :=
  [(u "Ok", VStruct [(u "header", TStruct (u "H") ex_hfs)]); (u "Created", VUnit); (u "NotFound", VNewtype ex_inner); (u "SeeOther", VStruct [])].
Definition ex_head := Some (TStruct (u "H") ex_hfs, SStruct (u "H") ex_hvs).
Lemma ex_head_fits : let F := ex_float in exists l, header_fits ex_head l /\ forallb safe_header l = true.
Proof.
  eexists. split.
  - split; [|vm_compute; reflexivity]. constructor; [apply nodup_names_NoDup; reflexivity | repeat constructor; discriminate | repeat constructor].
  - vm_compute. reflexivity.
Qed.

(** ** C19 *)
Theorem C19_unit_variant_arrives (F : floatlib) (W : httpenv) n variants x st len :
  status_from_str x = Ok st -> assoc x variants = Some VUnit ->
  exists r hs, encode_response (SUnitVariant n x) len = Ok r /\ deliver (pb_headers r) = Some hs /\
    de_response (code_of (pb_status r)) hs (TEnum n variants) = Ok (SUnitVariant n x).
Proof. exact (unit_variant_arrives n variants x st len). Qed.
Print Assumptions C19_unit_variant_arrives.

Theorem C19_struct_variant_arrives (F : floatlib) (W : httpenv) n variants x st o l len :
  status_from_str x = Ok st -> assoc x variants = Some (VStruct (head_ty o)) ->
  header_fits o l -> forallb safe_header l = true ->
  exists r hs, encode_response (SStructVariant n x (head_val o)) len = Ok r /\ deliver (pb_headers r) = Some hs /\
    de_response (code_of (pb_status r)) hs (TEnum n variants) = Ok (SStructVariant n x (head_val o)).
Proof. exact (struct_variant_arrives n variants x st o l len). Qed.
Print Assumptions C19_struct_variant_arrives.

Theorem C19_struct_arrives (F : floatlib) (W : httpenv) n k z st o l len :
  in_range k z = true -> (0 <= z)%Z -> code_of st = Z.to_N z -> header_fits o l -> forallb safe_header l = true ->
  exists r hs, encode_response (SStruct n ((u "status", SInt k z) :: head_val o)) len = Ok r /\ deliver (pb_headers r) = Some hs /\
    de_response (code_of (pb_status r)) hs (TStruct n ((u "status", TInt k) :: head_ty o)) = Ok (SStruct n ((u "status", SInt k z) :: head_val o)).
Proof. exact (struct_arrives n k z st o l len). Qed.
Print Assumptions C19_struct_arrives.

(** What the client reads from any status and headers, field by field. *)
Theorem C19_struct_decoding_iff (F : floatlib) code hs n fs vs : NoDup (map fst fs) ->
  de_response code hs (TStruct n fs) = Ok (SStruct n vs) <->
  (~ In (u "header") (map fst fs) -> hs <> []) /\
  Forall2 (fun f v => fst v = fst f /\ resp_part code hs true (fst f) (snd f) (snd v)) fs vs.
Proof. exact (de_response_struct code hs n fs vs). Qed.
Print Assumptions C19_struct_decoding_iff.

Theorem C19_struct_variant_decoding_iff (F : floatlib) code hs n variants vs fs x :
  status_code_to_str code = Ok x -> assoc x variants = Some (VStruct fs) -> NoDup (map fst fs) ->
  de_response code hs (TEnum n variants) = Ok (SStructVariant n x vs) <->
  (~ In (u "header") (map fst fs) -> hs <> []) /\
  Forall2 (fun f v => fst v = fst f /\ resp_part code hs false (fst f) (snd f) (snd v)) fs vs.
Proof. exact (de_struct_variant code hs n variants vs fs x). Qed.
Print Assumptions C19_struct_variant_decoding_iff.

Theorem C19_decoding_never_panics (F : floatlib) code hs t : names_ok hs = true -> safe (de_response code hs t).
Proof. exact (fun N => de_response_safe code hs N t). Qed.
Print Assumptions C19_decoding_never_panics.

Example C19_case : let F := ex_float in let W := ex_http in
  status_from_str (u "Created") = Ok StCreated /\ assoc (u "Created") ex_res = Some VUnit /\
  status_from_str (u "Ok") = Ok StOk /\ assoc (u "Ok") ex_res = Some (VStruct (head_ty ex_head)) /\
  (exists l, header_fits ex_head l /\ forallb safe_header l = true) /\
  in_range I32 404 = true /\ code_of StNotFound = Z.to_N 404 /\
  match encode_response (SStructVariant (u "Res") (u "Ok") (head_val ex_head)) 7 with
  | Ok r => pb_headers r = [(u "x-token", u "s3 cr=t"); (u "x-retry", u "3"); (u "Content-Length", u "7")]
  | _ => False
  end /\
  de_response 200 [(u "X-Retry", u "3"); (u "Server", u "any"); (u "X-TOKEN", u "s3 cr=t")] (TEnum (u "Res") ex_res) =
    Ok (SStructVariant (u "Res") (u "Ok") [(u "header", SStruct (u "H") ex_hvs)]) /\
  names_ok [(u "X-Retry", u "3"); (u "Server", u "any"); (u "X-TOKEN", u "s3 cr=t")] = true.
Proof. cbv zeta. split; [reflexivity|]. split; [reflexivity|]. split; [reflexivity|]. split; [reflexivity|]. split; [exact ex_head_fits|]. vm_compute. auto 10. Qed.

(** A status held in an [Option] (or in a newtype) is sent, but cannot be read back. *)
Theorem C19_optional_status_refuted : exists (F : floatlib) (W : httpenv) n v,
  has_ty (TStruct n [(u "status", TOption (TInt U16))]) v = true /\ (exists r, encode_response v 0 = Ok r /\ pb_status r = StOk) /\
  forall hs, de_response 200 hs (TStruct n [(u "status", TOption (TInt U16))]) = Err Invalid.
Proof.
  exists ex_float, ex_http, (u "R"), (SStruct (u "R") [(u "status", SSome (SInt U16 200))]). split; [reflexivity|].
  split; [eexists; split; vm_compute; reflexivity|]. intros hs. reflexivity.
Qed.
Print Assumptions C19_optional_status_refuted.

(** ** C20 *)
Theorem C20_names_and_codes_inverse x st : status_from_str x = Ok st <-> status_code_to_str (code_of st) = Ok x.
Proof. exact (names_and_codes x st). Qed.
Print Assumptions C20_names_and_codes_inverse.

Theorem C20_every_status_has_one_name st : exists x, status_from_str x = Ok st /\ forall y, status_from_str y = Ok st -> y = x.
Proof. destruct (every_status_named st) as [x E]. exists x. split; [exact E|]. intros y E'. exact (status_name_inj y x st E' E). Qed.
Print Assumptions C20_every_status_has_one_name.

Theorem C20_codes_distinct s t : code_of s = code_of t -> s = t.
Proof. exact (code_inj s t). Qed.
Print Assumptions C20_codes_distinct.

Theorem C20_codes_with_a_name c : (exists x, status_code_to_str c = Ok x) <-> known_code c.
Proof. exact (codes_known c). Qed.
Print Assumptions C20_codes_with_a_name.

Theorem C20_sender_refuses_other_names (F : floatlib) e x fs len : (forall st, status_from_str x <> Ok st) ->
  encode_response (SUnitVariant e x) len = Err Invalid /\ encode_response (SStructVariant e x fs) len = Err Invalid.
Proof.
  intros N. destruct (name_ok_or_invalid x) as [[st E]|E]; [elim (N st E)|].
  unfold encode_response. cbn [ser_response]. unfold set_variant_status. cbn [sser_new ss_conn assert_invalid bind]. rewrite E. auto.
Qed.
Print Assumptions C20_sender_refuses_other_names.

Theorem C20_receiver_refuses_other_codes (F : floatlib) c hs n variants : ~ known_code c ->
  de_response c hs (TEnum n variants) = Err Invalid.
Proof. intros N. unfold de_response. rewrite from_enum, (codes_else c N). reflexivity. Qed.
Print Assumptions C20_receiver_refuses_other_codes.

Example C20_case : status_from_str (u "ImATeapot") = Ok StImATeapot /\ code_of StImATeapot = 418 /\ status_code_to_str 418 = Ok (u "ImATeapot") /\
  (forall st, status_from_str (u "OK") <> Ok st) /\ ~ known_code 299 /\ known_code 226 /\ length from_str_table = 57%nat /\
  (* the name of 417 is misspelled on both sides *)
  status_code_to_str 417 = Ok (u "ExceptionFailed").
Proof.
  split; [reflexivity|]. split; [reflexivity|]. split; [reflexivity|].
  split; [intros st; vm_compute; discriminate|]. split; [unfold known_code; lia|]. split; [unfold known_code; lia|]. split; reflexivity.
Qed.

(** ** C21 *)
Theorem C21_newtype_takes_content_status (F : floatlib) e x v len r : encode_response (SNewtypeVariant e x v) len = Ok r ->
  exists hs, answers (core v) (pb_status r) hs /\ pb_headers r = hs ++ [length_header len].
Proof. exact (newtype_status e x v len r). Qed.
Print Assumptions C21_newtype_takes_content_status.

Theorem C21_decoded_as_variant_of_that_status (F : floatlib) e x v len r hs n variants w y :
  encode_response (SNewtypeVariant e x v) len = Ok r ->
  de_response (code_of (pb_status r)) hs (TEnum n variants) = Ok w -> variant_of w = Some y -> status_from_str y = Ok (pb_status r).
Proof. exact (newtype_becomes e x v len r hs n variants w y). Qed.
Print Assumptions C21_decoded_as_variant_of_that_status.

Theorem C21_struct_content_always_changes (F : floatlib) e x n fs vs len r hs variants :
  encode_response (SNewtypeVariant e x (SStruct n vs)) len = Ok r ->
  assoc x variants = Some (VNewtype (TStruct n fs)) -> NoDup (map fst fs) ->
  de_response (code_of (pb_status r)) hs (TEnum e variants) <> Ok (SNewtypeVariant e x (SStruct n vs)).
Proof. exact (newtype_struct_changes e x n fs vs len r hs variants). Qed.
Print Assumptions C21_struct_content_always_changes.

Example C21_case : let F := ex_float in
  let v := fun z => SNewtypeVariant (u "Res") (u "NotFound") (SStruct (u "Inner") [(u "status", SSome (SInt U16 z)); (u "header", SStruct (u "H") ex_hvs)]) in
  match encode_response (v 404%Z) 0, encode_response (v 201%Z) 0 with
  | Ok r, Ok r' => pb_status r = StNotFound /\ pb_status r' = StCreated /\
      (* the status is lost on the way ... *)
      de_response 404 (pb_headers r) (TEnum (u "Res") ex_res) =
        Ok (SNewtypeVariant (u "Res") (u "NotFound") (SStruct (u "Inner") [(u "status", SNone); (u "header", SStruct (u "H") ex_hvs)])) /\
      (* ... or the whole variant changes *)
      de_response 201 (pb_headers r') (TEnum (u "Res") ex_res) = Ok (SUnitVariant (u "Res") (u "Created"))
  | _, _ => False
  end /\ assoc (u "NotFound") ex_res = Some (VNewtype ex_inner).
Proof. vm_compute. auto. Qed.

(** ** C22 *)
Theorem C22_response_iff (F : floatlib) v len r : encode_response v len = Ok r <->
  exists st hs, answers (core v) st hs /\ r = mkRespb st (hs ++ [length_header len]).
Proof. exact (encode_response_iff v len r). Qed.
Print Assumptions C22_response_iff.

Theorem C22_never_panics (F : floatlib) v len : safe (encode_response v len).
Proof. exact (encode_response_safe v len). Qed.
Print Assumptions C22_never_panics.

Example C22_case : let F := ex_float in
  answers (core (SNewtypeStruct (u "N") (SStruct (u "R") [(u "status", SInt U16 503); (u "header", SStruct (u "H") ex_hvs); (u "header", SStruct (u "E") [])])))
    StServiceUnavailable [(u "x-token", u "s3 cr=t"); (u "x-retry", u "3")] /\
  encode_response (SStruct (u "R") [(u "header", SStruct (u "H") ex_hvs); (u "status", SInt U16 503)]) 5 = Err Invalid /\
  encode_response (SStruct (u "R") [(u "status", SInt U16 299)]) 5 = Err Invalid /\
  encode_response (SStruct (u "R") []) 5 = Err Invalid /\
  encode_response (SNewtypeStruct (u "N") (SStruct (u "R") [(u "status", SInt U16 503); (u "header", SStruct (u "H") ex_hvs); (u "header", SStruct (u "E") [])])) 5 =
    Ok (mkRespb StServiceUnavailable [(u "x-token", u "s3 cr=t"); (u "x-retry", u "3"); (u "Content-Length", u "5")]).
Proof.
  cbv zeta. split.
  - apply (AStruct (u "R") (SInt U16 503) 503 StServiceUnavailable [SStruct (u "H") ex_hvs; SStruct (u "E") []] [[(u "x-token", u "s3 cr=t"); (u "x-retry", u "3")]; []]);
      [reflexivity | reflexivity |]. apply Forall2_cons; [vm_compute; reflexivity|]. apply Forall2_cons; [vm_compute; reflexivity|]. apply Forall2_nil.
  - vm_compute. auto.
Qed.
