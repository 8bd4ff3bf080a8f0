(** * [RpcResponseSerializer].  Models src/serializers/rpc_response.rs. *)
From Verif Require Import Base Utf8 Decimal Serde Json Status SerPath SerHeader SerRequest.

(** Models miasht's [ResponseBuilder] as htrpc uses it: the status and the headers. src/serializers/rpc_response.rs:13-19. *)
Record respb := mkRespb { pb_status : status; pb_headers : list header }.

(** Models src/serializers/rpc_response.rs:16-19; [ss_conn] is [connection.is_some()]. *)
Record sser := mkSser { ss_conn : bool; ss_resp : option respb }.

Section SerResponse.
Context `{floatlib}.

(** Models src/serializers/rpc_response.rs:36-41 [new]. *)
Definition sser_new : sser := mkSser true None.

(** Models src/serializers/rpc_response.rs:129-132 (and 188-191): building the response for a variant name. *)
Definition set_variant_status (variant : ustr) (s : sser) : res sser :=
  _ <- assert_invalid (ss_conn s) ;;
  st <- status_from_str variant ;;
  Ok (mkSser false (Some (mkRespb st []))).

(** Models src/serializers/rpc_response.rs:203-217: the field "status". *)
Definition resp_status (v : value) (s : sser) : res sser :=
  _ <- assert_invalid (ss_conn s) ;;
  t <- to_json_string v ;;
  code <- ok_or_invalid (parse_int U16 t) ;;
  st <- ok_or_invalid (normalize (Z.to_N code)) ;;
  Ok (mkSser false (Some (mkRespb st []))).

(** Models src/serializers/rpc_response.rs:220-223 (and 241-244): the headers of the response. *)
Definition resp_header (v : value) (s : sser) : res sser :=
  match ss_resp s with
  | None => Panic                                                  (* unwrap, 220 and 241 *)
  | Some r =>
      h <- ser_header v (hser_new (pb_headers r)) ;;
      Ok (mkSser (ss_conn s) (Some (mkRespb (pb_status r) (hs_out h))))
  end.

(** Models src/serializers/rpc_response.rs:198-227 [SerializeStruct::serialize_field]. *)
Definition resp_field (key : ustr) (v : value) (s : sser) : res sser :=
  if ustr_eqb key (u "status") then resp_status v s
  else if ustr_eqb key (u "header") then
    _ <- assert_invalid (negb (ss_conn s)) ;; resp_header v s
  else Err Invalid.

(** Models src/serializers/rpc_response.rs:235-248 [SerializeStructVariant::serialize_field]. *)
Definition resp_variant_field (key : ustr) (v : value) (s : sser) : res sser :=
  if ustr_eqb key (u "header") then resp_header v s else Err Invalid.

(** The fields of a struct one after the other, src/serializers/rpc_response.rs:195-230. *)
Fixpoint resp_fields (fs : list (ustr * value)) (s : sser) : res sser :=
  match fs with
  | [] => Ok s
  | (n, v) :: r => s <- resp_field n v s ;; resp_fields r s
  end.

(** The fields of a struct variant one after the other, src/serializers/rpc_response.rs:232-252. *)
Fixpoint resp_variant_fields (fs : list (ustr * value)) (s : sser) : res sser :=
  match fs with
  | [] => Ok s
  | (n, v) :: r => s <- resp_variant_field n v s ;; resp_variant_fields r s
  end.

(** Models src/serializers/rpc_response.rs:54-252: one branch per [Serializer] method. *)
Fixpoint ser_response (v : value) (s : sser) {struct v} : res sser :=
  match v with
  | SUnitVariant _ x => set_variant_status x s                     (* 123-134 *)
  | SNewtypeStruct _ v => ser_response v s                         (* 135-140 *)
  | SNewtypeVariant _ _ v => ser_response v s                      (* 141-152 *)
  | SStruct _ fs => resp_fields fs s                               (* 178-180, 195-231 *)
  | SStructVariant _ x fs =>                                       (* 181-193, 232-252 *)
      s <- set_variant_status x s ;; resp_variant_fields fs s
  | _ => Err Invalid                                               (* 66-122, 153-177 *)
  end.

(** Models src/serializers/rpc_response.rs:44-52 [finish]. *)
Definition finish_response (len : N) (s : sser) : res respb :=
  match ss_resp s with
  | None => Err Invalid
  | Some r => Ok (mkRespb (pb_status r) (pb_headers r ++ [content_length len]))
  end.

(** Models src/serializers/rpc_response.rs:22-33 [serialize]; the body itself is passed through. *)
Definition encode_response (v : value) (body_len : N) : res respb :=
  s <- ser_response v sser_new ;; finish_response body_len s.
End SerResponse.
