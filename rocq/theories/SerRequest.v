(** * [RpcRequestSerializer].  Models src/serializers/rpc_request.rs. *)
From Verif Require Import Base Utf8 Decimal DepUrl Serde Procedure SerPath SerQuery SerHeader.

(** Models miasht's [RequestBuilder] as htrpc uses it: the request target and the headers.
    The method is constant through the serialization and is kept outside. src/serializers/rpc_request.rs:20,46-61. *)
Record reqb := mkReqb { rb_target : ustr; rb_headers : list header }.

(** Models src/serializers/rpc_request.rs:14-21.  [rs_path]/[rs_query] are [temp_url]; [rs_conn] is
    [connection.is_some()]. *)
Record rser := mkRser {
  rs_path : list ustr; rs_query : option ustr; rs_init : bool; rs_conn : bool; rs_req : option reqb
}.

(** The Content-Length header of a body: miasht [add_header(&ContentLength(n))], used at
    src/serializers/rpc_request.rs:42 and src/serializers/rpc_response.rs:50. *)
Definition content_length (len : N) : header := (u "Content-Length", show_N len).

Section SerRequest.
Context `{urlenv} `{floatlib}.

(** Models src/serializers/rpc_request.rs:24-37 [new]. *)
Definition rser_new : rser := mkRser [[]] None false true None.

(** Models src/serializers/rpc_request.rs:46-62 [take_request]: returns the request and the state left behind. *)
Definition take_request (ep : entry_point) (s : rser) : res (reqb * rser) :=
  match rs_req s with
  | Some r => Ok (r, mkRser (rs_path s) (rs_query s) (rs_init s) (rs_conn s) None)
  | None =>
      if rs_conn s then
        path <- (if rs_init s then Ok (rs_path s)
                 else match ser_path ep SUnit (pser_new ep (rs_path s)) with
                      | Ok p => Ok (p_path p)
                      | Err _ => Panic                             (* track_try_unwrap!, 56 *)
                      | Panic => Panic
                      | Diverge => Diverge
                      end) ;;
        Ok (mkReqb (url_text path (rs_query s)) [], mkRser path (rs_query s) (rs_init s) false None)
      else Panic                                                   (* assert!, 50 *)
  end.

(** Models src/serializers/rpc_request.rs:205-216: the field "path". *)
Definition field_path (ep : entry_point) (v : value) (s : rser) : res rser :=
  _ <- assert_invalid (rs_conn s) ;;
  p <- ser_path ep v (pser_new ep (rs_path s)) ;;
  Ok (mkRser (p_path p) (rs_query s) true (rs_conn s) (rs_req s)).

(** Models src/serializers/rpc_request.rs:217-235: the field "query". *)
Definition field_query (ep : entry_point) (v : value) (s : rser) : res rser :=
  _ <- assert_invalid (rs_conn s) ;;
  path <- (if rs_init s then Ok (rs_path s)
           else p <- ser_path ep v (pser_new ep (rs_path s)) ;; Ok (p_path p)) ;;
  q <- ser_query v qser_new ;;
  Ok (mkRser path (Some (qs_text q)) true false (Some (mkReqb (url_text path (Some (qs_text q))) []))).

(** Models src/serializers/rpc_request.rs:236-244: the field "header". *)
Definition field_header (ep : entry_point) (v : value) (s : rser) : res rser :=
  '(r, s) <- take_request ep s ;;
  h <- ser_header v (hser_new (rb_headers r)) ;;
  Ok (mkRser (rs_path s) (rs_query s) (rs_init s) (rs_conn s) (Some (mkReqb (rb_target r) (hs_out h)))).

(** Models src/serializers/rpc_request.rs:200-247 [SerializeStruct::serialize_field]. *)
Definition req_field (ep : entry_point) (key : ustr) (v : value) (s : rser) : res rser :=
  if ustr_eqb key (u "path") then field_path ep v s
  else if ustr_eqb key (u "query") then field_query ep v s
  else if ustr_eqb key (u "header") then field_header ep v s
  else Err Invalid.

(** Models src/serializers/rpc_request.rs:255-268 [SerializeStructVariant::serialize_field]. *)
Definition req_variant_field (key : ustr) (v : value) (s : rser) : res rser :=
  if ustr_eqb key (u "header") then
    match rs_req s with
    | None => Panic                                                (* unwrap, 261 *)
    | Some r =>
        h <- ser_header v (hser_new (rb_headers r)) ;;
        Ok (mkRser (rs_path s) (rs_query s) (rs_init s) (rs_conn s) (Some (mkReqb (rb_target r) (hs_out h))))
    end
  else Err Invalid.

(** The fields of a struct one after the other, as derived [Serialize] impls call src/serializers/rpc_request.rs:197-250. *)
Fixpoint req_fields (ep : entry_point) (fs : list (ustr * value)) (s : rser) : res rser :=
  match fs with
  | [] => Ok s
  | (n, v) :: r => s <- req_field ep n v s ;; req_fields ep r s
  end.

(** The fields of a struct variant one after the other, src/serializers/rpc_request.rs:252-272. *)
Fixpoint req_variant_fields (fs : list (ustr * value)) (s : rser) : res rser :=
  match fs with
  | [] => Ok s
  | (n, v) :: r => s <- req_variant_field n v s ;; req_variant_fields r s
  end.

(** Models src/serializers/rpc_request.rs:64-272: one branch per [Serializer] method. *)
Fixpoint ser_request (ep : entry_point) (v : value) (s : rser) {struct v} : res rser :=
  match v with
  | SNewtypeStruct _ v => ser_request ep v s                       (* 141-146 *)
  | SNewtypeVariant _ _ v => ser_request ep v s                    (* 147-158 *)
  | SStruct _ fs => req_fields ep fs s                             (* 184-186, 197-251 *)
  | SStructVariant _ _ fs => req_variant_fields fs s               (* 187-195, 252-272 *)
  | _ => Err Invalid                                               (* 76-140, 159-183 *)
  end.

(** Models src/serializers/rpc_request.rs:40-44 [finish]. *)
Definition finish_request (ep : entry_point) (len : N) (s : rser) : res reqb :=
  '(r, _) <- take_request ep s ;;
  Ok (mkReqb (rb_target r) (rb_headers r ++ [content_length len])).

(** The whole client-side encoding of a request: [new], [serialize], [finish], as run by
    src/client.rs (CallInner, after the connection is there). *)
Definition encode_request (ep : entry_point) (v : value) (body_len : N) : res reqb :=
  s <- ser_request ep v rser_new ;; finish_request ep body_len s.
End SerRequest.
