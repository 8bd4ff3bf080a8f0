(** * [RpcResponseDeserializer].  Models src/deserializers/rpc_response.rs. *)
From Verif Require Import Base Utf8 Decimal Serde Status DePath DeHeader DeRequest.

(** Models src/deserializers/rpc_response.rs:8-13 [Phase]. *)
Inductive sphase := SInit | SStatus | SHeader.

Section DeResponse.
Context `{floatlib}.
Variables (code : N) (hs : list rheader).

(** serde's [U16Deserializer]: every request becomes [visit_u16]. src/deserializers/rpc_response.rs:247-256. *)
Definition de_u16 (t : ty) : res value :=
  match t with
  | TInt k => if in_range k (Z.of_N code) then Ok (SInt k (Z.of_N code)) else Err Invalid
  | TF32 => Ok (SF32 (f32_of_int (Z.of_N code)))
  | TF64 => Ok (SF64 (f64_of_int (Z.of_N code)))
  | TAny => Ok (SInt U16 (Z.of_N code))
  | _ => Err Invalid
  end.

(** Models src/deserializers/rpc_response.rs:225-245 [next_key_seed]. *)
Definition resp_next_field (p : sphase) : res (option ustr * sphase) :=
  match p with
  | SInit => Ok (Some (u "status"), SStatus)
  | SStatus => Ok (Some (u "header"), SHeader)
  | SHeader => Ok (None, SHeader)
  end.

(** Models src/deserializers/rpc_response.rs:225-246 [next_key_seed]. *)
Definition resp_next_key (kt : ty) (_ : sphase -> res (value * sphase)) (p : sphase)
    : res (option value * sphase) :=
  '(o, p) <- resp_next_field p ;;
  match o with None => Ok (None, p) | Some k => v <- de_str_key kt k ;; Ok (Some v, p) end.

(** Models src/deserializers/rpc_response.rs:247-265 [next_value_seed]. *)
Definition resp_value (t : ty) (p : sphase) : res (value * sphase) :=
  match p with
  | SInit => Panic                                                 (* unreachable!, 253 *)
  | SStatus => v <- de_u16 t ;; Ok (v, p)
  | SHeader => '(v, _) <- de_header t (hde_new hs) ;; Ok (v, p)
  end.

(** Skipping the value of an unknown key: [IgnoredAny] accepts a [u16], and reads one header name.
    src/deserializers/rpc_response.rs:215-220 [deserialize_ignored_any]. *)
Definition resp_skip (_ : ustr) (p : sphase) : res sphase :=
  match p with
  | SInit => Panic
  | SStatus => Ok p
  | SHeader => '(_, _) <- next_bytes (hde_new hs) ;; Ok p
  end.

(** Models src/deserializers/rpc_response.rs:30-221 and the [Enum] access at 268-310. *)
Fixpoint de_response_from (t : ty) (p : sphase) {struct t} : res (value * sphase) :=
  match t with
  | TNewtype n t => '(v, p) <- de_response_from t p ;; Ok (SNewtypeStruct n v, p)  (* 152-157 *)
  | TMap k v =>                                                    (* 181-186 *)
      '(m, p) <- visit_map 4 (resp_next_key k) (fun _ => Err Invalid) (resp_value v) [] p ;; Ok (SMap m, p)
  | TStruct n fs =>                                                (* 187-197 *)
      '(vs, p) <- visit_struct 4 resp_next_field resp_skip
                    (map (fun f => (fst f, resp_value (snd f))) fs) fs p ;;
      Ok (SStruct n vs, p)
  | TEnum n vs =>                                                  (* 198-208, 273-286 *)
      name <- status_code_to_str code ;;
      match assoc name (map (fun f => (fst f, de_variant (snd f) n (fst f))) vs) with
      | None => Err Invalid                                        (* serde: unknown variant *)
      | Some d => d SStatus
      end
  | TAny => Err Other                                              (* 32-37 *)
  | _ => Err Invalid
  end
(** Models src/deserializers/rpc_response.rs:287-310 [VariantAccess]. *)
with de_variant (t : vty) (enum variant : ustr) (p : sphase) {struct t} : res (value * sphase) :=
  match t with
  | VUnit => Ok (SUnitVariant enum variant, p)                     (* 289-291 *)
  | VNewtype t => '(v, p) <- de_response_from t p ;; Ok (SNewtypeVariant enum variant v, p)  (* 292-297 *)
  | VTuple _ => Err Invalid                                        (* 298-303 *)
  | VStruct fs =>                                                  (* 304-309 *)
      '(vs, p) <- visit_struct 4 resp_next_field resp_skip
                    (map (fun f => (fst f, resp_value (snd f))) fs) fs p ;;
      Ok (SStructVariant enum variant vs, p)
  end.

(** [P::Response::deserialize(&mut RpcResponseDeserializer::new(&response))], src/client.rs:120-121. *)
Definition de_response (t : ty) : res value := '(v, _) <- de_response_from t SInit ;; Ok v.
End DeResponse.
