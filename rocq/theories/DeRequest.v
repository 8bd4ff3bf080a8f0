(** * [RpcRequestDeserializer].  Models src/deserializers/rpc_request.rs. *)
From Verif Require Import Base Utf8 Decimal DepUrl Serde Procedure DePath DeQuery DeHeader.

(** Models src/deserializers/rpc_request.rs:11-16 [Phase]. *)
Inductive rphase := RInit | RPath | RQuery | RHeader.

Section DeRequest.
Context `{floatlib}.
Variables (ep : entry_point) (x : url) (hs : list rheader).

(** Models src/deserializers/rpc_request.rs:232-260 [next_key_seed]: the key text and the next phase. *)
Definition req_next_field (p : rphase) : res (option ustr * rphase) :=
  match p with
  | RInit => Ok (Some (u "path"), RPath)
  | RPath => Ok (Some (u "query"), RQuery)
  | RQuery => Ok (Some (u "header"), RHeader)
  | RHeader => Ok (None, RHeader)
  end.

(** serde's [StrDeserializer] on a key, for the key type of a map. src/deserializers/rpc_request.rs:232-260. Simplification: self-describing key
    types (TAny), which would accept the text, are left out (error). *)
Definition de_str_key (t : ty) (k : ustr) : res value :=
  match t with
  | TStr => Ok (SStr k)
  | TBytes => Ok (SBytes (utf8_encode k))
  | TEnum n vs => match assoc k vs with Some VUnit => Ok (SUnitVariant n k) | _ => Err Invalid end
  | _ => Err Invalid
  end.

(** Models src/deserializers/rpc_request.rs:232-261 [next_key_seed]. *)
Definition req_next_key (kt : ty) (_ : rphase -> res (value * rphase)) (p : rphase)
    : res (option value * rphase) :=
  '(o, p) <- req_next_field p ;;
  match o with None => Ok (None, p) | Some k => v <- de_str_key kt k ;; Ok (Some v, p) end.

(** Models src/deserializers/rpc_request.rs:262-284 [next_value_seed]. *)
Definition req_value (t : ty) (p : rphase) : res (value * rphase) :=
  match p with
  | RInit => Panic                                                 (* unreachable!, 267 *)
  | RPath => s <- pde_new ep x ;; '(v, _) <- de_path t s ;; Ok (v, p)
  | RQuery => '(v, _) <- de_query t (qde_new (query_pairs x)) ;; Ok (v, p)
  | RHeader => '(v, _) <- de_header t (hde_new hs) ;; Ok (v, p)
  end.

(** Skipping the value of an unknown key: [IgnoredAny] on the part's deserializer.
    A path deserializer is still created (270); the header one reads a header name (http_header.rs:314-320).
    src/deserializers/rpc_request.rs:222-227 [deserialize_ignored_any]. *)
Definition req_skip (_ : ustr) (p : rphase) : res rphase :=
  match p with
  | RInit => Panic
  | RPath => _ <- pde_new ep x ;; Ok p
  | RQuery => Ok p
  | RHeader => '(_, _) <- next_bytes (hde_new hs) ;; Ok p
  end.

(** Models src/deserializers/rpc_request.rs:37-229: one branch per [Deserializer] method. *)
Fixpoint de_request_from (t : ty) (p : rphase) {struct t} : res (value * rphase) :=
  match t with
  | TNewtype n t => '(v, p) <- de_request_from t p ;; Ok (SNewtypeStruct n v, p)  (* 159-164 *)
  | TMap k v =>                                                    (* 188-193 *)
      '(m, p) <- visit_map 5 (req_next_key k) (fun _ => Err Invalid) (req_value v) [] p ;; Ok (SMap m, p)
  | TStruct n fs =>                                                (* 194-204 *)
      '(vs, p) <- visit_struct 5 req_next_field req_skip
                    (map (fun f => (fst f, req_value (snd f))) fs) fs p ;;
      Ok (SStruct n vs, p)
  | TAny => Err Other                                              (* 39-44 *)
  | _ => Err Invalid
  end.

(** [T::deserialize(&mut RpcRequestDeserializer::new(..))], as called in src/server.rs (register). *)
Definition de_request (t : ty) : res value := '(v, _) <- de_request_from t RInit ;; Ok v.
End DeRequest.
