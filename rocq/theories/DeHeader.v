(** * [HttpHeaderDeserializer].  Models src/deserializers/http_header.rs. *)
From Verif Require Import Base Utf8 Decimal Serde DePath.

(** A received header: name (text) and value (bytes), as miasht's [Headers::iter] yields it. src/deserializers/http_header.rs:37-43. *)
Definition rheader := (ustr * bytes)%type.

(** Models src/deserializers/http_header.rs:11-14,30-34.  [hd_value]: the phase is [Value]. *)
Record hde := mkHde { hd_in_map : bool; hd_value : bool; hd_rest : list rheader }.

(** Models src/deserializers/http_header.rs:37-43 [new]. *)
Definition hde_new (hs : list rheader) : hde := mkHde false false hs.

(** Models src/deserializers/http_header.rs:47-61 [next_bytes]: a key is only peeked at, a value consumes. *)
Definition next_bytes (s : hde) : res (bytes * hde) :=
  match hd_rest s with
  | [] => Err Invalid
  | (k, v) :: r =>
      if hd_value s then Ok (v, mkHde (hd_in_map s) false r)
      else Ok (utf8_encode (lowercase k), mkHde (hd_in_map s) true (hd_rest s))
  end.

Section DeHeader.
Context `{floatlib}.

(** Models src/deserializers/http_header.rs:344-351 [parse_slice] followed by the visitor. *)
Definition header_scalar {A} (parse : ustr -> option A) (mk : A -> value) (s : hde) : res (value * hde) :=
  '(b, s) <- next_bytes s ;;
  t <- ok_or_invalid (utf8_decode b) ;;
  a <- ok_or_invalid (parse t) ;;
  Ok (mk a, s).

(** Models src/deserializers/http_header.rs:178-192 [deserialize_str]. *)
Definition header_str (s : hde) : res (ustr * hde) :=
  '(b, s) <- next_bytes s ;; t <- ok_or_invalid (utf8_decode b) ;; Ok (t, s).

(** Models src/deserializers/http_header.rs:275-282 [deserialize_map]: entering. *)
Definition header_enter (s : hde) : res hde :=
  _ <- assert_invalid (negb (hd_in_map s)) ;; Ok (mkHde true (hd_value s) (hd_rest s)).

(** Models src/deserializers/http_header.rs:44-46 [is_end_of_header]. *)
Definition header_end (s : hde) : bool := match hd_rest s with [] => true | _ => false end.

(** Models src/deserializers/http_header.rs:324-334 [next_key_seed], for any key type and for field names. *)
Definition header_next_key (d : hde -> res (value * hde)) (s : hde) : res (option value * hde) :=
  if header_end s then Ok (None, s) else '(v, s) <- d s ;; Ok (Some v, s).
(** Models src/deserializers/http_header.rs:322-342 for a struct: the next key as an identifier (308-313). *)
Definition header_next_field (s : hde) : res (option ustr * hde) :=
  if header_end s then Ok (None, s) else '(t, s) <- header_str s ;; Ok (Some t, s).

(** Models src/deserializers/http_header.rs:314-320 [deserialize_ignored_any]: reads the value. *)
Definition header_skip (_ : ustr) (s : hde) : res hde := '(_, s) <- next_bytes s ;; Ok s.

(** Enough fuel for the visitor loops. More rounds than src/deserializers/http_header.rs:322-342 can say there is another key. *)
Definition header_fuel (s : hde) : nat := 2 * length (hd_rest s) + 2.

(** Models src/deserializers/http_header.rs:63-321: one branch per [Deserializer] method. *)
Fixpoint de_header (t : ty) (s : hde) {struct t} : res (value * hde) :=
  match t with
  | TBool => header_scalar parse_bool SBool s                      (* 72-79 *)
  | TInt k => header_scalar (parse_int k) (SInt k) s               (* 81-151 *)
  | TF32 => header_scalar fparse32 SF32 s                          (* 153-160 *)
  | TF64 => header_scalar fparse64 SF64 s                          (* 162-169 *)
  | TChar => Err Invalid                                           (* 171-176 *)
  | TStr => '(t, s) <- header_str s ;; Ok (SStr t, s)              (* 178-199 *)
  | TBytes => '(b, s) <- next_bytes s ;; Ok (SBytes b, s)          (* 201-216 *)
  | TOption t => '(v, s) <- de_header t s ;; Ok (SSome v, s)       (* 218-223 *)
  | TUnit => Err Invalid                                           (* 225-230 *)
  | TUnitStruct n =>                                               (* 232-240 *)
      '(t, s) <- header_str s ;; _ <- assert_invalid (ustr_eqb t n) ;; Ok (SUnitStruct n, s)
  | TNewtype n t => '(v, s) <- de_header t s ;; Ok (SNewtypeStruct n v, s)  (* 242-247 *)
  | TSeq _ | TTuple _ | TTupleStruct _ _ => Err Invalid            (* 249-273 *)
  | TMap k v =>                                                    (* 275-282 *)
      s <- header_enter s ;;
      '(m, s) <- visit_map (header_fuel s) header_next_key (de_header k) (de_header v) [] s ;;
      Ok (SMap m, s)
  | TStruct n fs =>                                                (* 284-294 *)
      s <- header_enter s ;;
      '(vs, s) <- visit_struct (header_fuel s) header_next_field header_skip
                    (map (fun f => (fst f, de_header (snd f))) fs) fs s ;;
      Ok (SStruct n vs, s)
  | TEnum _ _ => Err Invalid                                       (* 296-306 *)
  | TAny => Err Other                                              (* 65-70 *)
  end.
End DeHeader.
