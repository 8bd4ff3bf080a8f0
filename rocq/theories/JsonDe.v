(** * Decoding a JSON tree as a type, as serde_json's [Deserializer] with derived visitors does.

    Dependency: serde_json 1 and serde_derive 1; used through [serdeconv::from_json_str] at src/json.rs:32 and
    [serdeconv::from_json_slice] at src/rfc7807.rs:50.  serdeconv reports every such error as [Invalid]
    (src/error.rs:66-74).  Simplification: [TAny] (self-describing targets such as [serde_json::Value]) is an error. *)
From Verif Require Import Base Utf8 Decimal Serde Json JsonText.
Open Scope N_scope.

(** serde_json de.rs [MapKey]: an object key read as a key type; a key is never null, and every other type is handed a
    string, which its visitor refuses.  Simplification: later releases read bool and float keys too. For [from_json_str] at src/json.rs:32 and [from_json_slice] at src/rfc7807.rs:50. *)
Fixpoint from_key (t : ty) (s : ustr) : res value :=
  match t with
  | TStr => Ok (SStr s)
  | TChar => match s with [c] => Ok (SChar c) | _ => Err Invalid end
  | TInt k => match parse_int k s with Some z => Ok (SInt k z) | None => Err Invalid end
  | TBytes => Ok (SBytes (utf8_encode s))
  | TOption t => res_map SSome (from_key t s)
  | TNewtype n t => res_map (SNewtypeStruct n) (from_key t s)
  | TEnum n vs => match assoc s vs with Some VUnit => Ok (SUnitVariant n s) | _ => Err Invalid end
  | _ => Err Invalid
  end.

(** serde_derive [visit_map] of a struct, over the members of an object: known keys decoded, repeated ones refused,
    unknown ones skipped. For [from_json_str] at src/json.rs:32 and [from_json_slice] at src/rfc7807.rs:50. *)
Fixpoint obj_loop (decs : list (ustr * (json -> res value))) (got : list (ustr * value)) (l : list (ustr * json)) : res (list (ustr * value)) :=
  match l with
  | [] => Ok got
  | (k, j) :: r =>
      match assoc k decs with
      | None => obj_loop decs got r
      | Some d =>
          match assoc k got with
          | Some _ => Err Invalid
          | None => v <- d j ;; obj_loop decs (got ++ [(k, v)]) r
          end
      end
  end.
(** Sequences of known length: serde_derive [visit_seq] and serde_json's [end_seq] (no surplus element).
    For [from_json_str] at src/json.rs:32 and [from_json_slice] at src/rfc7807.rs:50. *)
Fixpoint arr_exact (decs : list (json -> res value)) (l : list json) : res (list value) :=
  match decs, l with
  | [], [] => Ok []
  | d :: ds, j :: r => v <- d j ;; vs <- arr_exact ds r ;; Ok (v :: vs)
  | _, _ => Err Invalid
  end.
(** serde's [Vec<T>] visitor. For [from_json_str] at src/json.rs:32 and [from_json_slice] at src/rfc7807.rs:50. *)
Fixpoint arr_all (d : json -> res value) (l : list json) : res (list value) :=
  match l with
  | [] => Ok []
  | j :: r => v <- d j ;; vs <- arr_all d r ;; Ok (v :: vs)
  end.
(** serde's map visitor. For [from_json_str] at src/json.rs:32 and [from_json_slice] at src/rfc7807.rs:50. *)
Fixpoint obj_all (dk : ustr -> res value) (dv : json -> res value) (m : list (value * value)) (l : list (ustr * json)) : res (list (value * value)) :=
  match l with
  | [] => Ok m
  | (k, j) :: r => k <- dk k ;; v <- dv j ;; obj_all dk dv (map_insert k v m) r
  end.
(** For [from_json_str] at src/json.rs:32 and [from_json_slice] at src/rfc7807.rs:50. *)
Definition byte_of (j : json) : res N :=
  match j with JInt z => if in_range U8 z then Ok (Z.to_N z) else Err Invalid | _ => Err Invalid end.
(** For [from_json_str] at src/json.rs:32 and [from_json_slice] at src/rfc7807.rs:50. *)
Fixpoint all_bytes (l : list json) : res bytes :=
  match l with
  | [] => Ok []
  | j :: r => b <- byte_of j ;; bs <- all_bytes r ;; Ok (b :: bs)
  end.

(** serde_json [deserialize_struct]: from an object by name, from an array by position.
    For [from_json_str] at src/json.rs:32 and [from_json_slice] at src/rfc7807.rs:50. *)
Definition json_struct (decs : list (ustr * (json -> res value))) (fs : list (ustr * ty)) (j : json) : res (list (ustr * value)) :=
  match j with
  | JObj l => got <- obj_loop decs [] l ;; struct_fields fs got
  | JArr l => vs <- arr_exact (map snd decs) l ;; Ok (combine (map fst decs) vs)
  | _ => Err Invalid
  end.

Section FromJson.
Context `{floatlib} `{jsonfloat}.

(** serde_json's Deserializer, by the call a type makes. For [from_json_str] at src/json.rs:32 and [from_json_slice] at src/rfc7807.rs:50. *)
Fixpoint from_json (t : ty) (j : json) {struct t} : res value :=
  match t with
  | TBool => match j with JBool b => Ok (SBool b) | _ => Err Invalid end
  | TInt k => match j with JInt z => if in_range k z then Ok (SInt k z) else Err Invalid | _ => Err Invalid end
  | TF64 => match j with
            | JFloat x => match jparse64 x with Some f => Ok (SF64 f) | None => Err Invalid end
            | JInt z => Ok (SF64 (f64_of_int z)) | _ => Err Invalid end
  | TF32 => match j with
            | JFloat x => match jparse32 x with Some f => Ok (SF32 f) | None => Err Invalid end
            | JInt z => Ok (SF32 (f32_of_int z)) | _ => Err Invalid end
  | TChar => match j with JStr [c] => Ok (SChar c) | _ => Err Invalid end
  | TStr => match j with JStr s => Ok (SStr s) | _ => Err Invalid end
  | TBytes => match j with
              | JStr s => Ok (SBytes (utf8_encode s))
              | JArr l => b <- all_bytes l ;; Ok (SBytes b)
              | _ => Err Invalid end
  | TOption t => match j with JNull => Ok SNone | _ => res_map SSome (from_json t j) end
  | TUnit => match j with JNull => Ok SUnit | _ => Err Invalid end
  | TUnitStruct n => match j with JNull => Ok (SUnitStruct n) | _ => Err Invalid end
  | TNewtype n t => res_map (SNewtypeStruct n) (from_json t j)
  | TSeq t => match j with JArr l => vs <- arr_all (from_json t) l ;; Ok (SSeq vs) | _ => Err Invalid end
  | TTuple ts => match j with JArr l => vs <- arr_exact (map from_json ts) l ;; Ok (STuple vs) | _ => Err Invalid end
  | TTupleStruct n ts => match j with JArr l => vs <- arr_exact (map from_json ts) l ;; Ok (STupleStruct n vs) | _ => Err Invalid end
  | TMap k v => match j with JObj l => m <- obj_all (from_key k) (from_json v) [] l ;; Ok (SMap m) | _ => Err Invalid end
  | TStruct n fs => vs <- json_struct (map (fun f => (fst f, from_json (snd f))) fs) fs j ;; Ok (SStruct n vs)
  | TEnum n vs =>
      match j with
      | JStr x => match assoc x vs with Some VUnit => Ok (SUnitVariant n x) | _ => Err Invalid end
      | JObj [(x, j)] => match assoc x (map (fun f => (fst f, from_variant (snd f))) vs) with Some d => d n x j | None => Err Invalid end
      | _ => Err Invalid
      end
  | TAny => Err Invalid
  end
(** serde_json [VariantAccess]. For [from_json_str] at src/json.rs:32 and [from_json_slice] at src/rfc7807.rs:50. *)
with from_variant (t : vty) (n x : ustr) (j : json) {struct t} : res value :=
  match t with
  | VUnit => match j with JNull => Ok (SUnitVariant n x) | _ => Err Invalid end
  | VNewtype t => res_map (SNewtypeVariant n x) (from_json t j)
  | VTuple ts => match j with JArr l => vs <- arr_exact (map from_json ts) l ;; Ok (STupleVariant n x vs) | _ => Err Invalid end
  | VStruct fs => vs <- json_struct (map (fun f => (fst f, from_json (snd f))) fs) fs j ;; Ok (SStructVariant n x vs)
  end.

(** [serdeconv::from_json_str] and [serdeconv::from_json_slice]. src/json.rs:32. *)
Definition from_json_str (t : ty) (s : ustr) : res value := j <- parse_json s ;; from_json t j.
(** src/rfc7807.rs:50. *)
Definition from_json_slice (t : ty) (b : bytes) : res value :=
  match utf8_decode b with Some s => from_json_str t s | None => Err Invalid end.
End FromJson.
