(** * What a request or a response means as a value of a type, independently of deserializers, phases and visitors. *)
From Verif Require Import Base Utf8 Decimal DepUrl Serde Procedure ScalarSpec PathSpec FieldSpec JsonTypeSpec.
Open Scope N_scope.

Section DecodeSpec.
Context `{floatlib}.

(** ** The path *)
(** A tuple means the segments at its first variables; a vector all of them, the whole entry point agreeing; a lone
    scalar the first one. *)
Inductive path_means (ep : entry_point) (segs : list ustr) : ty -> value -> Prop :=
| PmOne t e v : var_texts ep segs 1 = Some [e] -> reads t e v -> path_means ep segs t v
| PmNewtype n t v : path_means ep segs t v -> path_means ep segs (TNewtype n t) (SNewtypeStruct n v)
| PmTuple ts es vs : var_texts ep segs (length ts) = Some es -> Forall2 (fun te v => reads (fst te) (snd te) v) (combine ts es) vs ->
    path_means ep segs (TTuple ts) (STuple vs)
| PmTupleStruct n ts es vs : var_texts ep segs (length ts) = Some es -> Forall2 (fun te v => reads (fst te) (snd te) v) (combine ts es) vs ->
    path_means ep segs (TTupleStruct n ts) (STupleStruct n vs)
| PmSeq t es vs : whole_texts ep segs = Some es -> Forall2 (reads t) es vs -> path_means ep segs (TSeq t) (SSeq vs).

(** ** Pairs: the query, and the headers *)
(** A struct means the pairs that fill it; a map all of them, the last of a repeated key winning; a lone scalar the very
    first key. *)
Inductive pairs_mean {X} (read : ty -> X -> res value) (fill : list (ustr * ty) -> list (ustr * value) -> Prop) (l : list (X * X)) : ty -> value -> Prop :=
| PaFirst t k x r v : l = (k, x) :: r -> read t k = Ok v -> pairs_mean read fill l t v
| PaOption t v : pairs_mean read fill l t v -> pairs_mean read fill l (TOption t) (SSome v)
| PaNewtype n t v : pairs_mean read fill l t v -> pairs_mean read fill l (TNewtype n t) (SNewtypeStruct n v)
| PaMap tk tv kvs : Forall2 (fun p kv => read tk (fst p) = Ok (fst kv) /\ read tv (snd p) = Ok (snd kv)) l kvs ->
    pairs_mean read fill l (TMap tk tv) (SMap (fold_left (fun m kv => put m (fst kv) (snd kv)) kvs []))
| PaStruct n fs vs : fill fs vs -> pairs_mean read fill l (TStruct n fs) (SStruct n vs).
Definition query_means (l : list (ustr * ustr)) : ty -> value -> Prop :=
  pairs_mean query_read (fun fs => filled query_read fs (walk (map fst fs) (flat l))) l.
Definition header_means (hs : list (ustr * bytes)) : ty -> value -> Prop :=
  pairs_mean header_read (fun fs => filled header_read fs (relevant (map fst fs) hs)) (map (fun h => (utf8_encode (lowercase (fst h)), snd h)) hs).

(** ** Messages made of named parts *)
(** The name of a part, as the key of a map. *)
Inductive name_means : ty -> ustr -> value -> Prop :=
| NmStr k : name_means TStr k (SStr k)
| NmBytes k : name_means TBytes k (SBytes (utf8_encode k))
| NmEnum n vs k : assoc k vs = Some VUnit -> name_means (TEnum n vs) k (SUnitVariant n k).
(** Fields named after a part mean that part, the others are absent options. *)
Definition field_means (part : ustr -> option (ty -> value -> Prop)) (f : ustr * ty) (v : ustr * value) : Prop :=
  fst v = fst f /\
  match part (fst f) with
  | Some means => means (snd f) (snd v)
  | None => (exists t, snd f = TOption t) /\ snd v = SNone
  end.

Section Request.
Variables (ep : entry_point) (x : url) (hs : list (ustr * bytes)).
Definition request_part (k : ustr) : option (ty -> value -> Prop) :=
  if ustr_eqb k (u "path") then Some (fun t v => exists segs, u_path x = Some segs /\ path_means ep segs t v)
  else if ustr_eqb k (u "query") then Some (query_means (query_pairs x))
  else if ustr_eqb k (u "header") then Some (header_means hs)
  else None.
(** A path is needed, and at least one header if the type does not name the headers. *)
Inductive request_means : ty -> value -> Prop :=
| RqStruct n fs vs : u_path x <> None -> (~ In (u "header") (map fst fs) -> hs <> []) ->
    Forall2 (field_means request_part) fs vs -> request_means (TStruct n fs) (SStruct n vs)
| RqNewtype n t v : request_means t v -> request_means (TNewtype n t) (SNewtypeStruct n v)
| RqMap tk tv kvs : Forall2 (fun k kv => name_means tk k (fst kv) /\ match request_part k with Some means => means tv (snd kv) | None => False end)
      [u "path"; u "query"; u "header"] kvs -> request_means (TMap tk tv) (SMap kvs).
End Request.

Section Response.
Variables (code : N) (hs : list (ustr * bytes)).
(** A status code as a number. *)
Inductive code_means : ty -> value -> Prop :=
| CmInt k : (fst (int_bounds k) <= Z.of_N code <= snd (int_bounds k))%Z -> code_means (TInt k) (SInt k (Z.of_N code))
| CmF32 : code_means TF32 (SF32 (f32_of_int (Z.of_N code)))
| CmF64 : code_means TF64 (SF64 (f64_of_int (Z.of_N code))).
(** Inside a variant, whose name is the status, there is only the header. *)
Definition response_part (inside : bool) (k : ustr) : option (ty -> value -> Prop) :=
  if negb inside && ustr_eqb k (u "status") then Some code_means
  else if ustr_eqb k (u "header") then Some (header_means hs)
  else None.
(** [named c x]: [x] is the name of the status [c]. *)
Variable named : N -> ustr -> Prop.
Inductive response_means : bool -> ty -> value -> Prop :=
| RsStruct i n fs vs : (~ In (u "header") (map fst fs) -> hs <> []) -> Forall2 (field_means (response_part i)) fs vs -> response_means i (TStruct n fs) (SStruct n vs)
| RsNewtype i n t v : response_means i t v -> response_means i (TNewtype n t) (SNewtypeStruct n v)
| RsMap i tk tv kvs : Forall2 (fun k kv => name_means tk k (fst kv) /\ match response_part i k with Some means => means tv (snd kv) | None => False end)
      (if i then [u "header"] else [u "status"; u "header"]) kvs -> response_means i (TMap tk tv) (SMap kvs)
| RsUnit i n vs x : named code x -> assoc x vs = Some VUnit -> response_means i (TEnum n vs) (SUnitVariant n x)
| RsInner i n vs x t v : named code x -> assoc x vs = Some (VNewtype t) -> response_means true t v -> response_means i (TEnum n vs) (SNewtypeVariant n x v)
| RsVariant i n vs x fs ws : named code x -> assoc x vs = Some (VStruct fs) ->
    (~ In (u "header") (map fst fs) -> hs <> []) -> Forall2 (field_means (response_part true)) fs ws -> response_means i (TEnum n vs) (SStructVariant n x ws).
End Response.
End DecodeSpec.
