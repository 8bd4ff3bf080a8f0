(** * The serde data model: values, types, and the visitors that [#\[derive(Deserialize)\]] generates.

    Dependency: serde 1 and serde_derive 1 (Cargo.toml:17-18).  A [value] is the sequence of
    [Serializer] calls a user's [Serialize] impl makes; a [ty] is the sequence of [Deserializer] calls its
    [Deserialize] impl makes together with the visitor behaviour.  Simplification: only std types and derived
    impls without serde attributes other than [rename] and [skip] (a skipped field does not appear);
    128-bit integers are left out. *)
From Verif Require Import Base Utf8 Decimal.
Open Scope N_scope.

(** ** Floating point numbers: Rust's [f32]/[f64] printing and parsing, left open.
    Theorems hold for every instance.  [f64] and [f32] values are opaque numbers (bit patterns).
    Used at src/serializers/url_path.rs:99-104, src/deserializers/url_path.rs:159-176 and likewise elsewhere. *)
Class floatlib := {
  fshow : N -> ustr;             (** [f64::to_string] *)
  fparse64 : ustr -> option N;   (** [str::parse::<f64>] *)
  fparse32 : ustr -> option N;   (** [str::parse::<f32>] *)
  fwiden : N -> N;               (** [f32 as f64] *)
  f64_of_int : Z -> N;           (** [u16 as f64], for a float status *)
  f32_of_int : Z -> N;
  fjson64 : N -> ustr;           (** serde_json's text of an [f64] ("null" when not finite) *)
  fjson32 : N -> ustr;
  fshow_ascii : forall x, all_ascii (fshow x) = true  (** digits, '.', '-', "inf", "NaN" *)
}.

(** Values, seen as the call each makes on a [Serializer]. The methods of src/serializers/url_path.rs:58-208, which all five serializers have. *)
Inductive value :=
| SBool (b : bool)
| SInt (k : ikind) (z : Z)
| SF32 (x : N)
| SF64 (x : N)
| SChar (c : N)
| SStr (s : ustr)
| SBytes (b : bytes)
| SNone
| SSome (v : value)
| SUnit
| SUnitStruct (name : ustr)
| SUnitVariant (enum variant : ustr)
| SNewtypeStruct (name : ustr) (v : value)
| SNewtypeVariant (enum variant : ustr) (v : value)
| SSeq (vs : list value)
| STuple (vs : list value)
| STupleStruct (name : ustr) (vs : list value)
| STupleVariant (enum variant : ustr) (vs : list value)
| SMap (kvs : list (value * value))
| SStruct (name : ustr) (fs : list (ustr * value))
| SStructVariant (enum variant : ustr) (fs : list (ustr * value)).

(** Types, seen as the call each makes on a [Deserializer]. [TAny]: types calling [deserialize_any].
    The methods of src/deserializers/url_path.rs:69-315, which all five deserializers have. *)
Inductive ty :=
| TBool
| TInt (k : ikind)
| TF32
| TF64
| TChar
| TStr
| TBytes
| TOption (t : ty)
| TUnit
| TUnitStruct (name : ustr)
| TNewtype (name : ustr) (t : ty)
| TSeq (t : ty)
| TTuple (ts : list ty)
| TTupleStruct (name : ustr) (ts : list ty)
| TMap (k v : ty)
| TStruct (name : ustr) (fs : list (ustr * ty))
| TEnum (name : ustr) (vs : list (ustr * vty))
| TAny
(** The shapes of a variant, src/deserializers/rpc_response.rs:287-311. *)
with vty :=
| VUnit
| VNewtype (t : ty)
| VTuple (ts : list ty)
| VStruct (fs : list (ustr * ty)).

(** Association lists. A field or variant looked up by its name (serde_derive), for types as at src/rfc7807.rs:19-24. *)
Fixpoint assoc {A} (k : ustr) (l : list (ustr * A)) : option A :=
  match l with
  | [] => None
  | (k', a) :: r => if ustr_eqb k k' then Some a else assoc k r
  end.

(** Two lists compared element by element; for [has_ty]. *)
Fixpoint all2b {A B} (f : A -> B -> bool) (a : list A) (b : list B) : bool :=
  match a, b with
  | [], [] => true
  | x :: a', y :: b' => f x y && all2b f a' b'
  | _, _ => false
  end.

(** Fields that may be missing (serde_derive): [Option]s, as at src/rfc7807.rs:20. *)
Definition is_option (t : ty) : bool := match t with TOption _ => true | _ => false end.

(** Equality of values. Equality of values; for keys of maps, src/deserializers/url_query.rs:258-266. *)
Fixpoint value_eqb (a b : value) {struct a} : bool :=
  match a, b with
  | SBool x, SBool y => Bool.eqb x y
  | SInt k x, SInt k' y => ikind_eqb k k' && (x =? y)%Z
  | SF32 x, SF32 y | SF64 x, SF64 y | SChar x, SChar y => x =? y
  | SStr x, SStr y | SBytes x, SBytes y | SUnitStruct x, SUnitStruct y => ustr_eqb x y
  | SNone, SNone | SUnit, SUnit => true
  | SSome x, SSome y => value_eqb x y
  | SUnitVariant e x, SUnitVariant e' y => ustr_eqb e e' && ustr_eqb x y
  | SNewtypeStruct n x, SNewtypeStruct n' y => ustr_eqb n n' && value_eqb x y
  | SNewtypeVariant e n x, SNewtypeVariant e' n' y => ustr_eqb e e' && ustr_eqb n n' && value_eqb x y
  | SSeq x, SSeq y | STuple x, STuple y =>
      (fix go (x y : list value) := match x, y with
        | [], [] => true | p :: x, q :: y => value_eqb p q && go x y | _, _ => false end) x y
  | STupleStruct n x, STupleStruct n' y =>
      ustr_eqb n n' &&
      (fix go (x y : list value) := match x, y with
        | [], [] => true | p :: x, q :: y => value_eqb p q && go x y | _, _ => false end) x y
  | STupleVariant e n x, STupleVariant e' n' y =>
      ustr_eqb e e' && ustr_eqb n n' &&
      (fix go (x y : list value) := match x, y with
        | [], [] => true | p :: x, q :: y => value_eqb p q && go x y | _, _ => false end) x y
  | SMap x, SMap y =>
      (fix go (x y : list (value * value)) := match x, y with
        | [], [] => true
        | (k, p) :: x, (k', q) :: y => value_eqb k k' && value_eqb p q && go x y
        | _, _ => false end) x y
  | SStruct n x, SStruct n' y =>
      ustr_eqb n n' &&
      (fix go (x y : list (ustr * value)) := match x, y with
        | [], [] => true
        | (k, p) :: x, (k', q) :: y => ustr_eqb k k' && value_eqb p q && go x y
        | _, _ => false end) x y
  | SStructVariant e n x, SStructVariant e' n' y =>
      ustr_eqb e e' && ustr_eqb n n' &&
      (fix go (x y : list (ustr * value)) := match x, y with
        | [], [] => true
        | (k, p) :: x, (k', q) :: y => ustr_eqb k k' && value_eqb p q && go x y
        | _, _ => false end) x y
  | _, _ => false
  end.

(** [has_ty t v]: [v] is what serializing a Rust value of the type [t] produces.
    What a map type guarantees of its keys, src/deserializers/url_query.rs:258-266. *)
Fixpoint nodup_vals (l : list value) : bool :=
  match l with
  | [] => true
  | x :: r => negb (existsb (value_eqb x) r) && nodup_vals r
  end.

(** What a struct type guarantees of its fields, as at src/rfc7807.rs:19-24. *)
Fixpoint nodup_names (l : list ustr) : bool :=
  match l with
  | [] => true
  | x :: r => negb (smem x r) && nodup_names r
  end.

(** Which values a type has; Rust's typing of what src/procedure.rs:41,52 ask to be [Serialize] and [Deserialize]. *)
Fixpoint has_ty `{floatlib} (t : ty) (v : value) {struct t} : bool :=
  match t, v with
  | TBool, SBool _ => true
  | TInt k, SInt k' z => ikind_eqb k k' && in_range k z
  | TF32, SF32 _ | TF64, SF64 _ => true
  | TChar, SChar c => is_scalar c
  | TStr, SStr s => str_ok s
  | TBytes, SBytes b => bytes_ok b
  | TOption _, SNone => true
  | TOption t, SSome v => has_ty t v
  | TUnit, SUnit => true
  | TUnitStruct n, SUnitStruct n' => ustr_eqb n n'
  | TNewtype n t, SNewtypeStruct n' v => ustr_eqb n n' && has_ty t v
  | TSeq t, SSeq vs => forallb (has_ty t) vs
  | TTuple ts, STuple vs => all2b (fun f v => f v) (map has_ty ts) vs
  | TTupleStruct n ts, STupleStruct n' vs => ustr_eqb n n' && all2b (fun f v => f v) (map has_ty ts) vs
  | TMap k t, SMap kvs =>
      forallb (fun kv => has_ty k (fst kv) && has_ty t (snd kv)) kvs && nodup_vals (map fst kvs)
  | TStruct n fs, SStruct n' vs =>
      ustr_eqb n n' && all2b (fun f v => ustr_eqb (fst f) (fst v) && snd f (snd v))
                          (map (fun f => (fst f, has_ty (snd f))) fs) vs
      && nodup_names (map fst fs)
  | TEnum n vs, SUnitVariant n' x =>
      ustr_eqb n n' && match assoc x (map (fun f => (fst f, vhas_ty (snd f))) vs) with
                       | Some f => f (SUnitVariant n' x) | None => false end
  | TEnum n vs, SNewtypeVariant n' x v =>
      ustr_eqb n n' && match assoc x (map (fun f => (fst f, vhas_ty (snd f))) vs) with
                       | Some f => f (SNewtypeVariant n' x v) | None => false end
  | TEnum n vs, STupleVariant n' x v =>
      ustr_eqb n n' && match assoc x (map (fun f => (fst f, vhas_ty (snd f))) vs) with
                       | Some f => f (STupleVariant n' x v) | None => false end
  | TEnum n vs, SStructVariant n' x v =>
      ustr_eqb n n' && match assoc x (map (fun f => (fst f, vhas_ty (snd f))) vs) with
                       | Some f => f (SStructVariant n' x v) | None => false end
  | _, _ => false
  end
(** Which contents a variant has; Rust's typing. *)
with vhas_ty `{floatlib} (t : vty) (v : value) {struct t} : bool :=
  match t, v with
  | VUnit, SUnitVariant _ _ => true
  | VNewtype t, SNewtypeVariant _ _ v => has_ty t v
  | VTuple ts, STupleVariant _ _ vs => all2b (fun f v => f v) (map has_ty ts) vs
  | VStruct fs, SStructVariant _ _ vs =>
      all2b (fun f v => ustr_eqb (fst f) (fst v) && snd f (snd v))
        (map (fun f => (fst f, has_ty (snd f))) fs) vs
      && nodup_names (map fst fs)
  | _, _ => false
  end.

(** ** Derived visitors, generic in the deserializer's state. *)
Section Visitors.
  Context {St : Type}.

  (** serde_derive [visit_seq] of a tuple, tuple struct or tuple variant: exactly one [next_element] per
      component, [invalid_length] (Invalid) when one is missing, no check for surplus elements.
      Driven by [next_element_seed], src/deserializers/url_path.rs:315-329. *)
  Fixpoint visit_tuple (next : (St -> res (value * St)) -> St -> res (option value * St))
      (decs : list (St -> res (value * St))) (s : St) : res (list value * St) :=
    match decs with
    | [] => Ok ([], s)
    | d :: ds =>
        '(o, s) <- next d s ;;
        match o with
        | None => Err Invalid
        | Some v => '(vs, s) <- visit_tuple next ds s ;; Ok (v :: vs, s)
        end
    end.

  (** serde's [Vec<T>] visitor: [next_element] until [None]. Driven by [next_element_seed], src/deserializers/url_path.rs:315-329. *)
  Fixpoint visit_seq (fuel : nat) (next : (St -> res (value * St)) -> St -> res (option value * St))
      (d : St -> res (value * St)) (s : St) : res (list value * St) :=
    match fuel with
    | O => Diverge
    | S f =>
        '(o, s) <- next d s ;;
        match o with
        | None => Ok ([], s)
        | Some v => '(vs, s) <- visit_seq f next d s ;; Ok (v :: vs, s)
        end
    end.

  (** serde_derive [visit_map] of a struct, the key loop: a known key is decoded, a repeated one is an error
      (Invalid), an unknown one is skipped with [IgnoredAny].
      Driven by [next_key_seed] and [next_value_seed], src/deserializers/url_query.rs:305-325 and likewise elsewhere. *)
  Fixpoint struct_loop (fuel : nat)
      (next_key : St -> res (option ustr * St)) (skip : ustr -> St -> res St)
      (decs : list (ustr * (St -> res (value * St)))) (got : list (ustr * value)) (s : St)
      : res (list (ustr * value) * St) :=
    match fuel with
    | O => Diverge
    | S f =>
        '(o, s) <- next_key s ;;
        match o with
        | None => Ok (got, s)
        | Some k =>
            match assoc k decs with
            | None => s <- skip k s ;; struct_loop f next_key skip decs got s
            | Some d =>
                match assoc k got with
                | Some _ => Err Invalid
                | None => '(v, s) <- d s ;; struct_loop f next_key skip decs (got ++ [(k, v)]) s
                end
            end
        end
    end.

  (** serde_derive [visit_map] of a struct, after the loop: an absent field is [None] when its type is an
      [Option], else [missing_field] (Invalid). After src/deserializers/url_query.rs:305-325 says there are no more keys. *)
  Fixpoint struct_fields (fs : list (ustr * ty)) (got : list (ustr * value)) : res (list (ustr * value)) :=
    match fs with
    | [] => Ok []
    | (n, t) :: r =>
        v <- match assoc n got with
             | Some v => Ok v
             | None => if is_option t then Ok SNone else Err Invalid
             end ;;
        vs <- struct_fields r got ;; Ok ((n, v) :: vs)
    end.

  (** Both together, as called by src/deserializers/url_query.rs:267-278. *)
  Definition visit_struct (fuel : nat)
      (next_key : St -> res (option ustr * St)) (skip : ustr -> St -> res St)
      (decs : list (ustr * (St -> res (value * St)))) (fs : list (ustr * ty)) (s : St)
      : res (list (ustr * value) * St) :=
    '(got, s) <- struct_loop fuel next_key skip decs [] s ;;
    vs <- struct_fields fs got ;; Ok (vs, s).

  (** Inserting into a map: a repeated key keeps its place and takes the new value.
      [HashMap::insert] (std) in serde's visitor for maps, src/deserializers/url_query.rs:258-266. *)
  Fixpoint map_insert (k v : value) (m : list (value * value)) : list (value * value) :=
    match m with
    | [] => [(k, v)]
    | (k', v') :: r => if value_eqb k k' then (k', v) :: r else (k', v') :: map_insert k v r
    end.

  (** serde's map visitor: [next_entry] until [None]. Driven by src/deserializers/url_query.rs:305-325. *)
  Fixpoint visit_map (fuel : nat)
      (next_key : (St -> res (value * St)) -> St -> res (option value * St))
      (dk dv : St -> res (value * St)) (m : list (value * value)) (s : St)
      : res (list (value * value) * St) :=
    match fuel with
    | O => Diverge
    | S f =>
        '(o, s) <- next_key dk s ;;
        match o with
        | None => Ok (m, s)
        | Some k => '(v, s) <- dv s ;; visit_map f next_key dk dv (map_insert k v m) s
        end
    end.
End Visitors.
