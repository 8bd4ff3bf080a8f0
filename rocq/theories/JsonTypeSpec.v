(** * What a JSON tree means as a value of a type, independently of visitors and loops. *)
From Verif Require Import Base Utf8 Decimal Serde Json JsonText ScalarSpec.
Open Scope N_scope.

(** A member that is not repeated. *)
Definition at_most_once (l : list (ustr * json)) (k : ustr) : Prop := (length (filter (fun m => ustr_eqb (fst m) k) l) <= 1)%nat.

Section Meaning.
Context `{floatlib} `{jsonfloat}.

(** Keys of maps: strings; numbers, single characters and variant names written as strings. *)
Inductive key_means : ty -> ustr -> value -> Prop :=
| km_str s : key_means TStr s (SStr s)
| km_char c : key_means TChar [c] (SChar c)
| km_int k s z : int_text k s z -> key_means (TInt k) s (SInt k z)
| km_bytes s : key_means TBytes s (SBytes (utf8_encode s))
| km_option t s v : key_means t s v -> key_means (TOption t) s (SSome v)
| km_newtype n t s v : key_means t s v -> key_means (TNewtype n t) s (SNewtypeStruct n v)
| km_unit n vs x : assoc x vs = Some VUnit -> key_means (TEnum n vs) x (SUnitVariant n x).

(** Equality of values can be decided; however this is done, it is equality. *)
Definition same_value : forall a b : value, {a = b} + {a <> b}.
Proof.
  assert (dk : forall a b : ikind, {a = b} + {a <> b}) by decide equality.
  assert (du : forall a b : ustr, {a = b} + {a <> b}) by exact (list_eq_dec N.eq_dec).
  fix dv 1. intros a b. decide equality; try apply N.eq_dec; try apply Z.eq_dec; try apply Bool.bool_dec; try apply dk; try apply du; try exact (list_eq_dec dv _ _);
    apply list_eq_dec; intros [k x] [k' y]; (destruct (dv x y) as [->|]; [|right; congruence]); first [destruct (du k k') as [->|] | destruct (dv k k') as [->|]]; (left; reflexivity) || (right; congruence).
Defined.
(** Of the entries with the same key the last one counts; it takes the place of the first. *)
Fixpoint put (m : list (value * value)) (k v : value) : list (value * value) :=
  match m with
  | [] => [(k, v)]
  | (k', v') :: r => if same_value k k' then (k', v) :: r else (k', v') :: put r k v
  end.

Inductive means : ty -> json -> value -> Prop :=
| me_bool b : means TBool (JBool b) (SBool b)
| me_int k z : (fst (int_bounds k) <= z <= snd (int_bounds k))%Z -> means (TInt k) (JInt z) (SInt k z)
| me_f64 x f : jparse64 x = Some f -> means TF64 (JFloat x) (SF64 f)
| me_f64_int z : means TF64 (JInt z) (SF64 (f64_of_int z))
| me_f32 x f : jparse32 x = Some f -> means TF32 (JFloat x) (SF32 f)
| me_f32_int z : means TF32 (JInt z) (SF32 (f32_of_int z))
| me_char c : means TChar (JStr [c]) (SChar c)
| me_str s : means TStr (JStr s) (SStr s)
| me_bytes_str s : means TBytes (JStr s) (SBytes (utf8_encode s))
| me_bytes b : Forall (fun x => x < 256) b -> means TBytes (JArr (map (fun x => JInt (Z.of_N x)) b)) (SBytes b)
| me_none t : means (TOption t) JNull SNone
| me_some t j v : j <> JNull -> means t j v -> means (TOption t) j (SSome v)
| me_unit : means TUnit JNull SUnit
| me_unit_struct n : means (TUnitStruct n) JNull (SUnitStruct n)
| me_newtype n t j v : means t j v -> means (TNewtype n t) j (SNewtypeStruct n v)
| me_seq t l vs : Forall2 (means t) l vs -> means (TSeq t) (JArr l) (SSeq vs)
| me_tuple ts l vs : elements ts l vs -> means (TTuple ts) (JArr l) (STuple vs)
| me_tuple_struct n ts l vs : elements ts l vs -> means (TTupleStruct n ts) (JArr l) (STupleStruct n vs)
| me_map tk tv l kvs : Forall2 (fun m kv => key_means tk (fst m) (fst kv) /\ means tv (snd m) (snd kv)) l kvs ->
    means (TMap tk tv) (JObj l) (SMap (fold_left (fun m kv => put m (fst kv) (snd kv)) kvs []))
| me_struct n fs j vs : members fs j vs -> means (TStruct n fs) j (SStruct n vs)
| me_unit_variant n vs x : assoc x vs = Some VUnit -> means (TEnum n vs) (JStr x) (SUnitVariant n x)
| me_variant n vs x t j v : assoc x vs = Some t -> variant_means t n x j v -> means (TEnum n vs) (JObj [(x, j)]) v
(** By position. *)
with elements : list ty -> list json -> list value -> Prop :=
| el_nil : elements [] [] []
| el_cons t ts j l v vs : means t j v -> elements ts l vs -> elements (t :: ts) (j :: l) (v :: vs)
(** By name: every field once or, if optional, not at all, among other members; or by position. *)
with members : list (ustr * ty) -> json -> list (ustr * value) -> Prop :=
| mb_object fs l vs : fields fs l vs -> members fs (JObj l) vs
| mb_array fs l vs : elements (map snd fs) l vs -> members fs (JArr l) (combine (map fst fs) vs)
with fields : list (ustr * ty) -> list (ustr * json) -> list (ustr * value) -> Prop :=
| fd_nil l : fields [] l []
| fd_there n t fs l j v vs : at_most_once l n -> assoc n l = Some j -> means t j v -> fields fs l vs -> fields ((n, t) :: fs) l ((n, v) :: vs)
| fd_absent n t fs l vs : assoc n l = None -> fields fs l vs -> fields ((n, TOption t) :: fs) l ((n, SNone) :: vs)
with variant_means : vty -> ustr -> ustr -> json -> value -> Prop :=
| vm_unit n x : variant_means VUnit n x JNull (SUnitVariant n x)
| vm_newtype t n x j v : means t j v -> variant_means (VNewtype t) n x j (SNewtypeVariant n x v)
| vm_tuple ts n x l vs : elements ts l vs -> variant_means (VTuple ts) n x (JArr l) (STupleVariant n x vs)
| vm_struct fs n x j vs : members fs j vs -> variant_means (VStruct fs) n x j (SStructVariant n x vs).
End Meaning.

