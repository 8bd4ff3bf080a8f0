(** * What a path is supposed to be, independently of the (de)serializer state machines. *)
From Verif Require Import Base Decimal DepUrl Serde Procedure ScalarSpec.
Open Scope N_scope.

Section PathSpec.
Context `{urlenv} `{floatlib}.

Fixpoint all_some {A} (l : list (option A)) : option (list A) :=
  match l with
  | [] => Some []
  | Some a :: r => option_map (cons a) (all_some r)
  | None :: _ => None
  end.

(** The texts a value offers for the variables of an entry point; [None]: not usable as a path. *)
Fixpoint path_args (v : value) : option (list ustr) :=
  match v with
  | SUnit | SUnitStruct _ => Some []
  | STuple vs | STupleStruct _ vs | STupleVariant _ _ vs => all_some (map scalar_text vs)
  | SNewtypeStruct _ v | SNewtypeVariant _ _ v => path_args v
  | _ => None
  end.

(** Path types the server can decode, and the components of their values: tuples and tuple structs, possibly inside
    newtypes. *)
Inductive path_shape : ty -> value -> list ty -> list value -> Prop :=
| ShTuple ts vs : path_shape (TTuple ts) (STuple vs) ts vs
| ShTupleStruct n ts vs : path_shape (TTupleStruct n ts) (STupleStruct n vs) ts vs
| ShNewtype n t v ts vs : path_shape t v ts vs -> path_shape (TNewtype n t) (SNewtypeStruct n v) ts vs.

(** The entry point with its variables replaced, in order. *)
Fixpoint fill (ep : entry_point) (ts : list ustr) : list ustr :=
  match ep, ts with
  | [], _ => []
  | Val c :: r, _ => c :: fill r ts
  | Var :: r, t :: ts => t :: fill r ts
  | Var :: _, [] => []
  end.

(** Walking an entry point along a URL path: the segments at the first [n] variables, provided the constants
    before them agree. *)
Fixpoint var_texts (ep : entry_point) (segs : list ustr) (n : nat) : option (list ustr) :=
  match n, ep, segs with
  | O, _, _ => Some []
  | S _, Val c :: r, s :: ss => if ustr_eqb s c then var_texts r ss n else None
  | S m, Var :: r, s :: ss => option_map (cons s) (var_texts r ss m)
  | S _, _, _ => None
  end.

(** The same along the whole entry point: every constant must agree; URL segments beyond it do not matter. *)
Fixpoint whole_texts (ep : entry_point) (segs : list ustr) : option (list ustr) :=
  match ep, segs with
  | [], _ => Some []
  | Val c :: r, s :: ss => if ustr_eqb s c then whole_texts r ss else None
  | Var :: r, s :: ss => option_map (cons s) (whole_texts r ss)
  | _, [] => None
  end.

(** Percent decoding as the server does it: every "%hh" becomes the one character with that code.
    The code is read with [u32::from_str_radix], so "%+h" is an escape too. *)
Definition hex_digit (c d : N) : Prop :=
  (48 <= c <= 57 /\ d = c - 48) \/ (65 <= c <= 70 /\ d = c - 55) \/ (97 <= c <= 102 /\ d = c - 87).
Inductive unescapes : ustr -> ustr -> Prop :=
| UnNil : unescapes [] []
| UnPlain c s t : c <> 37 -> unescapes s t -> unescapes (c :: s) (c :: t)
| UnHex h l a b s t : hex_digit h a -> hex_digit l b -> unescapes s t ->
    unescapes (37 :: h :: l :: s) (a * 16 + b :: t)
| UnPlus l b s t : hex_digit l b -> unescapes s t -> unescapes (37 :: 43 :: l :: s) (b :: t).

(** What a path variable's segment [e] is read as, for a type [t]. *)
Definition reads (t : ty) (e : ustr) (v : value) : Prop :=
  exists s, unescapes e s /\ read_scalar t s = Some v.

(** Strings that can be path variables: ASCII without TAB, LF, CR, not "." or "..", and, for url releases that trim
    segments, not beginning or ending with a control character or a space. *)
Definition path_safe (s : ustr) : Prop :=
  (forall c, In c s -> c < 128 /\ c <> 9 /\ c <> 10 /\ c <> 13) /\
  s <> [46] /\ s <> [46; 46] /\
  (trim_segment = true -> forall a c b, s = a ++ c :: b -> (a = [] \/ b = []) -> 32 < c).

(** Characters of which URL paths keep the literal form. *)
Definition plain_char (c : N) : Prop :=
  32 < c < 127 /\ ~ In c [34; 35; 37; 47; 60; 62; 63; 92; 96; 123; 125] /\ (enc_caret = true -> c <> 94).

(** Constants of an entry point that URLs keep literally. *)
Definition plain_const (s : ustr) : Prop :=
  s <> [] /\ (forall c, In c s -> plain_char c) /\ s <> [46] /\ s <> [46; 46].
Definition plain_entry (ep : entry_point) : Prop := forall c, In (Val c) ep -> plain_const c.
End PathSpec.
