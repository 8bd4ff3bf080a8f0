(** * The JSON grammar (RFC 8259): which texts stand for a JSON tree. *)
From Verif Require Import Base Decimal Serde Json JsonText.
Open Scope N_scope.

Definition ws (s : ustr) : Prop := forall c, In c s -> In c [32; 9; 10; 13].

(** Hexadecimal digits, either case, and four of them. *)
Definition hex_digit (c v : N) : Prop := 48 <= c <= 57 /\ v = c - 48 \/ 97 <= c <= 102 /\ v = c - 97 + 10 \/ 65 <= c <= 70 /\ v = c - 65 + 10.
Definition hex_code (h1 h2 h3 h4 n : N) : Prop :=
  exists a b c d, hex_digit h1 a /\ hex_digit h2 b /\ hex_digit h3 c /\ hex_digit h4 d /\ n = a * 4096 + b * 256 + c * 16 + d.

(** The characters of a string up to and with the closing quote. *)
Inductive jstring : ustr -> ustr -> Prop :=
| js_end : jstring [] [34]
| js_plain c s t : c <> 34 -> c <> 92 -> 32 <= c -> jstring s t -> jstring (c :: s) (c :: t)
| js_escape c e s t : In (e, c) [(34, 34); (92, 92); (47, 47); (98, 8); (102, 12); (110, 10); (114, 13); (116, 9)] ->
    jstring s t -> jstring (c :: s) (92 :: e :: t)
| js_hex c h1 h2 h3 h4 s t : hex_code h1 h2 h3 h4 c -> ~ (0xD800 <= c < 0xE000) -> jstring s t -> jstring (c :: s) (92 :: 117 :: h1 :: h2 :: h3 :: h4 :: t)
| js_pair n m h1 h2 h3 h4 g1 g2 g3 g4 s t : hex_code h1 h2 h3 h4 n -> hex_code g1 g2 g3 g4 m -> 0xD800 <= n < 0xDC00 -> 0xDC00 <= m < 0xE000 ->
    jstring s t -> jstring (0x10000 + (n - 0xD800) * 1024 + (m - 0xDC00) :: s) (92 :: 117 :: h1 :: h2 :: h3 :: h4 :: 92 :: 117 :: g1 :: g2 :: g3 :: g4 :: t).

(** Numbers: sign, integer part without leading zeros, fraction, exponent. *)
Definition digits1 (d : ustr) : Prop := d <> [] /\ forallb is_digit d = true.
Definition int_part (d : ustr) : Prop := digits1 d /\ (d = [48] \/ hd 0 d <> 48).
Definition fraction (f : ustr) : Prop := f = [] \/ exists d, f = 46 :: d /\ digits1 d.
Definition exponent (e : ustr) : Prop := e = [] \/ exists c sg d, e = c :: sg ++ d /\ In c [101; 69] /\ In sg [[]; [43]; [45]] /\ digits1 d.
Definition int64 (z : Z) : Prop := (- 9223372036854775808 <= z <= 18446744073709551615)%Z.
(** A number that is not an integer of 64 bits. *)
Definition float_text (t : ustr) : Prop := exists sign d f e, t = sign ++ d ++ f ++ e /\ In sign [[]; [45]] /\ int_part d /\ fraction f /\ exponent e /\
  (f = [] /\ e = [] -> forall z, t = show_int z -> ~ int64 z).

Section Grammar.
Context `{jsonfloat}.
Inductive jtext : json -> ustr -> Prop :=
| jt_null : jtext JNull (u "null")
| jt_true : jtext (JBool true) (u "true")
| jt_false : jtext (JBool false) (u "false")
| jt_int z : int64 z -> jtext (JInt z) (show_int z)
| jt_float t : float_text t -> jparse64 t <> None -> jtext (JFloat t) t
| jt_str s t : jstring s t -> jtext (JStr s) (34 :: t)
| jt_arr0 w : ws w -> jtext (JArr []) (91 :: w ++ [93])
| jt_arr l t : jitems l t -> jtext (JArr l) (91 :: t ++ [93])
| jt_obj0 w : ws w -> jtext (JObj []) (123 :: w ++ [125])
| jt_obj l t : jmembers l t -> jtext (JObj l) (123 :: t ++ [125])
with jitems : list json -> ustr -> Prop :=
| ji_one w j t w' : ws w -> jtext j t -> ws w' -> jitems [j] (w ++ t ++ w')
| ji_more w j t w' l r : ws w -> jtext j t -> ws w' -> jitems l r -> jitems (j :: l) (w ++ t ++ w' ++ [44] ++ r)
with jmembers : list (ustr * json) -> ustr -> Prop :=
| jm_one w k kt w1 w2 j t w' : ws w -> jstring k kt -> ws w1 -> ws w2 -> jtext j t -> ws w' ->
    jmembers [(k, j)] (w ++ 34 :: kt ++ w1 ++ 58 :: w2 ++ t ++ w')
| jm_more w k kt w1 w2 j t w' l r : ws w -> jstring k kt -> ws w1 -> ws w2 -> jtext j t -> ws w' -> jmembers l r ->
    jmembers ((k, j) :: l) (w ++ 34 :: kt ++ w1 ++ 58 :: w2 ++ t ++ w' ++ [44] ++ r).
End Grammar.

(** How deep arrays and objects are nested. *)
Fixpoint nesting (j : json) : nat :=
  match j with
  | JArr l => S (fold_right (fun j n => Nat.max (nesting j) n) 0%nat l)
  | JObj l => S (fold_right (fun kv n => Nat.max (nesting (snd kv)) n) 0%nat l)
  | _ => 0%nat
  end.

(** A whole text: white space around a text standing for the tree, which is nested less than 128 deep. *)
Definition json_document `{jsonfloat} (s : ustr) (j : json) : Prop :=
  exists w t w', s = w ++ t ++ w' /\ ws w /\ ws w' /\ jtext j t /\ (nesting j < 128)%nat.

(** Trees whose numbers a JSON text can carry. *)
Fixpoint numbers_ok `{jsonfloat} (j : json) : Prop :=
  match j with
  | JInt z => int64 z
  | JFloat t => float_text t /\ jparse64 t <> None
  | JArr l => fold_right (fun j P => numbers_ok j /\ P) True l
  | JObj l => fold_right (fun kv P => numbers_ok (snd kv) /\ P) True l
  | _ => True
  end.

(** Values JSON cannot tell from an absent option. *)
Fixpoint json_null (v : value) : bool :=
  match v with
  | SNone | SUnit | SUnitStruct _ => true
  | SSome v | SNewtypeStruct _ v => json_null v
  | _ => false
  end.
(** Values JSON keeps apart: floats whose text is a JSON number read back as the same float (so finite ones), and no
    option present around an absent one. *)
Fixpoint json_faithful `{floatlib} `{jsonfloat} (v : value) : Prop :=
  match v with
  | SF64 x => float_text (fjson64 x) /\ jparse64 (fjson64 x) = Some x
  | SF32 x => float_text (fjson32 x) /\ jparse64 (fjson32 x) <> None /\ jparse32 (fjson32 x) = Some x
  | SSome v => json_null v = false /\ json_faithful v
  | SNewtypeStruct _ v | SNewtypeVariant _ _ v => json_faithful v
  | SSeq vs | STuple vs | STupleStruct _ vs | STupleVariant _ _ vs => fold_right (fun v P => json_faithful v /\ P) True vs
  | SMap kvs => fold_right (fun kv P => json_faithful (snd kv) /\ P) True kvs
  | SStruct _ fs | SStructVariant _ _ fs => fold_right (fun f P => json_faithful (snd f) /\ P) True fs
  | _ => True
  end.
