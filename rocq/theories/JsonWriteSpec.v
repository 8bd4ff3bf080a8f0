(** * The JSON text a value is written as, independently of the printers. *)
From Verif Require Import Base Decimal Serde Json.
Open Scope N_scope.

Section Tree.
Context `{floatlib}.

(** What may be the key of a map: texts, characters, integers and names of unit variants, inside newtypes. *)
Inductive key_text : value -> ustr -> Prop :=
| KStr s : key_text (SStr s) s
| KChar c : key_text (SChar c) [c]
| KInt k z : key_text (SInt k z) (show_int z)
| KVariant e x : key_text (SUnitVariant e x) x
| KNewtype n v s : key_text v s -> key_text (SNewtypeStruct n v) s.

(** The tree of a value: units and absent options are null, present options and newtypes are what they hold, bytes and
    tuples are arrays, structs and maps objects, and a variant with a content is an object whose one key is its name. *)
Inductive shown : value -> json -> Prop :=
| ShBool b : shown (SBool b) (JBool b)
| ShInt k z : shown (SInt k z) (JInt z)
| ShF32 x : shown (SF32 x) (JFloat (fjson32 x))
| ShF64 x : shown (SF64 x) (JFloat (fjson64 x))
| ShChar c : shown (SChar c) (JStr [c])
| ShStr s : shown (SStr s) (JStr s)
| ShBytes b js : Forall2 (fun x j => j = JInt (Z.of_N x)) b js -> shown (SBytes b) (JArr js)
| ShNone : shown SNone JNull
| ShUnit : shown SUnit JNull
| ShUnitStruct n : shown (SUnitStruct n) JNull
| ShSome v j : shown v j -> shown (SSome v) j
| ShNewtype n v j : shown v j -> shown (SNewtypeStruct n v) j
| ShUnitVariant e x : shown (SUnitVariant e x) (JStr x)
| ShNewtypeVariant e x v j : shown v j -> shown (SNewtypeVariant e x v) (JObj [(x, j)])
| ShSeq vs js : Forall2 shown vs js -> shown (SSeq vs) (JArr js)
| ShTuple vs js : Forall2 shown vs js -> shown (STuple vs) (JArr js)
| ShTupleStruct n vs js : Forall2 shown vs js -> shown (STupleStruct n vs) (JArr js)
| ShTupleVariant e x vs js : Forall2 shown vs js -> shown (STupleVariant e x vs) (JObj [(x, JArr js)])
| ShMap kvs js : Forall2 (fun kv m => key_text (fst kv) (fst m) /\ shown (snd kv) (snd m)) kvs js -> shown (SMap kvs) (JObj js)
| ShStruct n fs js : Forall2 (fun f m => fst f = fst m /\ shown (snd f) (snd m)) fs js -> shown (SStruct n fs) (JObj js)
| ShStructVariant e x fs js : Forall2 (fun f m => fst f = fst m /\ shown (snd f) (snd m)) fs js -> shown (SStructVariant e x fs) (JObj [(x, JObj js)]).

(** The values directly inside a value. *)
Definition inside (v : value) : list value :=
  match v with
  | SSome v | SNewtypeStruct _ v | SNewtypeVariant _ _ v => [v]
  | SSeq vs | STuple vs | STupleStruct _ vs | STupleVariant _ _ vs => vs
  | SMap kvs => map snd kvs
  | SStruct _ fs | SStructVariant _ _ fs => map snd fs
  | _ => []
  end.
(** Somewhere in the value there is a map with a key that is none of the above. *)
Inductive odd_key : value -> Prop :=
| OddHere kvs k v : In (k, v) kvs -> (forall s, ~ key_text k s) -> odd_key (SMap kvs)
| OddInside v w : In w (inside v) -> odd_key w -> odd_key v.
End Tree.

(** ** Text *)
Definition low_hex (d c : N) : Prop := d <= 9 /\ c = 48 + d \/ 10 <= d <= 15 /\ c = 97 + (d - 10).
(** A character inside quotes: short escapes where there are any, other control characters by number, all else as it is. *)
Inductive quoted_char : N -> ustr -> Prop :=
| QShort c e : In (c, e) [(34, 34); (92, 92); (8, 98); (12, 102); (10, 110); (13, 114); (9, 116)] -> quoted_char c [92; e]
| QCode c a b h l : c < 32 -> ~ In c [8; 9; 10; 12; 13] -> c = a * 16 + b -> low_hex a h -> low_hex b l ->
    quoted_char c [92; 117; 48; 48; h; l]
| QPlain c : 32 <= c -> c <> 34 -> c <> 92 -> quoted_char c [c].
Definition quoted (s t : ustr) : Prop := exists ts, Forall2 quoted_char s ts /\ t = [34] ++ concat ts ++ [34].

(** The compact layout has no white space; the pretty one starts each element on a line of its own, indented by two
    spaces per level, and has a space after each colon. *)
Inductive layout := Compact | Pretty (level : nat).
Definition deeper (o : layout) : layout := match o with Compact => Compact | Pretty n => Pretty (S n) end.
Definition line (o : layout) : ustr := match o with Compact => [] | Pretty n => 10 :: repeat 32 (2 * n) end.
Definition colon (o : layout) : ustr := match o with Compact => [58] | Pretty _ => [58; 32] end.
Fixpoint commas (ts : list ustr) : ustr :=
  match ts with [] => [] | [t] => t | t :: r => t ++ [44] ++ commas r end.

Inductive spelled : layout -> json -> ustr -> Prop :=
| SpNull o : spelled o JNull (u "null")
| SpTrue o : spelled o (JBool true) (u "true")
| SpFalse o : spelled o (JBool false) (u "false")
| SpInt o z : spelled o (JInt z) (show_int z)
| SpFloat o t : spelled o (JFloat t) t
| SpStr o s t : quoted s t -> spelled o (JStr s) t
| SpArr0 o : spelled o (JArr []) (u "[]")
| SpArr o l ts : l <> [] -> Forall2 (fun j t => exists x, spelled (deeper o) j x /\ t = line (deeper o) ++ x) l ts ->
    spelled o (JArr l) (u "[" ++ commas ts ++ line o ++ u "]")
| SpObj0 o : spelled o (JObj []) (u "{}")
| SpObj o l ts : l <> [] ->
    Forall2 (fun m t => exists k x, quoted (fst m) k /\ spelled (deeper o) (snd m) x /\ t = line (deeper o) ++ k ++ colon o ++ x) l ts ->
    spelled o (JObj l) (u "{" ++ commas ts ++ line o ++ u "}").
