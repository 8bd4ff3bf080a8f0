(** * UTF-8, as the Unicode standard defines it, independently of any decoder. *)
From Verif Require Import Base.
Open Scope N_scope.

(** UTF-8, by the bit patterns of one to four bytes; no surrogates, nothing above U+10FFFF. *)
Inductive utf8 : N -> bytes -> Prop :=
| Utf1 a : a < 128 -> utf8 a [a]
| Utf2 a b : a < 32 -> b < 64 -> 128 <= 64 * a + b -> utf8 (64 * a + b) [192 + a; 128 + b]
| Utf3 a b c : a < 16 -> b < 64 -> c < 64 -> 2048 <= 4096 * a + 64 * b + c -> ~ 55296 <= 4096 * a + 64 * b + c <= 57343 -> utf8 (4096 * a + 64 * b + c) [224 + a; 128 + b; 128 + c]
| Utf4 a b c d : a < 8 -> b < 64 -> c < 64 -> d < 64 -> 65536 <= 262144 * a + 4096 * b + 64 * c + d <= 1114111 ->
    utf8 (262144 * a + 4096 * b + 64 * c + d) [240 + a; 128 + b; 128 + c; 128 + d].
(** The bytes of a text. *)
Inductive text_bytes : ustr -> bytes -> Prop :=
| TbEnd : text_bytes [] []
| TbChar c bs s b : utf8 c bs -> text_bytes s b -> text_bytes (c :: s) (bs ++ b).

(** Reading bytes that need not be UTF-8: the longest stretch that could begin a character, or else one byte, is replaced. *)
Definition begins (p : bytes) : Prop := exists c q, utf8 c (p ++ q).
Inductive lossy : bytes -> ustr -> Prop :=
| LsEnd : lossy [] []
| LsChar c bs b t : utf8 c bs -> lossy b t -> lossy (bs ++ b) (c :: t)
| LsBad p b t : (forall c bs r, utf8 c bs -> p ++ b <> bs ++ r) ->
    length p = 1%nat \/ (p <> [] /\ begins p) -> (forall p' r, b = p' ++ r -> p' <> [] -> ~ begins (p ++ p')) ->
    lossy b t -> lossy (p ++ b) (65533 :: t).
