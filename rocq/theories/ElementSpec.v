(** * Numbers, names and addresses, as the other specifications understand them. *)
From Verif Require Import Base ScalarSpec Pool.
Open Scope N_scope.

(** The shortest decimal numeral: no leading zero, no sign but the minus of a negative number. *)
Definition no_leading_zero (s : ustr) : Prop := forall r, s <> u "0" ++ r.
Inductive decimal : Z -> ustr -> Prop :=
| DecZero : decimal 0 (u "0")
| DecPos s n : numeral s n -> no_leading_zero s -> decimal (Z.of_N n) s
| DecNeg s n : numeral s n -> no_leading_zero s -> decimal (- Z.of_N n) (u "-" ++ s).

(** Texts that differ only in the case of ASCII letters, the second without capitals. *)
Definition capital (c d : N) : Prop :=
  exists i, nth_error (u "ABCDEFGHIJKLMNOPQRSTUVWXYZ") i = Some c /\ nth_error (u "abcdefghijklmnopqrstuvwxyz") i = Some d.
Definition small (c d : N) : Prop := capital c d \/ (d = c /\ forall e, ~ capital c e).

(** What orders the connections of a pool: the first of address family, address, port and number that differs. *)
Definition places (x : cid) : list N :=
  match id_addr x with
  | AddrV4 ip port => [4; ip; port; id_seq x]
  | AddrV6 ip port _ _ => [6; ip; port; id_seq x]
  end.
Definition sooner (a b : list N) : Prop :=
  exists pre x y r r', a = pre ++ x :: r /\ b = pre ++ y :: r' /\ x < y.

(** Headers that HTTP carries as they are (RFC 7230, sections 3.2 and 3.2.6): a token for a name, and no control
    characters in the value, nor blanks around it. *)
Definition token_chars : ustr :=
  u "!#$%&'*+-.^_`|~0123456789ABCDEFGHIJKLMNOPQRSTUVWXYZabcdefghijklmnopqrstuvwxyz".
Definition travels (h : ustr * list N) : Prop :=
  fst h <> [] /\ Forall (fun c => In c token_chars) (fst h) /\
  Forall (fun c => c = 9 \/ 32 <= c <= 126 \/ 128 <= c <= 255) (snd h) /\
  (forall c r, snd h = c :: r -> c <> 32 /\ c <> 9) /\ (forall c r, snd h = r ++ [c] -> c <> 32 /\ c <> 9).
