(** * Tables of procedures that do not get in each other's way: the notions C100 is stated with. *)
From Verif Require Import Base Procedure Router RouterSpec.

(** Two entry points clash: they begin alike, and where they first differ one has a variable and the other a
    constant. *)
Fixpoint clash (a b : entry_point) : Prop :=
  match a, b with
  | Val c :: a', Val c' :: b' => c = c' /\ clash a' b'
  | Var :: a', Var :: b' => clash a' b'
  | Var :: _, Val _ :: _ | Val _ :: _, Var :: _ => True
  | _, _ => False
  end.

(** No two registrations clash, of whatever methods. *)
Definition clash_free {H : Type} (gs : list (method * entry_point * H)) : Prop :=
  forall g g', In g gs -> In g' gs -> ~ clash (snd (fst g)) (snd (fst g')).

(** A program that finds out. *)
Fixpoint clashb (a b : entry_point) : bool :=
  match a, b with
  | Val c :: a', Val c' :: b' => ustr_eqb c c' && clashb a' b'
  | Var :: a', Var :: b' => clashb a' b'
  | Var :: _, Val _ :: _ | Val _ :: _, Var :: _ => true
  | _, _ => false
  end.
Definition check_table {H : Type} (gs : list (method * entry_point * H)) : bool :=
  forallb (fun g => forallb (fun g' => negb (clashb (snd (fst g)) (snd (fst g')))) gs) gs.
