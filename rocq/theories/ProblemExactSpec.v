(** * Which JSON documents stand for a problem, exactly. *)
From Verif Require Import Base Serde Json JsonDe Problem ProblemSpec JsonTypeSpec.
Open Scope N_scope.

(** The members that matter, which must not be repeated; others are ignored. *)
Definition known (p : problem) : list ustr :=
  match p with
  | AboutBlank _ _ => [u "type"; u "title"; u "status"]
  | Trackable _ _ _ _ _ => [u "type"; u "title"; u "status"; u "detail"; u "instance"; u "history"]
  end.


(** serde also takes the members as the elements of an array, in order, the type first; the last ones may be left out. *)
Definition elem_says {A} (l : list json) (n : nat) (f : A -> json) (o : option A) : Prop :=
  match o with
  | Some x => nth_error l n = Some (f x)
  | None => nth_error l n = None \/ nth_error l n = Some JNull
  end.
Definition listed (url_norm : ustr -> option ustr) (l : list json) (p : problem) : Prop :=
  match p with
  | AboutBlank title s => l = [JStr blank_type; JStr title; JInt (Z.of_N s)]
  | Trackable title s detail instance history =>
      exists l', l = JStr tracked_type :: JStr title :: JInt (Z.of_N s) :: l' /\ (length l' <= 3)%nat /\
        elem_says l' 0 JStr detail /\ elem_says l' 2 (fun h => JArr (map JStr h)) history /\
        match instance with
        | None => nth_error l' 1 = None \/ nth_error l' 1 = Some JNull
        | Some n => exists s, nth_error l' 1 = Some (JStr s) /\ url_norm s = Some n
        end
  end.

Definition represents (url_norm : ustr -> option ustr) (j : json) (p : problem) : Prop :=
  problem_status p < 65536 /\
  match j with
  | JObj l => (forall k, In k (known p) -> at_most_once l k) /\ describes url_norm l p
  | JArr l => listed url_norm l p
  | _ => False
  end.
