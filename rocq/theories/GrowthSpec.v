(** * What one more procedure does to the requests of the others: the notions C99 is stated with. *)
From Verif Require Import Base Procedure Router RouterSpec.

(** [ep'] takes the request for [segs] away from [ep]: the two begin alike, and where they first differ [ep] has a
    variable and [ep'] the constant that the URL has there. What comes after that place, and the methods, do not
    matter. *)
Fixpoint diverts (ep ep' : entry_point) (segs : list ustr) : Prop :=
  match ep, ep', segs with
  | Val c :: e, Val c' :: e', _ :: r => c = c' /\ diverts e e' r
  | Var :: e, Var :: e', _ :: r => diverts e e' r
  | Var :: _, Val c' :: _, s :: _ => c' = s
  | _, _, _ => False
  end.

(** An entry point that consists of constants only. *)
Definition all_constants (ep : entry_point) : Prop := ~ In Var ep.

(** [ep'] has no constant at a place where [ep] has a variable. *)
Fixpoint no_more_constants (ep ep' : entry_point) : Prop :=
  match ep, ep' with
  | Var :: _, Val _ :: _ => False
  | _ :: e, _ :: e' => no_more_constants e e'
  | _, _ => True
  end.
