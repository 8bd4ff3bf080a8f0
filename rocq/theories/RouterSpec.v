(** * What routing is supposed to do, independently of the trie. *)
From Verif Require Import Base Procedure Router.

Section RouterSpec.
Context {H : Type}.

(** The table of accepted registrations, as (method, entry point, handler). *)
Notation table := (list (method * entry_point * H)).

(** Two entry points are the same when they have the same constants and variables. *)
Fixpoint same_entry (a b : entry_point) : bool :=
  match a, b with
  | [], [] => true
  | x :: a', y :: b' => key_eqb (as_option x) (as_option y) && same_entry a' b'
  | _, _ => false
  end.

(** A registration is accepted unless the same method and entry point is in the table already. *)
Definition taken (tb : table) (m : method) (ep : entry_point) : bool :=
  existsb (fun g => method_eqb m (fst (fst g)) && same_entry ep (snd (fst g))) tb.
Definition accept (tb : table) (g : method * entry_point * H) : table :=
  if taken tb (fst (fst g)) (snd (fst g)) then tb else tb ++ [g].
Definition accepted (gs : table) : table := fold_left accept gs [].

(** The entry points that go on with a given constant, or with a variable; their first segment is dropped. *)
Definition with_const (s : ustr) (tb : table) : table :=
  flat_map (fun g => match g with
                     | (m, Val c :: ep, h) => if ustr_eqb s c then [(m, ep, h)] else []
                     | _ => []
                     end) tb.
Definition with_var (tb : table) : table :=
  flat_map (fun g => match g with (m, Var :: ep, h) => [(m, ep, h)] | _ => [] end) tb.
Definition ends_here (m : method) (tb : table) : list H :=
  flat_map (fun g => match g with
                     | (m', [], h) => if method_eqb m m' then [h] else []
                     | _ => []
                     end) tb.

(** Constants first, variables only if no constant fits, no going back. *)
Fixpoint route_spec (tb : table) (m : method) (segs : list ustr) : H + no_route :=
  match segs with
  | [] => match ends_here m tb with h :: _ => inl h | [] => inr MethodNotAllowed end
  | s :: r =>
      match with_const s tb with
      | _ :: _ => route_spec (with_const s tb) m r
      | [] => match with_var tb with
              | _ :: _ => route_spec (with_var tb) m r
              | [] => inr NotFound
              end
      end
  end.

(** An entry point matches a path when it has the same number of segments and its constants agree. *)
Fixpoint matches (ep : entry_point) (segs : list ustr) : Prop :=
  match ep, segs with
  | [], [] => True
  | Val c :: ep', s :: r => c = s /\ matches ep' r
  | Var :: ep', _ :: r => matches ep' r
  | _, _ => False
  end.

(** [ep] is the only entry point of the table that a walk along [segs] could be tempted by: at no position does
    another entry point with the same beginning continue with a constant equal to the URL's segment where
    [ep] has a variable. *)
Fixpoint unshadowed (tb : table) (ep : entry_point) (segs : list ustr) : Prop :=
  match ep, segs with
  | [], [] => True
  | Val c :: ep', s :: r => unshadowed (with_const s tb) ep' r
  | Var :: ep', s :: r => with_const s tb = [] /\ unshadowed (with_var tb) ep' r
  | _, _ => False
  end.
End RouterSpec.
