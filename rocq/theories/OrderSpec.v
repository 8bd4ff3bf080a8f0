(** * Messages that differ only in the order of their named parts (C79). *)
From Coq Require Import Sorting.Permutation.
From Verif Require Import Base Utf8 DepUrl Serde Json.
Open Scope N_scope.

(** Types read by name: structs, possibly inside newtypes and options; with the names of their fields. *)
Inductive by_name : ty -> list ustr -> Prop :=
| BnStruct n fs : by_name (TStruct n fs) (map fst fs)
| BnNewtype n t ns : by_name t ns -> by_name (TNewtype n t) ns
| BnOption t ns : by_name t ns -> by_name (TOption t) ns.

(** The same headers: in another order, their names in other cases. *)
Definition same_headers (hs hs' : list (ustr * bytes)) : Prop :=
  let low := map (fun h => (lowercase (fst h), snd h)) in Permutation (low hs) (low hs').

(** Request types whose query and headers, if they have them, are read by name, with parameters of known names. *)
Inductive asks_by_name (pairs : list (ustr * ustr)) : ty -> Prop :=
| AnStruct n fs : (forall t, In (u "header", t) fs -> exists ns, by_name t ns) ->
    (forall t, In (u "query", t) fs -> exists ns, by_name t ns /\ forall p, In p pairs -> In (fst p) ns) -> asks_by_name pairs (TStruct n fs)
| AnNewtype n t : asks_by_name pairs t -> asks_by_name pairs (TNewtype n t).
(** Response types whose headers are read by name. *)
Inductive replies_by_name : ty -> Prop :=
| RnStruct n fs : (forall t, In (u "header", t) fs -> exists ns, by_name t ns) -> replies_by_name (TStruct n fs)
| RnNewtype n t : replies_by_name t -> replies_by_name (TNewtype n t)
| RnEnum n vs : (forall x t, In (x, VNewtype t) vs -> replies_by_name t) ->
    (forall x fs t, In (x, VStruct fs) vs -> In (u "header", t) fs -> exists ns, by_name t ns) -> replies_by_name (TEnum n vs).

(** The members of objects in another order, at any depth. *)
Inductive reordered : json -> json -> Prop :=
| RoSame j : reordered j j
| RoArr l l' : Forall2 reordered l l' -> reordered (JArr l) (JArr l')
| RoObj l l' l'' : Forall2 (fun m m' => fst m = fst m' /\ reordered (snd m) (snd m')) l l' -> Permutation l' l'' -> reordered (JObj l) (JObj l'').
(** Types without maps; the order of the entries of a map is not told from that of the members. *)
Fixpoint mapless (t : ty) : bool :=
  match t with
  | TMap _ _ => false
  | TOption t | TNewtype _ t | TSeq t => mapless t
  | TTuple ts | TTupleStruct _ ts => forallb mapless ts
  | TStruct _ fs => forallb (fun f => mapless (snd f)) fs
  | TEnum _ vs => forallb (fun v => vmapless (snd v)) vs
  | _ => true
  end
with vmapless (t : vty) : bool :=
  match t with
  | VUnit => true
  | VNewtype t => mapless t
  | VTuple ts => forallb mapless ts
  | VStruct fs => forallb (fun f => mapless (snd f)) fs
  end.
