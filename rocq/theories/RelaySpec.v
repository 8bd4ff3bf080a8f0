(** * Requests and responses that are sent on: types whose values all survive, wherever they were read from. *)
From Verif Require Import Base Utf8 Decimal Serde Procedure.
Open Scope N_scope.

(** Scalars of which every value is written as a text that is read as the same value: no floats, no booleans. *)
Fixpoint number_ty (t : ty) : bool :=
  match t with TInt _ => true | TNewtype _ t => number_ty t | _ => false end.
Fixpoint text_ty (t : ty) : bool :=
  match t with TInt _ | TStr => true | TNewtype _ t => text_ty t | _ => false end.
Fixpoint bytes_ty (t : ty) : bool :=
  match t with TInt _ | TStr | TBytes => true | TUnitStruct n => str_ok n | TNewtype _ t => bytes_ty t | _ => false end.
Definition or_option (P : ty -> bool) (t : ty) : bool := match t with TOption t => P t | t => P t end.

(** Paths: as many components as the entry point has variables. *)
Inductive path_ty (P : ty -> bool) (ep : entry_point) : ty -> Prop :=
| PtTuple ts : length ts = var_count ep -> forallb P ts = true -> path_ty P ep (TTuple ts)
| PtTupleStruct n ts : length ts = var_count ep -> forallb P ts = true -> path_ty P ep (TTupleStruct n ts)
| PtNewtype n t : path_ty P ep t -> path_ty P ep (TNewtype n t).
Inductive query_ty : ty -> Prop :=
| QtStruct n fs : NoDup (map fst fs) -> Forall (fun f => str_ok (fst f) = true /\ or_option text_ty (snd f) = true) fs -> query_ty (TStruct n fs)
| QtMap k v : text_ty k = true -> text_ty v = true -> query_ty (TMap k v)
| QtNewtype n t : query_ty t -> query_ty (TNewtype n t).
(** Header names are given in lower case, as they are read. *)
Inductive header_ty : ty -> Prop :=
| HtStruct n fs : NoDup (map fst fs) ->
    Forall (fun f => (all_ascii (fst f) = true /\ lowercase (fst f) = fst f) /\ fst f <> u "content-length" /\ or_option bytes_ty (snd f) = true) fs ->
    header_ty (TStruct n fs)
| HtNewtype n t : header_ty t -> header_ty (TNewtype n t).

(** A part that may be left out. *)
Definition part_ty (k : ustr) (o : option ty) : list (ustr * ty) := match o with Some t => [(k, t)] | None => [] end.
Definition if_there (P : ty -> Prop) (o : option ty) : Prop := match o with Some t => P t | None => True end.
Definition request_ty (n : ustr) (pt qt ht : option ty) : ty :=
  TStruct n (part_ty (u "path") pt ++ part_ty (u "query") qt ++ part_ty (u "header") ht).
Definition path_there (P : ty -> bool) (ep : entry_point) (o : option ty) : Prop :=
  match o with Some t => path_ty P ep t | None => var_count ep = 0%nat end.

(** Responses: an enum of statuses, or a struct with a status number. *)
Definition variant_ty (x : vty) : Prop := x = VUnit \/ exists ht, x = VStruct (part_ty (u "header") ht) /\ if_there header_ty ht.
Inductive response_ty : ty -> Prop :=
| RtEnum n vs : Forall (fun x => variant_ty (snd x)) vs -> response_ty (TEnum n vs)
| RtStruct n k ht : if_there header_ty ht -> response_ty (TStruct n ((u "status", TInt k) :: part_ty (u "header") ht)).
Definition is_enum (t : ty) : bool := match t with TEnum _ _ => true | _ => false end.

(** The texts a request has for the variables of its entry point. *)
Definition path_texts (args : value -> option (list ustr)) (v : value) : option (list ustr) :=
  match v with
  | SStruct _ vs => match assoc (u "path") vs with Some p => args p | None => Some [] end
  | _ => None
  end.
