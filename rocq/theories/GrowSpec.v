(** * Newer versions of the types of messages (C82). *)
From Coq Require Import Sorting.Permutation.
From Verif Require Import Base Utf8 Serde ScalarSpec.
Open Scope N_scope.

(** ** Types *)
(** One text: a number may get a wider range, and what was required may become optional. *)
Inductive newer : ty -> ty -> Prop :=
| NwSame t : newer t t
| NwInt k k' : (fst (int_bounds k') <= fst (int_bounds k))%Z -> (snd (int_bounds k) <= snd (int_bounds k'))%Z -> newer (TInt k) (TInt k')
| NwOptional t t' : newer t t' -> newer t (TOption t')
| NwOption t t' : newer t t' -> newer (TOption t) (TOption t')
| NwNewtype n n' t t' : newer t t' -> newer (TNewtype n t) (TNewtype n' t').

(** A query or headers: a struct with the fields named [old] may get optional fields, named [new], and another order. *)
Inductive newer_part (old new : list ustr) : ty -> ty -> Prop :=
| NpSame t : newer_part old new t t
| NpStruct n n' fs fs' kept added : old = map fst fs -> new = map fst added ->
    Forall2 (fun f f' => fst f' = fst f /\ newer (snd f) (snd f')) fs kept -> Forall (fun f => exists t, snd f = TOption t) added ->
    Permutation (kept ++ added) fs' -> NoDup (map fst fs') -> newer_part old new (TStruct n fs) (TStruct n' fs')
| NpOptional t t' : newer_part old new t t' -> newer_part old new t (TOption t')
| NpOption t t' : newer_part old new t t' -> newer_part old new (TOption t) (TOption t')
| NpNewtype n n' t t' : newer_part old new t t' -> newer_part old new (TNewtype n t) (TNewtype n' t').

(** A request: newer query and headers, the same path. *)
Definition newer_request_field (old newq newh : list ustr) (f f' : ustr * ty) : Prop :=
  fst f' = fst f /\
  (snd f' = snd f \/ (fst f = u "query" /\ newer_part old newq (snd f) (snd f')) \/
   (fst f = u "header" /\ exists oldh, newer_part oldh newh (snd f) (snd f'))).
Inductive newer_request (old newq newh : list ustr) : ty -> ty -> Prop :=
| NqStruct n n' fs fs' : Forall2 (newer_request_field old newq newh) fs fs' -> newer_request old newq newh (TStruct n fs) (TStruct n' fs')
| NqNewtype n n' t t' : newer_request old newq newh t t' -> newer_request old newq newh (TNewtype n t) (TNewtype n' t').

(** A response: newer headers, a number of wider range for the status, and further variants. *)
Definition newer_field (new : list ustr) (f f' : ustr * ty) : Prop :=
  fst f' = fst f /\
  (snd f' = snd f \/ (fst f = u "status" /\ (exists k k', snd f = TInt k /\ snd f' = TInt k' /\ newer (TInt k) (TInt k'))) \/
   (fst f = u "header" /\ exists old, newer_part old new (snd f) (snd f'))).
Inductive newer_response (new : list ustr) : ty -> ty -> Prop :=
| NsStruct n n' fs fs' : Forall2 (newer_field new) fs fs' -> newer_response new (TStruct n fs) (TStruct n' fs')
| NsNewtype n n' t t' : newer_response new t t' -> newer_response new (TNewtype n t) (TNewtype n' t')
| NsEnum n n' vs vs' : (forall x t, assoc x vs = Some t -> exists t', assoc x vs' = Some t' /\ newer_variant new t t') ->
    newer_response new (TEnum n vs) (TEnum n' vs')
with newer_variant (new : list ustr) : vty -> vty -> Prop :=
| NvUnit : newer_variant new VUnit VUnit
| NvNewtype t t' : newer_response new t t' -> newer_variant new (VNewtype t) (VNewtype t')
| NvStruct fs fs' : Forall2 (newer_field new) fs fs' -> newer_variant new (VStruct fs) (VStruct fs').

(** ** Values *)
(** [keeps v v']: [v'] says what [v] says; fields that [v] does not have are absent. *)
Inductive keeps : value -> value -> Prop :=
| KpSame v : keeps v v
| KpInt k k' z : keeps (SInt k z) (SInt k' z)
| KpOptional v v' : keeps v v' -> keeps v (SSome v')
| KpSome v v' : keeps v v' -> keeps (SSome v) (SSome v')
| KpNewtype n n' v v' : keeps v v' -> keeps (SNewtypeStruct n v) (SNewtypeStruct n' v')
| KpStruct n n' vs vs' : keeps_fields vs vs' -> keeps (SStruct n vs) (SStruct n' vs')
| KpUnitVariant n n' x : keeps (SUnitVariant n x) (SUnitVariant n' x)
| KpNewtypeVariant n n' x v v' : keeps v v' -> keeps (SNewtypeVariant n x v) (SNewtypeVariant n' x v')
| KpStructVariant n n' x vs vs' : keeps_fields vs vs' -> keeps (SStructVariant n x vs) (SStructVariant n' x vs')
with keeps_fields : list (ustr * value) -> list (ustr * value) -> Prop :=
| KfFields vs vs' : (forall k v, In (k, v) vs -> exists v', In (k, v') vs' /\ keeps v v') ->
    (forall k v', In (k, v') vs' -> In k (map fst vs) \/ v' = SNone) -> NoDup (map fst vs') -> keeps_fields vs vs'.
