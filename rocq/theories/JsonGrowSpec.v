(** * JSON documents between versions of a type (C83). *)
From Verif Require Import Base Serde ScalarSpec.
Open Scope N_scope.

(** Types of which a value may be written [null]. *)
Fixpoint takes_null (t : ty) : bool :=
  match t with
  | TUnit | TUnitStruct _ | TOption _ => true
  | TNewtype _ t => takes_null t
  | _ => false
  end.

(** [readable_as t t']: what is written for [t] can be read for [t']. Numbers may get a wider range, characters become
    strings, required values optional; newtypes come and go. A struct may lose fields, get optional ones and another order of
    them; an enum may get variants. *)
Inductive readable_as : ty -> ty -> Prop :=
| RaSame t : readable_as t t
| RaInt k k' : (fst (int_bounds k') <= fst (int_bounds k))%Z -> (snd (int_bounds k) <= snd (int_bounds k'))%Z -> readable_as (TInt k) (TInt k')
| RaChar : readable_as TChar TStr
| RaOptional t t' : takes_null t = false -> readable_as t t' -> readable_as t (TOption t')
| RaOption t t' : readable_as t t' -> readable_as (TOption t) (TOption t')
| RaWrap n t t' : readable_as t t' -> readable_as t (TNewtype n t')
| RaUnwrap n t t' : readable_as t t' -> readable_as (TNewtype n t) t'
| RaUnitStruct n n' : readable_as (TUnitStruct n) (TUnitStruct n')
| RaSeq t t' : readable_as t t' -> readable_as (TSeq t) (TSeq t')
| RaTuple ts ts' : Forall2 readable_as ts ts' -> readable_as (TTuple ts) (TTuple ts')
| RaTupleStruct n n' ts ts' : Forall2 readable_as ts ts' -> readable_as (TTupleStruct n ts) (TTupleStruct n' ts')
| RaTupleSeq ts t' : Forall (fun t => readable_as t t') ts -> readable_as (TTuple ts) (TSeq t')
| RaMap k t t' : readable_as t t' -> readable_as (TMap k t) (TMap k t')
| RaStruct n n' fs fs' : readable_fields fs fs' -> readable_as (TStruct n fs) (TStruct n' fs')
| RaEnum n n' vs vs' : (forall x t, assoc x vs = Some t -> exists t', assoc x vs' = Some t' /\ readable_variant t t') ->
    readable_as (TEnum n vs) (TEnum n' vs')
with readable_fields : list (ustr * ty) -> list (ustr * ty) -> Prop :=
| RfFields fs fs' : NoDup (map fst fs') ->
    (forall k t', In (k, t') fs' -> (exists t, In (k, t) fs /\ readable_as t t') \/ (~ In k (map fst fs) /\ exists t, t' = TOption t)) ->
    readable_fields fs fs'
with readable_variant : vty -> vty -> Prop :=
| RvUnit : readable_variant VUnit VUnit
| RvNewtype t t' : readable_as t t' -> readable_variant (VNewtype t) (VNewtype t')
| RvTuple ts ts' : Forall2 readable_as ts ts' -> readable_variant (VTuple ts) (VTuple ts')
| RvStruct fs fs' : readable_fields fs fs' -> readable_variant (VStruct fs) (VStruct fs').

(** [kept v v']: [v'] says what [v] says as far as its type goes; fields [v] does not have are absent. *)
Inductive kept : value -> value -> Prop :=
| KeSame v : kept v v
| KeInt k k' z : kept (SInt k z) (SInt k' z)
| KeChar c : kept (SChar c) (SStr [c])
| KeOptional v v' : kept v v' -> kept v (SSome v')
| KeOption v v' : kept v v' -> kept (SSome v) (SSome v')
| KeWrap n v v' : kept v v' -> kept v (SNewtypeStruct n v')
| KeUnwrap n v v' : kept v v' -> kept (SNewtypeStruct n v) v'
| KeUnitStruct n n' : kept (SUnitStruct n) (SUnitStruct n')
| KeSeq vs vs' : Forall2 kept vs vs' -> kept (SSeq vs) (SSeq vs')
| KeTuple vs vs' : Forall2 kept vs vs' -> kept (STuple vs) (STuple vs')
| KeTupleStruct n n' vs vs' : Forall2 kept vs vs' -> kept (STupleStruct n vs) (STupleStruct n' vs')
| KeTupleSeq vs vs' : Forall2 kept vs vs' -> kept (STuple vs) (SSeq vs')
| KeMap kvs kvs' : Forall2 (fun a b => fst b = fst a /\ kept (snd a) (snd b)) kvs kvs' -> kept (SMap kvs) (SMap kvs')
| KeStruct n n' vs vs' : kept_fields vs vs' -> kept (SStruct n vs) (SStruct n' vs')
| KeUnitVariant n n' x : kept (SUnitVariant n x) (SUnitVariant n' x)
| KeNewtypeVariant n n' x v v' : kept v v' -> kept (SNewtypeVariant n x v) (SNewtypeVariant n' x v')
| KeTupleVariant n n' x vs vs' : Forall2 kept vs vs' -> kept (STupleVariant n x vs) (STupleVariant n' x vs')
| KeStructVariant n n' x vs vs' : kept_fields vs vs' -> kept (SStructVariant n x vs) (SStructVariant n' x vs')
with kept_fields : list (ustr * value) -> list (ustr * value) -> Prop :=
| KfFields vs vs' : (forall k v', In (k, v') vs' -> (exists v, In (k, v) vs /\ kept v v') \/ (~ In k (map fst vs) /\ v' = SNone)) -> kept_fields vs vs'.

(** Values that are none of a value written [null]. *)
Fixpoint shown (v : value) : bool :=
  match v with
  | SNone | SUnit | SUnitStruct _ => false
  | SSome v | SNewtypeStruct _ v => shown v
  | _ => true
  end.
Definition variant_of (v : value) : option ustr :=
  match v with SUnitVariant _ x | SNewtypeVariant _ x _ | STupleVariant _ x _ | SStructVariant _ x _ => Some x | _ => None end.

(** [too_new v t']: somewhere in [v] there is what [t'] does not know: a variant it does not have, a number out of its range, no
    value where it requires one, no field where it requires one. *)
Inductive too_new : value -> ty -> Prop :=
| TnVariant v x n vs : variant_of v = Some x -> assoc x vs = None -> too_new v (TEnum n vs)
| TnRange k z k' : ~ (fst (int_bounds k') <= z <= snd (int_bounds k'))%Z -> too_new (SInt k z) (TInt k')
| TnNone t : takes_null t = false -> too_new SNone t
| TnField n vs n' fs k t : In (k, t) fs -> ~ In k (map fst vs) -> (forall t0, t <> TOption t0) -> too_new (SStruct n vs) (TStruct n' fs)
| TnInField n vs n' fs k v t : In (k, v) vs -> In (k, t) fs -> too_new v t -> too_new (SStruct n vs) (TStruct n' fs)
| TnOptional v t : shown v = true -> too_new v t -> too_new v (TOption t)
| TnSome v t : too_new v t -> too_new (SSome v) t
| TnWrap n v t : too_new v t -> too_new v (TNewtype n t)
| TnUnwrap n v t : too_new v t -> too_new (SNewtypeStruct n v) t
| TnSeq v vs t : In v vs -> too_new v t -> too_new (SSeq vs) (TSeq t)
| TnTuple i v vs t ts : nth_error vs i = Some v -> nth_error ts i = Some t -> too_new v t -> too_new (STuple vs) (TTuple ts)
| TnMap k v kvs tk t : In (k, v) kvs -> too_new v t -> too_new (SMap kvs) (TMap tk t)
| TnVariantValue n x v n' vs t : assoc x vs = Some (VNewtype t) -> too_new v t -> too_new (SNewtypeVariant n x v) (TEnum n' vs)
| TnVariantField n x vs n' ws fs k v t : assoc x ws = Some (VStruct fs) -> In (k, v) vs -> In (k, t) fs -> too_new v t -> too_new (SStructVariant n x vs) (TEnum n' ws)
| TnVariantNoField n x vs n' ws fs k t : assoc x ws = Some (VStruct fs) -> In (k, t) fs -> ~ In k (map fst vs) -> (forall t0, t <> TOption t0) -> too_new (SStructVariant n x vs) (TEnum n' ws).
