(** * Induction over values and JSON trees, through the lists inside them. *)
From Verif Require Import Base Serde Json.

Section ValueInd.
  Variable P : value -> Prop.
  Hypotheses
    (HBool : forall b, P (SBool b)) (HInt : forall k z, P (SInt k z)) (HF32 : forall x, P (SF32 x)) (HF64 : forall x, P (SF64 x))
    (HChar : forall c, P (SChar c)) (HStr : forall s, P (SStr s)) (HBytes : forall b, P (SBytes b)) (HNone : P SNone)
    (HSome : forall v, P v -> P (SSome v)) (HUnit : P SUnit) (HUnitStruct : forall n, P (SUnitStruct n))
    (HUnitVariant : forall e x, P (SUnitVariant e x)) (HNew : forall n v, P v -> P (SNewtypeStruct n v))
    (HNewV : forall e x v, P v -> P (SNewtypeVariant e x v))
    (HSeq : forall vs, Forall P vs -> P (SSeq vs)) (HTuple : forall vs, Forall P vs -> P (STuple vs))
    (HTupleS : forall n vs, Forall P vs -> P (STupleStruct n vs)) (HTupleV : forall e x vs, Forall P vs -> P (STupleVariant e x vs))
    (HMap : forall kvs, Forall (fun kv => P (fst kv) /\ P (snd kv)) kvs -> P (SMap kvs))
    (HStruct : forall n fs, Forall (fun f => P (snd f)) fs -> P (SStruct n fs))
    (HStructV : forall e x fs, Forall (fun f => P (snd f)) fs -> P (SStructVariant e x fs)).
  Fixpoint value_ind2 (v : value) : P v :=
    let list := fix list (vs : list value) : Forall P vs :=
      match vs with [] => Forall_nil _ | v :: r => Forall_cons _ (value_ind2 v) (list r) end in
    let fields := fix fields (fs : Coq.Init.Datatypes.list (ustr * value)) : Forall (fun f => P (snd f)) fs :=
      match fs with [] => Forall_nil _ | f :: r => Forall_cons f (value_ind2 (snd f)) (fields r) end in
    match v with
    | SBool b => HBool b | SInt k z => HInt k z | SF32 x => HF32 x | SF64 x => HF64 x | SChar c => HChar c | SStr s => HStr s
    | SBytes b => HBytes b | SNone => HNone | SSome v => HSome v (value_ind2 v) | SUnit => HUnit | SUnitStruct n => HUnitStruct n
    | SUnitVariant e x => HUnitVariant e x | SNewtypeStruct n v => HNew n v (value_ind2 v)
    | SNewtypeVariant e x v => HNewV e x v (value_ind2 v)
    | SSeq vs => HSeq vs (list vs) | STuple vs => HTuple vs (list vs) | STupleStruct n vs => HTupleS n vs (list vs)
    | STupleVariant e x vs => HTupleV e x vs (list vs)
    | SMap kvs => HMap kvs ((fix entries (kvs : Coq.Init.Datatypes.list (value * value)) : Forall (fun kv => P (fst kv) /\ P (snd kv)) kvs :=
        match kvs with [] => Forall_nil _ | kv :: r => Forall_cons kv (conj (value_ind2 (fst kv)) (value_ind2 (snd kv))) (entries r) end) kvs)
    | SStruct n fs => HStruct n fs (fields fs) | SStructVariant e x fs => HStructV e x fs (fields fs)
    end.
End ValueInd.

Section JsonInd.
  Variable P : json -> Prop.
  Hypotheses (HNull : P JNull) (HBool : forall b, P (JBool b)) (HInt : forall z, P (JInt z)) (HFloat : forall t, P (JFloat t))
    (HStr : forall s, P (JStr s)) (HArr : forall l, Forall P l -> P (JArr l)) (HObj : forall l, Forall (fun kv => P (snd kv)) l -> P (JObj l)).
  Fixpoint json_ind2 (j : json) : P j :=
    match j with
    | JNull => HNull | JBool b => HBool b | JInt z => HInt z | JFloat t => HFloat t | JStr s => HStr s
    | JArr l => HArr l ((fix list (l : list json) : Forall P l :=
        match l with [] => Forall_nil _ | j :: r => Forall_cons _ (json_ind2 j) (list r) end) l)
    | JObj l => HObj l ((fix fields (l : list (ustr * json)) : Forall (fun kv => P (snd kv)) l :=
        match l with [] => Forall_nil _ | f :: r => Forall_cons f (json_ind2 (snd f)) (fields r) end) l)
    end.
End JsonInd.

Section Types.
  Variables (P : ty -> Prop) (Q : vty -> Prop).
  Hypotheses
    (HBool : P TBool) (HInt : forall k, P (TInt k)) (HF32 : P TF32) (HF64 : P TF64) (HChar : P TChar) (HStr : P TStr) (HBytes : P TBytes)
    (HOption : forall t, P t -> P (TOption t)) (HUnit : P TUnit) (HUnitStruct : forall n, P (TUnitStruct n))
    (HNew : forall n t, P t -> P (TNewtype n t)) (HSeq : forall t, P t -> P (TSeq t))
    (HTuple : forall ts, Forall P ts -> P (TTuple ts)) (HTupleS : forall n ts, Forall P ts -> P (TTupleStruct n ts))
    (HMap : forall k v, P k -> P v -> P (TMap k v)) (HStruct : forall n fs, Forall (fun f => P (snd f)) fs -> P (TStruct n fs))
    (HEnum : forall n vs, Forall (fun f => Q (snd f)) vs -> P (TEnum n vs)) (HAny : P TAny)
    (HVUnit : Q VUnit) (HVNew : forall t, P t -> Q (VNewtype t)) (HVTuple : forall ts, Forall P ts -> Q (VTuple ts))
    (HVStruct : forall fs, Forall (fun f => P (snd f)) fs -> Q (VStruct fs)).
  Fixpoint ty_ind2 (t : ty) : P t :=
    let list := fix list (ts : list ty) : Forall P ts :=
      match ts with [] => Forall_nil _ | t :: r => Forall_cons _ (ty_ind2 t) (list r) end in
    match t with
    | TBool => HBool | TInt k => HInt k | TF32 => HF32 | TF64 => HF64 | TChar => HChar | TStr => HStr | TBytes => HBytes
    | TOption t => HOption t (ty_ind2 t) | TUnit => HUnit | TUnitStruct n => HUnitStruct n | TNewtype n t => HNew n t (ty_ind2 t)
    | TSeq t => HSeq t (ty_ind2 t) | TTuple ts => HTuple ts (list ts) | TTupleStruct n ts => HTupleS n ts (list ts)
    | TMap k v => HMap k v (ty_ind2 k) (ty_ind2 v)
    | TStruct n fs => HStruct n fs ((fix fields (fs : Coq.Init.Datatypes.list (ustr * ty)) : Forall (fun f => P (snd f)) fs :=
        match fs with [] => Forall_nil _ | f :: r => Forall_cons f (ty_ind2 (snd f)) (fields r) end) fs)
    | TEnum n vs => HEnum n vs ((fix variants (fs : Coq.Init.Datatypes.list (ustr * vty)) : Forall (fun f => Q (snd f)) fs :=
        match fs with [] => Forall_nil _ | f :: r => Forall_cons f (vty_ind2 (snd f)) (variants r) end) vs)
    | TAny => HAny
    end
  with vty_ind2 (t : vty) : Q t :=
    match t with
    | VUnit => HVUnit | VNewtype t => HVNew t (ty_ind2 t)
    | VTuple ts => HVTuple ts ((fix list (ts : list ty) : Forall P ts :=
        match ts with [] => Forall_nil _ | t :: r => Forall_cons _ (ty_ind2 t) (list r) end) ts)
    | VStruct fs => HVStruct fs ((fix fields (fs : Coq.Init.Datatypes.list (ustr * ty)) : Forall (fun f => P (snd f)) fs :=
        match fs with [] => Forall_nil _ | f :: r => Forall_cons f (ty_ind2 (snd f)) (fields r) end) fs)
    end.
End Types.
