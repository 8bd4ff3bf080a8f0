(** * Queries and headers as a whole: structs, maps, and options and newtypes of them. *)
From Verif Require Import Base Serde ScalarSpec FieldSpec QueryProofs HeaderProofs.
Open Scope N_scope.

Section MapSpec.
Context `{floatlib}.

(** Keys and values of a map that are there: scalars that survive, alone or in an option. *)
Definition entry_faithful (t : ty) (v : value) : Prop :=
  match t, v with
  | TOption t, SSome v => faithful t v
  | t, v => faithful t v
  end.
Definition header_entry_faithful (t : ty) (v : value) : Prop :=
  match t, v with
  | TOption t, SSome v => header_scalar_faithful t v
  | t, v => header_scalar_faithful t v
  end.

(** The entries of a map whose value is not an absent option. *)
Definition present (kvs : list (value * value)) : list (value * value) :=
  filter (fun kv => match snd kv with SNone => false | _ => true end) kvs.

(** Queries that come back as they were. *)
Inductive query_whole : ty -> value -> Prop :=
| QwStruct n fs vs : NoDup (map fst fs) -> Forall (fun f => str_ok (fst f) = true) fs ->
    Forall2 (fun f v => fst v = fst f /\ query_faithful (snd f) (snd v)) fs vs -> query_whole (TStruct n fs) (SStruct n vs)
| QwMap tk tv kvs : NoDup (map fst kvs) -> Forall (fun kv => entry_faithful tk (fst kv) /\ entry_faithful tv (snd kv)) kvs ->
    query_whole (TMap tk tv) (SMap kvs)
| QwOption t v : query_whole t v -> query_whole (TOption t) (SSome v)
| QwNewtype n t v : query_whole t v -> query_whole (TNewtype n t) (SNewtypeStruct n v).

(** Headers that come back as they were; a map does not, see C64. *)
Inductive header_whole : ty -> value -> Prop :=
| HwStruct n fs vs : NoDup (map fst fs) -> Forall (fun f => lower_name (fst f) /\ fst f <> u "content-length") fs ->
    Forall2 (fun f v => fst v = fst f /\ header_faithful (snd f) (snd v)) fs vs -> header_whole (TStruct n fs) (SStruct n vs)
| HwOption t v : header_whole t v -> header_whole (TOption t) (SSome v)
| HwNewtype n t v : header_whole t v -> header_whole (TNewtype n t) (SNewtypeStruct n v).
End MapSpec.
