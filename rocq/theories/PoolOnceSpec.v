(** * Which calls through a pool are run by servers (C92). *)
From Verif Require Import Base Serde Procedure Router DepUrl SerRequest Client SessionSpec Pool PoolSystem.
Open Scope nat_scope.

(** The calls that have written a request, in order; those that have on one connection. *)
Definition writer (e : pevent) : list nat := match e with EAct i (Write _ _ _) => [i] | _ => [] end.
Definition writers (tr : list pevent) : list nat := flat_map writer tr.
Definition writer_on (c : conn) (e : pevent) : list nat := match e with EAct i (Write _ _ c') => if Nat.eqb c c' then [i] else [] | _ => [] end.
Definition writers_on (c : conn) (tr : list pevent) : list nat := flat_map (writer_on c) tr.

(** The request of a call is that of its own procedure, value and body. *)
Definition asks_as `{floatlib} `{urlenv} (s : psys) (i : nat) (a : asking) : Prop :=
  exists pc, nth_error (s_calls s) i = Some pc /\ a_method a = pr_method (c_proc pc) /\ a_body a = snd (c_req pc) /\
    encode_request (pr_entry (c_proc pc)) (fst (c_req pc)) (N.of_nat (length (snd (c_req pc)))) = Ok (a_request a).
