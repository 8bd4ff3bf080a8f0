(** * The addresses reported to a pool (C81). *)
From Verif Require Import Base Serde Procedure Router SerRequest DeHeader DeResponse DepUrl Error Client Pool PoolSpec PoolSystem PoolSystemSpec.

(** In the commands the pool has handled; in what the calls did. *)
Definition reported {C} (h : list (Z * command C)) : list saddr := flat_map (fun x => match snd x with AddToBlacklist a => [a] | _ => [] end) h.
Definition reports (tr : list pevent) : list saddr := flat_map (fun e => match e with EBlacklist _ a => [a] | _ => [] end) tr.
