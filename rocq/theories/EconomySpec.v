(** * What is said of the connections that calls through a pool use up (C98). *)
From Verif Require Import Base Serde Procedure Router DepUrl Error Client Pool PoolSpec PoolSystem PoolLoadSpec.
Open Scope nat_scope.

(** Calls to an address that are going on, and that ended without success or were dropped. *)
Definition going_to (a : saddr) (pc : pcall) : bool := saddr_eqb (c_addr pc) a && going pc.
Definition lost_to (a : saddr) (pc : pcall) : bool :=
  saddr_eqb (c_addr pc) a && match c_state pc with Broken _ | Dropped | Panicked => true | _ => false end.
(** The connections opened to an address. *)
Definition openings_to (a : saddr) (tr : list pevent) : nat := length (filter (fun e => match e with EOpen _ b => saddr_eqb b a | _ => false end) tr).

(** The addresses that the calls of a schedule go to. *)
Definition goes_to (al : list saddr) (l : plabel) : Prop := match l with LCall a _ _ => In a al | _ => True end.
(** No two addresses with the same IP and port. *)
Definition no_aliases (al : list saddr) : Prop := forall a b, In a al -> In b al -> same_endpoint a b = true -> a = b.
Definition total (k : saddr -> nat) (al : list saddr) : nat := list_sum (map k al).
