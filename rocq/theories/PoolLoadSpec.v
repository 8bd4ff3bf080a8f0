(** * What is said of the load that calls through a pool make (C95). *)
From Verif Require Import Base Serde Procedure Router DepUrl Error Client Pool PoolSystem.
Open Scope nat_scope.

(** Calls that have neither come to an end nor been dropped; that have come to an end; that are past connecting. *)
Definition going (pc : pcall) : bool := match c_state pc with Acquiring _ | Talking _ _ => true | _ => false end.
Definition over (pc : pcall) : bool := match c_state pc with Finished _ _ | Broken _ => true | _ => false end.
Definition past (pc : pcall) : bool := match c_state pc with Acquiring _ => false | _ => true end.
Definition how_many (f : pcall -> bool) (s : psys) : nat := length (filter f (s_calls s)).
(** Connections that have been given back and that the pool has not taken yet. *)
Definition on_their_way (s : psys) : nat := length (filter (fun c => match c with ReleaseConnection _ _ => true | _ => false end) (s_queue s)).
(** How many connections were opened. *)
Definition openings (tr : list pevent) : nat := length (filter (fun e => match e with EOpen _ _ => true | _ => false end) tr).
