(** * Calls that are lost, and calls that are not over (C80). *)
From Verif Require Import Base Serde Procedure Router SerRequest DeHeader DeResponse DepUrl Error Client Pool PoolSystem PoolSystemSpec.

Definition lost (x : option cstate) : Prop := match x with Some (Broken _) | Some Dropped | Some Panicked => True | _ => False end.
Definition under_way (x : option cstate) : Prop := match x with None | Some (Acquiring _) | Some (Talking _ _) => True | _ => False end.
