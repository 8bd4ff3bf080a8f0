(** * What is said of what the server keeps of the bytes that come (C89). *)
From Verif Require Import Base DepUrl Serde Status SerResponse DeHeader Router RouterSpec Error Client ClientSpec Server HttpBytes CutsSpec WholeSpec Footprint.
Open Scope nat_scope.

(** How many bytes the server keeps. *)
Definition kept (s : foot) : nat := match f_stage s with FHead held | FBody _ _ _ _ held => length held | FStop => 0 end.
(** The length of the body that is being read: none is, it is known, or it is not. *)
Definition reading (s : foot) : option (option nat) := match f_stage s with FBody _ _ _ n _ => Some n | _ => None end.
(** Everything the peer has sent. *)
Definition sent_by_peer (ls : list flabel) : bytes := flat_map (fun l => match l with FArrive p => p | FTurn _ => [] end) ls.
(** A request that no procedure is registered for. *)
Definition unrouted `{urlenv} {R : Type} (ps : list (hproc bconn R)) (m : method) (t : ustr) (st : status) : Prop :=
  exists segs q e, parse_url t = Some (mkUrl (Some segs) q) /\ route_spec (accepted (map (fun p => (hp_method p, hp_entry p, p)) ps)) m segs = inr e /\
    st = match e with NotFound => StNotFound | MethodNotAllowed => StMethodNotAllowed end.
