(** * Properties C23-C26: routing. *)
From Verif Require Import Base Procedure Router RouterSpec RouterProofs.
From Coq Require Import Permutation.

(** A registration history used as the concrete case below: two GETs sharing a prefix, a POST, and a
    registration that conflicts with the first. *)
Definition ex_regs : list (method * entry_point * nat) :=
  [ (MGet, [Val (u "a"); Var], 1); (MGet, [Val (u "a"); Val (u "b"); Val (u "c")], 2);
    (MPost, [Var; Val (u "c")], 3); (MGet, [Val (u "a"); Var], 4) ].

(** ** C23 *)
Theorem C23_routing_refines_spec (H : Type) (gs : list (method * entry_point * H)) m segs :
  route (build gs) m (Some segs) = Ok (route_spec (accepted gs) m segs).
Proof. exact (routing_refines gs m segs). Qed.
Print Assumptions C23_routing_refines_spec.

(** When no constant of another entry point gets in the way, the registered handler is reached. *)
Theorem C23_routing_reaches (H : Type) (gs : list (method * entry_point * H)) m ep h segs :
  In (m, ep, h) (accepted gs) -> matches ep segs -> unshadowed (accepted gs) ep segs ->
  route (build gs) m (Some segs) = Ok (inl h).
Proof. exact (routing_complete gs m ep h segs). Qed.
Print Assumptions C23_routing_reaches.

Example C23_case :
  In (MGet, [Val (u "a"); Var], 1) (accepted ex_regs) /\
  matches [Val (u "a"); Var] [u "a"; u "x"] /\
  unshadowed (accepted ex_regs) [Val (u "a"); Var] [u "a"; u "x"] /\
  route (build ex_regs) MGet (Some [u "a"; u "x"]) = Ok (inl 1) /\
  route (build ex_regs) MPut (Some [u "a"; u "x"]) = Ok (inr MethodNotAllowed) /\
  route (build ex_regs) MGet (Some [u "a"; u "x"; u "y"]) = Ok (inr NotFound).
Proof. vm_compute. repeat split; auto. Qed.

(** There is no going back from a constant: "/a/b" is not given to the entry point ["a"; _] although it matches. *)
Theorem C23_match_suffices_refuted :
  exists (gs : list (method * entry_point * nat)) m ep h segs,
    In (m, ep, h) (accepted gs) /\ matches ep segs /\
    route (build gs) m (Some segs) = Ok (inr MethodNotAllowed).
Proof.
  exists ex_regs, MGet, [Val (u "a"); Var], 1, [u "a"; u "b"]. vm_compute. repeat split; auto.
Qed.
Print Assumptions C23_match_suffices_refuted.

(** ** C24 *)
Theorem C24_conflict_iff (H : Type) (gs : list (method * entry_point * H)) m ep h :
  snd (trie_insert (build gs) m ep h) = Err Invalid <-> exists h', In (m, ep, h') gs.
Proof. exact (conflict_iff gs m ep h). Qed.
Print Assumptions C24_conflict_iff.

Theorem C24_registration_total (H : Type) (gs : list (method * entry_point * H)) m ep h :
  snd (trie_insert (build gs) m ep h) = Ok tt \/ snd (trie_insert (build gs) m ep h) = Err Invalid.
Proof. exact (no_other_outcome gs m ep h). Qed.
Print Assumptions C24_registration_total.

Theorem C24_conflict_changes_nothing (H : Type) (gs : list (method * entry_point * H)) m ep h m' path :
  (exists h', In (m, ep, h') gs) ->
  route (build (gs ++ [(m, ep, h)])) m' path = route (build gs) m' path.
Proof. intros X. exact (f_equal (fun t => route t m' path) (failed_registration_unchanged gs m ep h X)). Qed.
Print Assumptions C24_conflict_changes_nothing.

(** Whatever handler a request reaches, no registration before it had its method and entry point. *)
Theorem C24_first_registration_wins (H : Type) (gs : list (method * entry_point * H)) m segs h :
  route (build gs) m (Some segs) = Ok (inl h) ->
  exists ep l1 l2, gs = l1 ++ (m, ep, h) :: l2 /\ (forall h', ~ In (m, ep, h') l1) /\ matches ep segs.
Proof. exact (first_wins gs m segs h). Qed.
Print Assumptions C24_first_registration_wins.

(** A handler registered first for its method and entry point keeps its requests whatever is registered later,
    but for a constant of another entry point getting in the way. *)
Theorem C24_never_replaced (H : Type) (l1 l2 : list (method * entry_point * H)) m ep h segs :
  (forall h', ~ In (m, ep, h') l1) -> matches ep segs ->
  unshadowed (accepted (l1 ++ (m, ep, h) :: l2)) ep segs ->
  route (build (l1 ++ (m, ep, h) :: l2)) m (Some segs) = Ok (inl h).
Proof. exact (unreplaced l1 l2 m ep h segs). Qed.
Print Assumptions C24_never_replaced.

Example C24_case :
  snd (trie_insert (build (firstn 3 ex_regs)) MGet [Val (u "a"); Var] 4) = Err Invalid /\
  snd (trie_insert (build (firstn 3 ex_regs)) MPut [Val (u "a"); Var] 4) = Ok tt /\
  accepted ex_regs = firstn 3 ex_regs /\
  matches [Val (u "a"); Var] [u "a"; u "x"] /\ unshadowed (accepted ex_regs) [Val (u "a"); Var] [u "a"; u "x"] /\
  route (build ex_regs) MGet (Some [u "a"; u "x"]) = Ok (inl 1).
Proof. vm_compute. repeat split; auto. Qed.

(** ** C25 *)
Theorem C25_routing_sound (H : Type) (gs : list (method * entry_point * H)) m segs h :
  route (build gs) m (Some segs) = Ok (inl h) ->
  exists ep, In (m, ep, h) (accepted gs) /\ matches ep segs.
Proof. exact (routing_sound gs m segs h). Qed.
Print Assumptions C25_routing_sound.

Example C25_case : route (build ex_regs) MPost (Some [u "z"; u "c"]) = Ok (inl 3).
Proof. vm_compute. reflexivity. Qed.

(** ** C26 *)
Theorem C26_order_independent (H : Type) (gs gs' : list (method * entry_point * H)) m path :
  Permutation gs gs' -> NoDup (map fst gs) -> route (build gs) m path = route (build gs') m path.
Proof. exact (order_independent gs gs' m path). Qed.
Print Assumptions C26_order_independent.

Example C26_case :
  Permutation (firstn 3 ex_regs) (rev (firstn 3 ex_regs)) /\ NoDup (map fst (firstn 3 ex_regs)) /\
  build (firstn 3 ex_regs) <> build (rev (firstn 3 ex_regs)).
Proof.
  split; [apply Permutation_rev|]. split.
  - cbn. repeat constructor; cbn; intuition discriminate.
  - vm_compute. discriminate.
Qed.
