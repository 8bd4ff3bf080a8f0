(** * Property C90: entry points are what is written in the macro. *)
From Verif Require Import Base Procedure Router RouterSpec EntryMacro EntryMacroSpec EntryMacroProofs.

(** The macro accepts exactly the segments with commas between them, one text for every entry point. *)
Theorem C90_exact l ep : entry_macro l = Some ep <-> l = written ep.
Proof. exact (macro_exact l ep). Qed.
Print Assumptions C90_exact.

(** Its entry point has as many variables as there are underscores, and fits a path if there is a segment for each
    token, any for an underscore and the same for a text. *)
Theorem C90_variables l ep : entry_macro l = Some ep -> var_count ep = underscores l.
Proof. exact (macro_variables l ep). Qed.
Print Assumptions C90_variables.
Theorem C90_matches l ep segs : entry_macro l = Some ep -> matches ep segs <-> Forall2 allows (separate l) segs.
Proof. exact (macro_matches l ep segs). Qed.
Print Assumptions C90_matches.

(** So a request comes to a handler only by a path that what is written there allows, and a registration is refused exactly if
    the same is written for one before it, with the same method. *)
Theorem C90_routed (H : Type) (regs : list (method * list token * H)) gs m segs h :
  Forall2 (fun r g => fst (fst g) = fst (fst r) /\ entry_macro (snd (fst r)) = Some (snd (fst g)) /\ snd g = snd r) regs gs ->
  route (build gs) m (Some segs) = Ok (inl h) -> exists l, In (m, l, h) regs /\ Forall2 allows (separate l) segs.
Proof. exact (macro_routed H regs gs m segs h). Qed.
Print Assumptions C90_routed.
Theorem C90_conflicts (H : Type) (tb : list (method * entry_point * H)) m l ep : entry_macro l = Some ep ->
  taken tb m ep = true <-> exists m' ep' h, In (m', ep', h) tb /\ m' = m /\ l = written ep'.
Proof. exact (macro_conflicts H tb m l ep). Qed.
Print Assumptions C90_conflicts.

(** ** Case: the macro of src/lib.rs:57, which fits one path and not another, and a comma too many. *)
Definition ex_macro : list token := [KText (u "foo"); KComma; KUnderscore; KComma; KText (u "baz")].
Definition ex_macros : list (method * list token * nat) := [(MGet, ex_macro, 1%nat); (MPut, [KUnderscore], 2%nat)].
Definition ex_macro_regs : list (method * entry_point * nat) := [(MGet, [Val (u "foo"); Var; Val (u "baz")], 1%nat); (MPut, [Var], 2%nat)].
Example C90_case : entry_macro ex_macro = Some [Val (u "foo"); Var; Val (u "baz")] /\ entry_macro (ex_macro ++ [KComma]) = None /\ entry_macro [] = Some [] /\
  underscores ex_macro = 1%nat /\ Forall2 allows (separate ex_macro) [u "foo"; u "x"; u "baz"] /\ ~ Forall2 allows (separate ex_macro) [u "foo"; u "x"; u "y"] /\
  Forall2 (fun r g => fst (fst g) = fst (fst r) /\ entry_macro (snd (fst r)) = Some (snd (fst g)) /\ snd g = snd r) ex_macros ex_macro_regs /\
  route (build ex_macro_regs) MGet (Some [u "foo"; u "x"; u "baz"]) = Ok (inl 1%nat) /\
  taken ex_macro_regs MGet [Val (u "foo"); Var; Val (u "baz")] = true /\ taken ex_macro_regs MPost [Val (u "foo"); Var; Val (u "baz")] = false.
Proof.
  do 4 (split; [reflexivity|]). split; [repeat constructor; (left; reflexivity) || (right; reflexivity)|].
  split; [intros X; inversion X as [|? ? ? ? _ Y]; inversion Y as [|? ? ? ? _ Z]; inversion Z as [|? ? ? ? [W|W] _]; discriminate|].
  split; [repeat constructor|]. do 2 (split; [vm_compute; reflexivity|]). vm_compute. reflexivity.
Qed.
