(** * Concrete instances of the oracles, used by the examples beside the theorems. *)
From Verif Require Import Base Decimal DepUrl Serde Procedure ScalarSpec PathSpec DepHttp.
Open Scope N_scope.

(** An url crate of the 2.5 series; hosts are anything non-empty, no "file:" URLs. *)
Definition ex_url : urlenv :=
  {| enc_caret := true; trim_segment := false; slash_prefix := true;
     host_ok := fun _ h => match h with [] => false | _ => true end; file_url := fun _ => None |}.
(** An older one. *)
Definition ex_url_old : urlenv :=
  {| enc_caret := false; trim_segment := true; slash_prefix := false;
     host_ok := fun _ h => match h with [] => false | _ => true end; file_url := fun _ => None |}.
Lemma show_N_ascii x : all_ascii (show_N x) = true.
Proof.
  destruct (show_N_digits x) as (_ & _ & D). revert D. apply forallb_impl. unfold is_digit, is_ascii. intros c; cbv beta. lia.
Qed.
(** Floats reduced to natural numbers. *)
Definition ex_float : floatlib :=
  {| fshow := show_N; fparse64 := digits_val; fparse32 := digits_val; fwiden := fun x => x;
     f64_of_int := Z.to_N; f32_of_int := Z.to_N; fjson64 := show_N; fjson32 := show_N; fshow_ascii := show_N_ascii |}.

(** A network that delivers every header unchanged. *)
Definition ex_http : httpenv := {| deliver := fun hs => Some hs; deliver_safe := fun _ _ => eq_refl |}.

(** Deciding the side conditions on strings, for the examples only. *)
Definition path_safeb (s : ustr) : bool :=
  forallb (fun c => (c <? 128) && negb (c =? 9) && negb (c =? 10) && negb (c =? 13)) s &&
  negb (ustr_eqb s [46]) && negb (ustr_eqb s [46; 46]).
Lemma path_safeb_spec s : path_safeb s = true <-> @path_safe ex_url s.
Proof.
  unfold path_safeb, path_safe. cbn [trim_segment ex_url]. rewrite !andb_true_iff, !negb_true_iff, forallb_forall. split.
  - intros [[F A] B]. split; [|split; [|split]].
    + intros c I. specialize (F c I). cbv beta in F. lia.
    + intros ->. discriminate.
    + intros ->. discriminate.
    + discriminate.
  - intros (F & A & B & _). split; [split|].
    + intros c I. specialize (F c I). cbv beta. lia.
    + destruct (ustr_eqb s [46]) eqn:E; [|reflexivity]. apply ustr_eqb_eq in E. congruence.
    + destruct (ustr_eqb s [46; 46]) eqn:E; [|reflexivity]. apply ustr_eqb_eq in E. congruence.
Qed.
Definition plain_constb (s : ustr) : bool :=
  negb (ustr_eqb s []) && forallb (fun c => (32 <? c) && (c <? 127) &&
    negb (existsb (N.eqb c) [34; 35; 37; 47; 60; 62; 63; 92; 94; 96; 123; 125])) s &&
  negb (ustr_eqb s [46]) && negb (ustr_eqb s [46; 46]).
Lemma plain_constb_ok s : plain_constb s = true -> @plain_const ex_url s.
Proof.
  unfold plain_constb, plain_const, plain_char. rewrite !andb_true_iff, !negb_true_iff, forallb_forall.
  intros [[[N F] A] B]. split; [intros ->; discriminate|]. split; [|split; intros ->; discriminate].
  intros c I. specialize (F c I). cbv beta in F. rewrite !andb_true_iff, negb_true_iff in F. destruct F as [[L G] X].
  assert (Q : forall d, In d [34; 35; 37; 47; 60; 62; 63; 92; 94; 96; 123; 125] -> c <> d).
  { intros d J ->. rewrite <- not_true_iff_false in X. apply X. apply existsb_exists. exists d. split; [exact J | apply N.eqb_refl]. }
  split; [lia|]. split.
  - intros J. apply (Q c); [|reflexivity]. cbn in J |- *. tauto.
  - intros _. apply Q. cbn. tauto.
Qed.
Definition plain_entryb (ep : entry_point) : bool := forallb (fun s => match s with Val c => plain_constb c | Var => true end) ep.
Lemma plain_entryb_ok ep : plain_entryb ep = true -> @plain_entry ex_url ep.
Proof.
  unfold plain_entryb. rewrite forallb_forall. intros F c I. apply plain_constb_ok. apply (F _ I).
Qed.
