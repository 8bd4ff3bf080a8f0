(** * The names of the library's statuses are the standard ones (C20). *)
From Verif Require Import Base Status StatusSpec.
Open Scope N_scope.

(** The names, computed from the phrases. *)
Definition standard_names : list (N * ustr) :=
  map (fun p => (fst p, if fst p =? 417 then u "ExceptionFailed" else camel true (snd p))) (filter (fun p => negb (existsb (N.eqb (fst p)) missing)) registry).
Lemma table_is_standard : code_table = standard_names.
Proof. vm_compute. reflexivity. Qed.
Lemma named_iff c x : status_named c x <-> In (c, x) standard_names.
Proof.
  unfold status_named, standard_names. rewrite in_map_iff. assert (E : forall n, negb (existsb (N.eqb n) missing) = true <-> ~ In n missing).
  { intros n. rewrite negb_true_iff, <- not_true_iff_false, existsb_exists. split; intros A B; apply A.
    - exists n. split; [exact B | apply N.eqb_refl].
    - destruct B as (m & I & Q). apply N.eqb_eq in Q. subst. exact I. }
  split.
  - intros (p & I & M & ->). exists (c, p). split; [reflexivity|]. apply filter_In. split; [exact I | apply E, M].
  - intros ([d p] & Q & I). cbn [fst snd] in Q. injection Q as -> <-. apply filter_In in I. destruct I as [I M]. exists p. split; [exact I|]. split; [apply E, M | reflexivity].
Qed.
Lemma lookup_code_In c x : forall l, lookup_code c l = Ok x -> In (c, x) l.
Proof. induction l as [|[d y] l IH]; cbn; [discriminate|]. destruct (N.eqb_spec c d) as [->|]; [intros [= ->]; auto | auto]. Qed.
Lemma In_lookup_code c x : forall l, NoDup (map fst l) -> In (c, x) l -> lookup_code c l = Ok x.
Proof.
  induction l as [|[d y] l IH]; cbn; [contradiction|]. intros N I. inversion N as [|? ? N1 N2]; subst. destruct (N.eqb_spec c d) as [->|D].
  - destruct I as [[= ->]|I]; [reflexivity|]. elim N1. apply (in_map fst) in I. exact I.
  - destruct I as [[= -> ->]|I]; [congruence | auto].
Qed.
Lemma codes_once : NoDup (map fst code_table).
Proof.
  assert (D : forall l, (fix nd (l : list N) : bool := match l with [] => true | a :: r => negb (existsb (N.eqb a) r) && nd r end) l = true -> NoDup l).
  { induction l as [|a l IH]; intros E; constructor; apply andb_prop in E; [|apply IH, E]. destruct E as [E _]. intros I. apply negb_true_iff in E.
    assert (X : existsb (N.eqb a) l = true) by (apply existsb_exists; exists a; split; [exact I | apply N.eqb_refl]). congruence. }
  apply D. vm_compute. reflexivity.
Qed.
Theorem code_named c x : status_code_to_str c = Ok x <-> status_named c x.
Proof.
  rewrite named_iff, <- table_is_standard. unfold status_code_to_str. split; [apply lookup_code_In | apply In_lookup_code, codes_once].
Qed.
