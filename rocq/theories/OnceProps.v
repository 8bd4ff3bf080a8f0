(** * Property C69: the base URL is made once, read without a race, and every parse of a target uses it. *)
From Verif Require Import Base Serde DepUrl Once OnceSpec OnceProofs Exhibit.
Open Scope nat_scope.

(** Whatever threads call, whenever, and however their steps interleave: a call that returns returns what parsing against the one base URL gives, and its read of the cell is
    ordered after the write. *)
Theorem C69_calls_use_the_base (U R : Type) (b : U) (parse : option U -> ustr -> R) l r :
  In r (m_rets (actions (Some b) parse l mem_new)) -> r_result r = parse (Some b) (r_target r) /\ r_ordered r = true.
Proof. exact (rets_fine (Some b) parse b eq_refl l r). Qed.
Print Assumptions C69_calls_use_the_base.

(** No write to the cell can happen at the same time as a read or another write. *)
Theorem C69_no_data_race (U R : Type) (b : U) (parse : option U -> ustr -> R) l : ~ data_race (actions (Some b) parse l mem_new).
Proof. exact (no_race (Some b) parse b eq_refl l). Qed.
Print Assumptions C69_no_data_race.

(** At most one URL is put in memory for good, the cell is written only then, and once a call has returned there is one. *)
Theorem C69_made_once (U R : Type) (b : U) (parse : option U -> ustr -> R) l : let m := actions (Some b) parse l mem_new in
  m_made m = m_written m /\ m_made m <= 1 /\ m_cell m = (if m_made m then None else Some b) /\ (m_rets m <> [] -> m_made m = 1).
Proof. exact (made_once (Some b) parse b eq_refl l). Qed.
Print Assumptions C69_made_once.

(** Nobody panics, and the cell does not change any more. *)
Theorem C69_for_good (U R : Type) (b : U) (parse : option U -> ustr -> R) l l' t :
  m_pc (actions (Some b) parse l mem_new) t <> Unwound /\
  (m_cell (actions (Some b) parse l mem_new) = Some b -> m_cell (actions (Some b) parse (l ++ l') mem_new) = Some b).
Proof. exact (conj (nobody_unwound (Some b) parse b eq_refl l t) (cell_stays (Some b) parse b eq_refl l l')). Qed.
Print Assumptions C69_for_good.

(** Threads that wait for the initialisation do not wait for ever: if every thread takes steps again and again, every call returns. *)
Theorem C69_calls_return (U R : Type) (b : U) (parse : option U -> ustr -> R) sched t n : turns_for_all sched ->
  m_pc (mem_at (Some b) parse sched n) t <> Away ->
  exists m, n <= m /\ returned t (m_rets (mem_at (Some b) parse sched n)) < returned t (m_rets (mem_at (Some b) parse sched m)).
Proof. exact (fun f => calls_return (Some b) parse b eq_refl sched f t n). Qed.
Print Assumptions C69_calls_return.

(** Were the base URL not parsable, no call would return: the first to try panics, and so do the others; the cell is never read. *)
Theorem C69_without_a_base (U R : Type) (parse : option U -> ustr -> R) l :
  m_rets (actions None parse l mem_new) = [] /\ forall t, ~ about_to_read t (actions None parse l mem_new).
Proof. exact (nothing_read parse l). Qed.
Print Assumptions C69_without_a_base.

(** The text in the code is parsable: all that it needs is that "foo" is a host. *)
Theorem C69_the_base_is_parsable (E : urlenv) : host_ok true (u "foo") = true -> parse_url (u "http://foo/") = Some (mkUrl (Some [[]]) None).
Proof. exact (base_parsable E). Qed.
Print Assumptions C69_the_base_is_parsable.

(** Three threads; thread 1 runs the closure while 0 and 2 wait. *)
Definition ex_parse (E : urlenv) (b : option url) (x : ustr) : option url := match b with Some _ => parse_url x | None => None end.
Definition ex_threads : list act :=
  [Calls 0 (u "/a"); Calls 1 (u "/b?c"); Steps 1; Calls 2 (u "/d"); Steps 0; Steps 2; Steps 1; Steps 0; Steps 1; Steps 2; Steps 1; Steps 0; Steps 2; Steps 2; Steps 0; Steps 1; Calls 1 (u "/e"); Steps 1; Steps 1].
Example C69_case : let E := ex_url in exists b, parse_url (u "http://foo/") = Some b /\ host_ok true (u "foo") = true /\
  map (fun r => (r_thread r, r_target r, r_result r, r_ordered r)) (m_rets (actions (Some b) (ex_parse E) ex_threads mem_new)) =
    [(1, u "/e", parse_url (u "/e"), true); (1, u "/b?c", parse_url (u "/b?c"), true); (0, u "/a", parse_url (u "/a"), true); (2, u "/d", parse_url (u "/d"), true)] /\
  (let m := actions (Some b) (ex_parse E) (firstn 8 ex_threads) mem_new in
   m_pc m 0 = Entering (u "/a") /\ about_to_write 1 m /\ m_pc m 2 = Entering (u "/d") /\ m_made m = 0) /\
  m_made (actions (Some b) (ex_parse E) ex_threads mem_new) = 1.
Proof. intros E. eexists. split; [vm_compute; reflexivity|]. split; [vm_compute; reflexivity|]. split; [vm_compute; reflexivity|]. split; [|vm_compute; reflexivity]. split; [reflexivity|]. split; [eexists; eexists; vm_compute; reflexivity|]. split; reflexivity. Qed.

(** All threads in turn: 0; 0, 1, 2; 0, 1, 2, 3, 4; and so on. *)
Definition ex_all (n : nat) : act := match n with 0 => Calls 0 (u "/a") | 1 => Calls 1 (u "/b") | _ => Steps (n - Nat.sqrt n * Nat.sqrt n) end.
Example C69_fair_case : let E := ex_url in let b := mkUrl (Some [[]]) None in turns_for_all ex_all /\
  m_pc (mem_at (Some b) (ex_parse E) ex_all 17) 0 = Entering (u "/a") /\ returned 0 (m_rets (mem_at (Some b) (ex_parse E) ex_all 17)) = 0 /\ returned 0 (m_rets (mem_at (Some b) (ex_parse E) ex_all 40)) = 1.
Proof.
  intros E b. split; [|split; [|split]; vm_compute; reflexivity]. intros t n. set (k := S (S (n + t))). exists (k * k + t). split; [subst k; nia|].
  assert (Q : Nat.sqrt (k * k + t) = k) by (apply Nat.sqrt_unique; subst k; nia). unfold ex_all. rewrite Q. replace (k * k + t - k * k) with t by lia.
  destruct (k * k + t) as [|[|m]] eqn:Z; [subst k; nia | subst k; nia | reflexivity].
Qed.
