(** * Calls whose request suits a procedure of the server come to its answer, if nothing goes wrong. *)
From Verif Require Import Base Utf8 Decimal DepUrl Serde Procedure FieldSpec Status SerHeader SerRequest SerResponse DeHeader DeRequest DeResponse Router RouterSpec DepHttp
  Error Client ClientSpec Server ServerSpec EndToEndSpec SessionSpec SessionProofs Pool PoolSystem PoolSystemSpec PoolSystemProofs PoolSystemInv PoolSystemGone PoolSystemReport
  PoolAnswerSpec PoolAnswer PoolCauseSpec PoolCause PoolReceivedSpec PoolReceived.
From Verif Require PoolFairSpec PoolFair.
Open Scope nat_scope.

(** ** In general *)
Section General.
Context {F : floatlib} {U : urlenv} (tmax : Z) (checks : bool).
Lemma prun_app l1 : forall l2 s, fst (prun tmax checks (l1 ++ l2) s) = fst (prun tmax checks l2 (fst (prun tmax checks l1 s))).
Proof.
  induction l1 as [|l l1 IH]; intros l2 s; [reflexivity|]. cbn [app prun]. destruct (pstep tmax checks l s) as [[s1 t]|]; [|apply IH].
  specialize (IH l2 s1). destruct (prun tmax checks (l1 ++ l2) s1), (prun tmax checks l1 s1). exact IH.
Qed.

(** A state that is as it should be, for a call with this answer. *)
Definition well (lg : list (plabel * list pevent)) (i : nat) (o : SessionSpec.answer) (x : cstate) : Prop :=
  match x with
  | Acquiring _ | Talking _ _ => True
  | Finished v b => (v, b) = o
  | Dropped => In (LDrop i, []) lg
  | Broken _ | Panicked => False
  end.
Lemma well_served_by ls size d s tr i pc o : prun tmax checks ls (psys_new size d) = (s, tr) ->
  Forall goes_well (plog tmax checks ls (psys_new size d)) -> (checks = false \/ given_back tr < 2 ^ 64)%N -> nth_error (s_calls s) i = Some pc ->
  (exists r, encoding pc = Ok r) ->
  (forall x b, received (pr_method (c_proc pc)) (plog tmax checks ls (psys_new size d)) i x b -> decoding_of pc x = Ok (fst o) /\ b = snd o) ->
  well (plog tmax checks ls (psys_new size d)) i o (c_state pc).
Proof.
  intros Er Fw Sm En [r Ee] Own.
  pose proof (explained_all tmax checks ls size d s tr i pc Er En) as X. unfold explained in X. unfold well. destruct (c_state pc) as [a|c k|v b|k| |] eqn:Es; try exact I.
  - destruct X as (x & Re & De). destruct (Own x b Re) as [Q ->]. destruct o as [v0 b0]. cbn [fst snd] in *. congruence.
  - destruct (well_broken tmax checks ls size d s tr i pc k Er Fw Sm En Es) as [Q|(x & b & Re & De)]; [congruence|]. destruct (Own x b Re) as [Q _]. congruence.
  - exact X.
  - destruct X as [X|(x & b & Re & X)]; apply X; [rewrite Ee; exact I|]. destruct (Own x b Re) as [-> _]. exact I.
Qed.
Lemma in_the_end_by (sched : nat -> plabel) size d i n0 pc o :
  (forall n, honest_label (sched n)) -> (forall n, PoolFairSpec.answering_label (sched n)) ->
  PoolFairSpec.again PoolFairSpec.pool_turn sched -> PoolFairSpec.again (PoolFairSpec.poll_of i) sched -> (forall n, ~ PoolFairSpec.drop_of i (sched n)) ->
  nth_error (s_calls (PoolFairSpec.at_time tmax checks sched n0 (psys_new size d))) i = Some pc ->
  (forall n pm, n0 <= n -> nth_error (s_calls (PoolFairSpec.at_time tmax checks sched n (psys_new size d))) i = Some pm -> same_job pc pm ->
     well (plog tmax checks (map sched (seq 0 n)) (psys_new size d)) i o (c_state pm)) ->
  exists n', n0 <= n' /\ forall m, n' <= m -> state_of i (PoolFairSpec.at_time tmax checks sched m (psys_new size d)) = Some (Finished (fst o) (snd o)).
Proof.
  intros Ho An Pt Po Nd En We.
  destruct (PoolFair.fair_ends tmax checks sched (psys_new size d) (fun _ => eq_refl) eq_refl An i Pt Po n0) as (n' & L & Ov).
  { unfold state_of. rewrite En. discriminate. }
  exists n'. split; [exact L|]. intros m Lm. specialize (Ov m Lm). pose proof (PoolFair.never_dropped tmax checks sched (psys_new size d) eq_refl i m Nd) as Ndr.
  assert (Fh : forall n, Forall honest_label (map sched (seq 0 n))) by (intros n; apply Forall_forall; intros l I; apply in_map_iff in I; destruct I as (k & <- & _); apply Ho).
  assert (Jo : exists pm, nth_error (s_calls (PoolFairSpec.at_time tmax checks sched m (psys_new size d))) i = Some pm /\ same_job pc pm).
  { unfold PoolFairSpec.at_time in *. replace m with (n0 + (m - n0)) by lia. rewrite seq_app, map_app, prun_app. cbn [Nat.add].
    assert (Fh2 : Forall honest_label (map sched (seq n0 (m - n0)))) by (apply Forall_forall; intros l I; apply in_map_iff in I; destruct I as (k & <- & _); apply Ho).
    pose proof (invA_run tmax checks (map sched (seq 0 n0)) _ _ (Fh n0) (invA_new size d)) as A.
    destruct (prun tmax checks (map sched (seq 0 n0)) (psys_new size d)) as [s1 t1]. cbn [fst snd app] in *.
    pose proof (run_job tmax checks (map sched (seq n0 (m - n0))) s1 _ i pc Fh2 A En) as Q. destruct (prun tmax checks (map sched (seq n0 (m - n0))) s1) as [s2 t2]. exact Q. }
  destruct Jo as (pm & Em & Jm).
  specialize (We m pm ltac:(lia) Em Jm). unfold well in We.
  unfold state_of in *. rewrite Em in *. cbn [option_map] in *. destruct (c_state pm) as [[a|]|c k|v b|k| |]; try contradiction. destruct o as [v0 b0]. injection We as -> ->. reflexivity.
Qed.
End General.

Section Theorems.
Context {F : floatlib} {U : urlenv} {W : httpenv} {SConn R : Type}.
Variable explain : request SConn -> ekind -> ustr * option ustr * option (list ustr).
Variable reason : status -> ustr.
Variables (ln : link SConn) (ps : saddr -> list (hproc SConn R)) (near : conn -> SConn).
Variables (queue : SConn -> list asking) (content : SConn -> bytes).
Variables (tmax : Z) (checks : bool).

Lemma reply_meant pc x b o : own_reply explain reason ln ps content pc x b -> meant explain reason ln (ps (c_addr pc)) queue content (job_of pc) o ->
  decoding_of pc x = Ok (fst o) /\ b = snd o.
Proof.
  intros (r & q & s' & h & b0 & E1 & E2 & E3 & [E4 E5] & E6) (r' & M1 & M2). cbn [job_of e_proc e_value e_body] in *. rewrite E1 in M1. injection M1 as <-.
  destruct (M2 q E2) as (s1 & h1 & b1 & hs & Q1 & _ & Q2 & Q3 & Q4). rewrite E3 in Q1. injection Q1 as <- <- <-. unfold decoding_of. rewrite E4, (E5 hs Q2). split; [exact Q3|]. congruence.
Qed.
Lemma meant_encodes pc o : meant explain reason ln (ps (c_addr pc)) queue content (job_of pc) o -> exists r, encoding pc = Ok r.
Proof. intros (r & E & _). exists r. exact E. Qed.

(** ** Up to any time *)
Theorem well_served ls size d s tr i pc o : prun tmax checks ls (psys_new size d) = (s, tr) -> Forall honest_label ls -> reading ln ps queue content ->
  untroubled explain reason ln ps near queue checks s (plog tmax checks ls (psys_new size d)) ->
  nth_error (s_calls s) i = Some pc -> SessionSpec.served (ps (c_addr pc)) queue content (job_of pc) o ->
  match c_state pc with
  | Acquiring _ | Talking _ _ => True
  | Finished v b => (v, b) = o
  | Dropped => In (LDrop i, []) (plog tmax checks ls (psys_new size d))
  | Broken _ | Panicked => False
  end.
Proof.
  intros Er Fh Rd (Ta & Sm & Fw & Ag & Or) En Se. pose proof (served_meant explain reason ln (ps (c_addr pc)) queue content _ _ Se) as Me.
  assert (Et : concat (map snd (plog tmax checks ls (psys_new size d))) = tr) by (rewrite <- prun_log, Er; reflexivity). rewrite Et in *.
  assert (Own : forall x b, received (pr_method (c_proc pc)) (plog tmax checks ls (psys_new size d)) i x b -> decoding_of pc x = Ok (fst o) /\ b = snd o).
  { intros x b Re. apply (reply_meant pc x b o); [|exact Me]. exact (own_received explain reason ln ps near queue content tmax checks ls size d s tr i pc x b Er Fh Ta Rd Ag Or En Re). }
  exact (well_served_by tmax checks ls size d s tr i pc o Er Fw Sm En (meant_encodes pc o Me) Own).
Qed.

(** ** In the end *)
Theorem served_in_the_end (sched : nat -> plabel) size d i n0 pc o :
  (forall n, honest_label (sched n)) -> (forall n, PoolFairSpec.answering_label (sched n)) ->
  PoolFairSpec.again PoolFairSpec.pool_turn sched -> PoolFairSpec.again (PoolFairSpec.poll_of i) sched -> (forall n, ~ PoolFairSpec.drop_of i (sched n)) ->
  reading ln ps queue content ->
  (forall n, n0 <= n -> untroubled explain reason ln ps near queue checks (PoolFairSpec.at_time tmax checks sched n (psys_new size d)) (plog tmax checks (map sched (seq 0 n)) (psys_new size d))) ->
  nth_error (s_calls (PoolFairSpec.at_time tmax checks sched n0 (psys_new size d))) i = Some pc -> SessionSpec.served (ps (c_addr pc)) queue content (job_of pc) o ->
  exists n', n0 <= n' /\ forall m, n' <= m -> state_of i (PoolFairSpec.at_time tmax checks sched m (psys_new size d)) = Some (Finished (fst o) (snd o)).
Proof.
  intros Ho An Pt Po Nd Rd Un En Se. apply (in_the_end_by tmax checks sched size d i n0 pc o Ho An Pt Po Nd En). intros n pm Ln Em (J1 & J2 & J3).
  assert (Fh : Forall honest_label (map sched (seq 0 n))) by (apply Forall_forall; intros l I; apply in_map_iff in I; destruct I as (k & <- & _); apply Ho).
  assert (Se' : SessionSpec.served (ps (c_addr pm)) queue content (job_of pm) o) by (unfold job_of in *; rewrite <- J1, <- J2, <- J3; exact Se).
  exact (well_served (map sched (seq 0 n)) size d _ _ i pm o (surjective_pairing _) Fh Rd (Un n Ln) Em Se').
Qed.
End Theorems.
