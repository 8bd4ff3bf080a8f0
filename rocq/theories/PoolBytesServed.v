(** * Calls through a pool over bytes: every call gets its own answer, and in the end does get it (C73). *)
From Verif Require Import Base Utf8 Decimal DepUrl Serde Procedure FieldSpec Status SerHeader SerRequest SerResponse DeHeader DeRequest DeResponse Router RouterSpec RouterProofs DepHttp
  Error Client ClientSpec ClientProofs Server ServerSpec ServerProofs EndToEndSpec SessionSpec Pool PoolSpec PoolProofs PoolSystem PoolSystemSpec PoolSystemProofs PoolSystemInv PoolSystemAddr PoolSystemGone
  PoolAnswerSpec PoolAnswer PoolSystemReport PoolCauseSpec PoolCause PoolReceivedSpec PoolReceived PoolServed HttpBytes HttpBytesSpec PoolBytesSpec PoolBytes.
From Verif Require PoolFairSpec.
Open Scope nat_scope.

(** ** The theorems *)
Section Theorems.
Context {F : floatlib} {U : urlenv} {R : Type}.
Variable explain : request bconn -> ekind -> ustr * option ustr * option (list ustr).
Variable reason : status -> ustr.
Variables (trims : bool) (uri_byte : N -> bool) (cl sl : limits).
Variables (ps : saddr -> list (hproc bconn R)) (far near : conn -> bconn).
Variables (tmax : Z) (checks : bool).
Notation ln := (byte_link trims uri_byte sl).
Notation over_tcp := (over_tcp explain reason trims uri_byte cl sl ps far near).
Notation own_reply_bytes := (own_reply_bytes explain reason trims uri_byte sl ps).

Lemma replies_answer s lg : over_tcp s lg -> let tr := concat (map snd lg) in
  forall a c n h bo y, In (EOpen c a) tr -> nth_reply explain reason ln ps near a c n h bo -> nth_error (asked_on s c tr) n = Some y ->
  exists q s' b0, arrives_as y q /\ reply_to explain reason ln (ps a) q = Sends s' h b0 /\ bo = match a_method y with MHead => None | _ => Some b0 end.
Proof.
  intros O tr a c n h bo y Op [k E] Ey.
  exact (dialogue_bytes explain reason trims uri_byte sl (ps a) (ot_takes _ _ _ _ _ _ _ _ _ _ _ O a) _ _ (rounds_dialogue explain reason ln (ps a) k (Ready (near c))) (near c) n h bo _ y eq_refl
    (ot_near _ _ _ _ _ _ _ _ _ _ _ O c) (ot_asked _ _ _ _ _ _ _ _ _ _ _ O c) E Ey).
Qed.
Theorem bytes_orderly ls size d s tr : prun tmax checks ls (psys_new size d) = (s, tr) -> Forall honest_label ls -> over_tcp s (plog tmax checks ls (psys_new size d)) ->
  @orderly F U same_http bconn R explain reason ln ps near (fun c a => In (EOpen c a) tr) [] (plog tmax checks ls (psys_new size d)).
Proof.
  intros Er Fh O. assert (Et : concat (map snd (plog tmax checks ls (psys_new size d))) = tr) by (rewrite <- prun_log, Er; reflexivity).
  pose proof (replies_answer s _ O) as An. cbv zeta in An. rewrite Et in An.
  apply (invK_run explain reason trims uri_byte cl sl ps far near tmax checks (fun c a => In (EOpen c a) tr) s tr An) with (st := far).
  - intros c a n h b Op. pose proof (ot_replied _ _ _ _ _ _ _ _ _ _ _ O c a n h b) as Q. rewrite Et in Q. exact (Q Op).
  - intros c a Op. cbn [skipn]. apply (ot_far _ _ _ _ _ _ _ _ _ _ _ O). rewrite Et. exact Op.
  - exact Fh.
  - exact (invA_new size d).
  - apply invK_new. intros c a Op. cbn [skipn]. apply (ot_far _ _ _ _ _ _ _ _ _ _ _ O). rewrite Et. exact Op.
  - rewrite Er. reflexivity.
  - rewrite Er. reflexivity.
  - exact (ot_read _ _ _ _ _ _ _ _ _ _ _ O).
Qed.
Theorem own_replies ls size d s tr i pc x b : prun tmax checks ls (psys_new size d) = (s, tr) -> Forall honest_label ls -> told_apart checks s tr ->
  over_tcp s (plog tmax checks ls (psys_new size d)) ->
  nth_error (s_calls s) i = Some pc -> received (pr_method (c_proc pc)) (plog tmax checks ls (psys_new size d)) i x b -> own_reply_bytes pc (r_code x) (r_headers x) b.
Proof.
  intros Er Fh Ta O En Re. assert (Et : concat (map snd (plog tmax checks ls (psys_new size d))) = tr) by (rewrite <- prun_log, Er; reflexivity).
  pose proof (replies_answer s _ O) as An. cbv zeta in An. rewrite Et in An.
  destruct (@own_received_by F U same_http bconn R explain reason ln ps near tmax checks arrives_as ls size d s tr i pc x b Er Fh Ta An (bytes_orderly ls size d s tr Er Fh O) En Re)
    as (r & q & s' & h & b0 & E1 & E2 & E3 & [E4 E5] & E6).
  exists r, q, s', h, b0. repeat (split; [first [exact E1 | exact E2 | exact E3 | exact E4 | exact (E5 _ eq_refl)]|]). exact E6.
Qed.
Theorem own_answers_bytes ls size d s tr i pc v b : prun tmax checks ls (psys_new size d) = (s, tr) -> Forall honest_label ls -> told_apart checks s tr ->
  over_tcp s (plog tmax checks ls (psys_new size d)) ->
  nth_error (s_calls s) i = Some pc -> c_state pc = Finished v b ->
  exists code hs, own_reply_bytes pc code hs b /\ de_response code hs (pr_resp (c_proc pc)) = Ok v.
Proof.
  intros Er Fh Ta O En Es. pose proof (explained_all tmax checks ls size d s tr i pc Er En) as X. unfold explained in X. rewrite Es in X. destruct X as (x & Re & De).
  exists (r_code x), (r_headers x). split; [exact (own_replies ls size d s tr i pc x b Er Fh Ta O En Re) | exact De].
Qed.

(** ** Calls whose request suits a procedure of the server *)
Lemma reply_exchanged pc code hs b o : own_reply_bytes pc code hs b -> exchanged explain reason trims uri_byte cl sl (ps (c_addr pc)) (job_of pc) o ->
  de_response code hs (pr_resp (c_proc pc)) = Ok (fst o) /\ b = snd o.
Proof.
  intros (r & q & s' & h & b0 & E1 & (Q1 & Q2 & Q3 & z & Q4) & E3 & -> & -> & ->) (r' & M1 & _ & M2). cbn [job_of e_proc e_value e_body a_method a_request a_body] in *. rewrite E1 in M1. injection M1 as <-.
  destruct (M2 q z Q1 Q2 Q3 Q4) as (s1 & h1 & b1 & P1 & _ & _ & P2 & P3). rewrite E3 in P1. injection P1 as <- <- <-. auto.
Qed.
Theorem well_served_bytes ls size d s tr i pc o : prun tmax checks ls (psys_new size d) = (s, tr) -> Forall honest_label ls ->
  untroubled_bytes explain reason trims uri_byte cl sl ps far near checks s (plog tmax checks ls (psys_new size d)) ->
  nth_error (s_calls s) i = Some pc -> exchanged explain reason trims uri_byte cl sl (ps (c_addr pc)) (job_of pc) o ->
  well (plog tmax checks ls (psys_new size d)) i o (c_state pc).
Proof.
  intros Er Fh (Ta & Sm & Fw & O) En Ex. assert (Et : concat (map snd (plog tmax checks ls (psys_new size d))) = tr) by (rewrite <- prun_log, Er; reflexivity). rewrite Et in *.
  apply (well_served_by tmax checks ls size d s tr i pc o Er Fw Sm En).
  - destruct Ex as (r & E & _). exists r. exact E.
  - intros x b Re. exact (reply_exchanged pc _ _ b o (own_replies ls size d s tr i pc x b Er Fh Ta O En Re) Ex).
Qed.
Theorem served_in_the_end_bytes (sched : nat -> plabel) size d i n0 pc o :
  (forall n, honest_label (sched n)) -> (forall n, PoolFairSpec.answering_label (sched n)) ->
  PoolFairSpec.again PoolFairSpec.pool_turn sched -> PoolFairSpec.again (PoolFairSpec.poll_of i) sched -> (forall n, ~ PoolFairSpec.drop_of i (sched n)) ->
  (forall n, n0 <= n -> untroubled_bytes explain reason trims uri_byte cl sl ps far near checks (PoolFairSpec.at_time tmax checks sched n (psys_new size d)) (plog tmax checks (map sched (seq 0 n)) (psys_new size d))) ->
  nth_error (s_calls (PoolFairSpec.at_time tmax checks sched n0 (psys_new size d))) i = Some pc -> exchanged explain reason trims uri_byte cl sl (ps (c_addr pc)) (job_of pc) o ->
  exists n', n0 <= n' /\ forall m, n' <= m -> state_of i (PoolFairSpec.at_time tmax checks sched m (psys_new size d)) = Some (Finished (fst o) (snd o)).
Proof.
  intros Ho An Pt Po Nd Un En Ex. apply (in_the_end_by tmax checks sched size d i n0 pc o Ho An Pt Po Nd En). intros n pm Ln Em (J1 & J2 & J3).
  assert (Fh : Forall honest_label (map sched (seq 0 n))) by (apply Forall_forall; intros l I; apply in_map_iff in I; destruct I as (k & <- & _); apply Ho).
  apply (well_served_bytes (map sched (seq 0 n)) size d _ _ i pm o (surjective_pairing _) Fh (Un n Ln) Em). unfold job_of in *. rewrite <- J1, <- J2, <- J3. exact Ex.
Qed.
End Theorems.
