(** * Which calls through a pool are run by servers: proofs (C92). *)
From Verif Require Import Base Serde Procedure Router SerRequest DepUrl Error Client SessionSpec Pool PoolSystem PoolSystemSpec PoolSystemProofs PoolSystemGone PoolAnswerSpec PoolOnceSpec.
Open Scope nat_scope.

Lemma writers_app a b : writers (a ++ b) = writers a ++ writers b.
Proof. apply flat_map_app. Qed.
Lemma writers_on_app c a b : writers_on c (a ++ b) = writers_on c a ++ writers_on c b.
Proof. apply flat_map_app. Qed.

Section Once.
Context `{floatlib} `{urlenv}.

(** ** One poll of a call *)
Definition past_a (k : call conn) : Prop := match k_phase k with PhA _ => False | _ => True end.
Definition no_write (l : list (act conn)) : Prop := forall r b c, ~ In (Write r b c) l.
Definition pends_past (o : res (outcome conn)) : Prop := match o with Ok (Pending k) => past_a k | _ => True end.
Lemma poll_past w p : forall fuel k, past_a k -> no_write (fst (poll w p fuel k)) /\ pends_past (snd (poll w p fuel k)).
Proof.
  induction fuel as [|fuel IH]; intros [rq ph] K; [split; [intros r b c []|exact I]|]. cbn [poll k_phase k_request]. unfold past_a in K. cbn [k_phase] in K.
  assert (Nil : no_write []) by (intros r b c []).
  destruct ph as [f|f|f|f]; [contradiction| | |]; cbn [phase_poll]; destruct f as [x|e|f|]; cbn [fpoll]; try (split; [exact Nil | exact I]).
  - destruct (IH (mkCall rq (PhC (w_head w x))) I) as [A B]. destruct (poll w p fuel _) as [t o]. cbn [fst snd] in *. split; [|exact B]. intros r b c [E|E]; [discriminate | exact (A r b c E)].
  - destruct (is_head p).
    + exact (IH (mkCall rq (PhD (Ready (x, [])))) I).
    + destruct (IH (mkCall rq (PhD (w_body w x))) I) as [A B]. destruct (poll w p fuel _) as [t o]. cbn [fst snd] in *. split; [|exact B]. intros r b c [E|E]; [discriminate | exact (A r b c E)].
  - destruct x as [r b]. cbn [fst snd]. split; [exact Nil|]. destruct (on_received p r); exact I.
Qed.
Lemma poll_first w p v b c : let '(t, o) := poll_call w p (call_new (v, b) (Ready c)) in pends_past o /\
  (no_write t \/ exists r t', encode_request (pr_entry p) v (N.of_nat (length b)) = Ok r /\ t = Write r b c :: t' /\ no_write t').
Proof.
  unfold poll_call, call_new. change (poll w p 5 ?k) with (poll w p (S 4) k). remember 4 as fuel eqn:Ef. clear Ef. cbn [poll k_phase phase_poll fpoll k_request on_connected].
  destruct (encode_request _ _ _) as [r|e| |]; cbn [bind].
  - destruct (poll_past w p fuel (mkCall None (PhB (w_write w r b c))) I) as [A B]. destruct (poll w p fuel _) as [t o]. cbn [fst snd] in *. split; [exact B|]. right. eauto.
  - split; [exact I|]. left. intros ? ? ? [].
  - split; [exact I|]. left. intros ? ? ? [].
  - split; [exact I|]. left. intros ? ? ? [].
Qed.
Lemma no_write_writers i t : no_write t -> writers (map (EAct i) t) = [].
Proof.
  induction t as [|a t IH]; intros N; [reflexivity|]. cbn [map]. unfold writers in *. cbn [flat_map]. rewrite IH by (intros r b c I; exact (N r b c (or_intror I))).
  destruct a as [r b c|c|x]; try reflexivity. exfalso. exact (N r b c (or_introl eq_refl)).
Qed.

(** ** The state of the system *)
Definition may_write (s : psys) (i : nat) : Prop := match nth_error (s_calls s) i with None => True | Some pc => match c_state pc with Acquiring _ => True | _ => False end end.
Definition talks_past (s : psys) : Prop := forall i pc c k, nth_error (s_calls s) i = Some pc -> c_state pc = Talking c k -> past_a k.
Definition jobs (s s' : psys) : Prop := forall i pc, nth_error (s_calls s) i = Some pc -> exists pc', nth_error (s_calls s') i = Some pc' /\ same_job pc pc'.
(** What one step does. *)
Inductive stepped (s s' : psys) (t : list pevent) : Prop :=
| SQuiet : writers t = [] -> (forall i, may_write s' i -> may_write s i) -> stepped s s' t
| SWrites i pc r b c t1 t2 : nth_error (s_calls s) i = Some pc -> encode_request (pr_entry (c_proc pc)) (fst (c_req pc)) (N.of_nat (length (snd (c_req pc)))) = Ok r -> b = snd (c_req pc) ->
    t = t1 ++ EAct i (Write r b c) :: t2 -> writers t1 = [] -> writers t2 = [] -> may_write s i -> ~ may_write s' i -> (forall j, may_write s' j -> may_write s j) -> stepped s s' t.

Lemma send_calls c s : s_calls (send c s) = s_calls s.
Proof. unfold send. destruct (s_pool s); reflexivity. Qed.
Lemma set_may i x l op q p s : (match x with Acquiring _ => False | _ => True end) -> s_calls s = l -> nth_error l i <> None ->
  (forall j, may_write (mkPsys p q (set_state i x l) op) j -> may_write s j) /\ ~ may_write (mkPsys p q (set_state i x l) op) i.
Proof.
  intros Nx <- Ni. unfold may_write. cbn [s_calls]. split.
  - intros j. rewrite set_nth. destruct (nth_error (s_calls s) j) as [pc|]; [|auto]. destruct (Nat.eqb i j); cbn [option_map c_state]; [|auto]. destruct x; tauto.
  - rewrite set_nth, Nat.eqb_refl. destruct (nth_error (s_calls s) i); [|congruence]. cbn [option_map c_state]. destruct x; tauto.
Qed.
Lemma set_past i x s op q p : talks_past s -> (forall c k, x = Talking c k -> past_a k) -> talks_past (mkPsys p q (set_state i x (s_calls s)) op).
Proof.
  intros T X j pc c k E Es. cbn [s_calls] in E. rewrite set_nth in E. destruct (nth_error (s_calls s) j) as [pc0|] eqn:E0; [|destruct (Nat.eqb i j); discriminate].
  destruct (Nat.eqb i j); cbn [option_map] in E; injection E as <-; [exact (X c k Es) | exact (T j pc0 c k E0 Es)].
Qed.
Lemma set_jobs i x s op q p : jobs s (mkPsys p q (set_state i x (s_calls s)) op).
Proof. intros j pc E. cbn [s_calls]. destruct (set_job i x (s_calls s) j pc E) as (pc' & E' & J & _). eauto. Qed.
Lemma same_calls s s' : s_calls s' = s_calls s -> talks_past s -> talks_past s' /\ jobs s s' /\ (forall i, may_write s' i -> may_write s i).
Proof.
  intros E T. unfold talks_past, jobs, may_write. rewrite E. split; [exact T|]. split; [|auto]. intros i pc I. exists pc. split; [exact I | repeat split].
Qed.
(** After the inner call was polled. *)
Lemma inner_step i pc c r s : nth_error (s_calls s) i <> None -> talks_past s -> pends_past (snd r) ->
  let '(s', t) := inner_result i pc c r s in
  talks_past s' /\ jobs s s' /\ (forall j, may_write s' j -> may_write s j) /\ ~ may_write s' i /\ exists t2, t = map (EAct i) (fst r) ++ t2 /\ writers t2 = [].
Proof.
  intros Ni T P. destruct r as [t o]. cbn [fst snd] in *.
  assert (G : forall x, (match x with Acquiring _ => False | _ => True end) -> (forall d k, x = Talking d k -> past_a k) -> forall s', s_calls s' = set_state i x (s_calls s) ->
    talks_past s' /\ jobs s s' /\ (forall j, may_write s' j -> may_write s j) /\ ~ may_write s' i).
  { intros x X1 X2 s' E. pose proof (set_past i x s (s_opened s) (s_queue s) (s_pool s) T X2) as A. pose proof (set_jobs i x s (s_opened s) (s_queue s) (s_pool s)) as B.
    pose proof (set_may i x (s_calls s) (s_opened s) (s_queue s) (s_pool s) s X1 eq_refl Ni) as C.
    unfold talks_past, jobs, may_write in *. cbn [s_calls] in A, B, C. rewrite E. tauto. }
  unfold inner_result. destruct o as [[k|v b c']|k| |].
  - destruct (G (Talking c k) I (fun d k' E => ltac:(injection E as <- <-; exact P)) (put_state i (Talking c k) s) eq_refl) as (A & B & C & D). split; [exact A|]. split; [exact B|]. split; [exact C|]. split; [exact D|]. exists []. split; [symmetry; apply app_nil_r | reflexivity].
  - destruct (G (Finished v b) I ltac:(discriminate) (send (ReleaseConnection (c_addr pc) c') (put_state i (Finished v b) s)) (send_calls _ _)) as (A & B & C & D). split; [exact A|]. split; [exact B|]. split; [exact C|]. split; [exact D|]. eexists. split; reflexivity.
  - destruct (G (Broken k) I ltac:(discriminate) (put_state i (Broken k) s) eq_refl) as (A & B & C & D). split; [exact A|]. split; [exact B|]. split; [exact C|]. split; [exact D|]. exists []. split; [symmetry; apply app_nil_r | reflexivity].
  - destruct (G Panicked I ltac:(discriminate) (put_state i Panicked s) eq_refl) as (A & B & C & D). split; [exact A|]. split; [exact B|]. split; [exact C|]. split; [exact D|]. exists []. split; [symmetry; apply app_nil_r | reflexivity].
  - destruct (G Panicked I ltac:(discriminate) (put_state i Panicked s) eq_refl) as (A & B & C & D). split; [exact A|]. split; [exact B|]. split; [exact C|]. split; [exact D|]. exists []. split; [symmetry; apply app_nil_r | reflexivity].
Qed.

Variables (tmax : Z) (checks : bool).
Lemma first_step i pc c w s s0 : nth_error (s_calls s) i = Some pc -> (exists a, c_state pc = Acquiring a) -> s_calls s0 = s_calls s -> talks_past s ->
  forall pre, writers pre = [] ->
  let '(s', t) := inner_result i pc c (poll_call w (c_proc pc) (call_new (c_req pc) (Ready c))) s0 in
  talks_past s' /\ jobs s s' /\ stepped s s' (pre ++ t).
Proof.
  intros Ni [a Es] E0 T pre Wp. destruct (c_req pc) as [v b] eqn:Er. pose proof (poll_first w (c_proc pc) v b c) as P. destruct (poll_call w (c_proc pc) (call_new (v, b) (Ready c))) as [t o] eqn:Ep. destruct P as [Po P].
  assert (T0 : talks_past s0) by (unfold talks_past; rewrite E0; exact T).
  pose proof (inner_step i pc c (t, o) s0 ltac:(rewrite E0, Ni; discriminate) T0 Po) as Q. cbn [fst snd] in Q.
  destruct (inner_result i pc c (t, o) s0) as [s' t'] eqn:Ei. destruct Q as (Q1 & Q2 & Q3 & Q4 & t2 & -> & W2).
  split; [exact Q1|]. split; [unfold jobs in *; rewrite E0 in Q2; exact Q2|].
  assert (Q3' : forall j, may_write s' j -> may_write s j) by (intros j M; specialize (Q3 j M); unfold may_write in *; rewrite E0 in Q3; exact Q3).
  destruct P as [N | (r & t1 & En & -> & N)].
  - apply SQuiet; [|exact Q3']. rewrite !writers_app, Wp, W2, (no_write_writers i t N). reflexivity.
  - apply (SWrites s s' _ i pc r b c pre (map (EAct i) t1 ++ t2)); try assumption.
    + rewrite Er. exact En.
    + rewrite Er. reflexivity.
    + reflexivity.
    + rewrite writers_app, W2, (no_write_writers i t1 N). reflexivity.
    + unfold may_write. rewrite Ni, Es. exact I.
Qed.
Lemma step_once l s s' t : talks_past s -> pstep tmax checks l s = Some (s', t) -> talks_past s' /\ jobs s s' /\ stepped s s' t.
Proof.
  intros T. destruct l as [addr p req|now f| |i w|i]; cbn [pstep].
  - intros [= <- <-]. set (s1 := mkPsys _ _ _ _). assert (E : s_calls (send (AcquireConnection addr (length (s_calls s))) s1) = s_calls s ++ [mkPcall addr p req (Acquiring None)]) by apply send_calls.
    split; [|split].
    + intros j pc c k. rewrite E. intros N. destruct (Nat.lt_ge_cases j (length (s_calls s))) as [L|L].
      * rewrite nth_error_app1 in N by exact L. exact (T j pc c k N).
      * rewrite nth_error_app2 in N by exact L. destruct (j - length (s_calls s)) as [|[|?]]; cbn in N; try discriminate. injection N as <-. discriminate.
    + intros j pc N. exists pc. rewrite E, nth_error_app1 by (apply nth_error_Some; congruence). split; [exact N | repeat split].
    + apply SQuiet; [reflexivity|]. intros j. unfold may_write. rewrite E. destruct (Nat.lt_ge_cases j (length (s_calls s))) as [L|L].
      * rewrite nth_error_app1 by exact L. auto.
      * rewrite (proj2 (nth_error_None (s_calls s) j) L). auto.
  - destruct (s_pool s) as [p|]; [|discriminate]. destruct (s_queue s) as [|c q]; [discriminate|].
    destruct (handle_command tmax checks now c p) as [[o p']|k| |]; intros [= <- <-];
      try (destruct (same_calls s (pool_gone s) eq_refl T) as (A & B & C); split; [exact A|]; split; [exact B|]; apply SQuiet; [reflexivity | exact C]).
    destruct o as [[i a]|].
    2:{ destruct (same_calls s (mkPsys (Some p') q (s_calls s) (s_opened s)) eq_refl T) as (A & B & C). split; [exact A|]. split; [exact B|]. apply SQuiet; [reflexivity | exact C]. }
    unfold reply. cbn [s_calls]. destruct (nth_error (s_calls s) i) as [pc|] eqn:Ni.
    2:{ destruct (same_calls s (mkPsys (Some p') q (s_calls s) (s_opened s)) eq_refl T) as (A & B & C). split; [exact A|]. split; [exact B|]. apply SQuiet; [reflexivity | exact C]. }
    destruct (c_state pc) as [[x|]|c0 k0|v0 b0|k0| |] eqn:Es;
      try (destruct (same_calls s (mkPsys (Some p') q (s_calls s) (s_opened s)) eq_refl T) as (A & B & C); split; [exact A|]; split; [exact B|]; apply SQuiet; [reflexivity | exact C]).
    unfold put_state. cbn [s_pool s_queue s_calls s_opened]. split; [apply set_past; [exact T | discriminate]|]. split; [apply set_jobs|]. apply SQuiet; [reflexivity|].
    intros j. unfold may_write. cbn [s_calls]. rewrite set_nth. destruct (Nat.eqb_spec i j) as [<-|N].
    + rewrite Ni, Es. auto.
    + destruct (nth_error (s_calls s) j); auto.
  - destruct (s_pool s); [|discriminate]. intros [= <- <-]. destruct (same_calls s (pool_gone s) eq_refl T) as (A & B & C). split; [exact A|]. split; [exact B|]. apply SQuiet; [reflexivity | exact C].
  - destruct (nth_error (s_calls s) i) as [pc|] eqn:Ni; [|discriminate]. unfold poll_pooled. destruct (c_state pc) as [a|c k|v b|k| |] eqn:Es; try discriminate.
    + destruct (acquire_poll i a s) as [c [|]|e b|a'].
      * pose proof (first_step i pc c w s (mkPsys (s_pool s) (s_queue s) (s_calls s) (s_opened s ++ [c_addr pc])) Ni (ex_intro _ a Es) eq_refl T [EOpen c (c_addr pc)] eq_refl) as Q.
        destruct (inner_result _ _ _ _ _) as [s1 t1]. intros [= <- <-]. exact Q.
      * pose proof (first_step i pc c w s s Ni (ex_intro _ a Es) eq_refl T [] eq_refl) as Q. destruct (inner_result _ _ _ _ _) as [s1 t1]. intros [= <- <-]. exact Q.
      * set (x := Broken _). assert (G : forall s1, s_calls s1 = set_state i x (s_calls s) -> talks_past s1 /\ jobs s s1 /\ forall j, may_write s1 j -> may_write s j).
        { intros s1 E1. pose proof (set_past i x s (s_opened s) (s_queue s) (s_pool s) T ltac:(discriminate)) as A. pose proof (set_jobs i x s (s_opened s) (s_queue s) (s_pool s)) as B.
          pose proof (set_may i x (s_calls s) (s_opened s) (s_queue s) (s_pool s) s I eq_refl ltac:(rewrite Ni; discriminate)) as [C _].
          unfold talks_past, jobs, may_write in *. cbn [s_calls] in A, B, C. rewrite E1. tauto. }
        destruct b; intros [= <- <-].
        -- destruct (G (send (AddToBlacklist (c_addr pc)) (put_state i x s)) (send_calls _ _)) as (A & B & C). split; [exact A|]. split; [exact B|]. apply SQuiet; [reflexivity | exact C].
        -- destruct (G (put_state i x s) eq_refl) as (A & B & C). split; [exact A|]. split; [exact B|]. apply SQuiet; [reflexivity | exact C].
      * intros [= <- <-]. unfold put_state. split; [apply set_past; [exact T | discriminate]|]. split; [apply set_jobs|]. apply SQuiet; [reflexivity|].
        intros j. unfold may_write. cbn [s_calls]. rewrite set_nth. destruct (Nat.eqb_spec i j) as [<-|N].
        -- rewrite Ni, Es. auto.
        -- destruct (nth_error (s_calls s) j); auto.
    + destruct (poll_past w (c_proc pc) 5 k (T i pc c k Ni Es)) as [A B]. fold (poll_call w (c_proc pc) k) in A, B.
      pose proof (inner_step i pc c (poll_call w (c_proc pc) k) s ltac:(rewrite Ni; discriminate) T B) as Q. destruct (inner_result _ _ _ _ _) as [s1 t1]. intros [= <- <-].
      destruct Q as (Q1 & Q2 & Q3 & _ & t2 & -> & W2). split; [exact Q1|]. split; [exact Q2|]. apply SQuiet; [|exact Q3]. rewrite writers_app, W2, (no_write_writers i _ A). reflexivity.
  - destruct (nth_error (s_calls s) i) as [pc|] eqn:Ni; [|discriminate].
    assert (G : talks_past (put_state i Dropped s) /\ jobs s (put_state i Dropped s) /\ stepped s (put_state i Dropped s) []).
    { split; [apply set_past; [exact T | discriminate]|]. split; [apply set_jobs|]. apply SQuiet; [reflexivity|]. unfold put_state.
      exact (proj1 (set_may i Dropped (s_calls s) (s_opened s) (s_queue s) (s_pool s) s I eq_refl ltac:(rewrite Ni; discriminate))). }
    destruct (c_state pc); try discriminate; intros [= <- <-]; exact G.
Qed.

(** ** A run *)
Lemma jobs_trans s1 s2 s3 : jobs s1 s2 -> jobs s2 s3 -> jobs s1 s3.
Proof.
  intros A B i pc E. destruct (A i pc E) as (pc2 & E2 & J2). destruct (B i pc2 E2) as (pc3 & E3 & J3). exists pc3. split; [exact E3|].
  destruct J2 as (a & b & c), J3 as (d & e & f). repeat split; congruence.
Qed.
Lemma jobs_refl s : jobs s s.
Proof. intros i pc E. exists pc. split; [exact E | repeat split]. Qed.
Lemma no_writers_on t : writers t = [] -> forall c, writers_on c t = [].
Proof.
  induction t as [|e t IH]; intros W c; [reflexivity|]. unfold writers in W. cbn [flat_map] in W. apply app_eq_nil in W. destruct W as [W1 W2]. unfold writers_on in *. cbn [flat_map]. rewrite (IH W2 c).
  destruct e as [| ? [? ? ?|?|?] | |]; try reflexivity. discriminate.
Qed.
Lemma no_asked t s : writers t = [] -> forall c, asked_on s c t = [].
Proof.
  induction t as [|e t IH]; intros W c; [reflexivity|]. unfold writers in W. cbn [flat_map] in W. apply app_eq_nil in W. destruct W as [W1 W2]. unfold asked_on in *. cbn [flat_map]. rewrite (IH W2 c).
  destruct e as [| ? [? ? ?|?|?] | |]; try reflexivity. discriminate.
Qed.
Lemma run_once : forall ls s s' tr, talks_past s -> prun tmax checks ls s = (s', tr) ->
  talks_past s' /\ jobs s s' /\ (forall j, may_write s' j -> may_write s j) /\ NoDup (writers tr) /\ (forall i, In i (writers tr) -> may_write s i /\ ~ may_write s' i) /\
  forall sF, jobs s' sF -> forall c, Forall2 (asks_as sF) (writers_on c tr) (asked_on sF c tr).
Proof.
  induction ls as [|l ls IH]; intros s s' tr T; cbn [prun].
  - intros [= <- <-]. split; [exact T|]. split; [apply jobs_refl|]. split; [auto|]. split; [constructor|]. split; [intros i []|]. intros sF _ c. constructor.
  - destruct (pstep tmax checks l s) as [[s1 t]|] eqn:Es; [|apply IH; exact T].
    destruct (step_once l s s1 t T Es) as (T1 & J1 & St). specialize (IH s1). destruct (prun tmax checks ls s1) as [s2 t2]. intros [= <- <-].
    destruct (IH s2 t2 T1 eq_refl) as (T2 & J2 & M2 & N2 & W2 & A2).
    split; [exact T2|]. split; [exact (jobs_trans _ _ _ J1 J2)|]. destruct St as [Wt Mt|i pc r b c t1 t3 Ni En Eb -> Wa Wb Mi Nm Mt].
    + split; [auto|]. rewrite writers_app, Wt. cbn [app]. split; [exact N2|]. split; [intros i I; destruct (W2 i I); auto|].
      intros sF Jf c. rewrite writers_on_app. unfold asked_on. rewrite flat_map_app. fold (asked_on sF c t). fold (asked_on sF c t2). rewrite (no_writers_on t Wt c), (no_asked t sF Wt c). exact (A2 sF Jf c).
    + split; [auto|]. rewrite !writers_app. change (writers (EAct i (Write r b c) :: t3)) with (i :: writers t3). rewrite Wa, Wb. cbn [app].
      split; [|split].
      * constructor; [|exact N2]. intros I. destruct (W2 i I) as [X _]. exact (Nm X).
      * intros j [<-|I]; [split; [exact Mi|] | destruct (W2 j I); auto]. intros X. exact (Nm (M2 i X)).
      * intros sF Jf d. rewrite !writers_on_app. unfold asked_on. rewrite !flat_map_app. fold (asked_on sF d t1). fold (asked_on sF d t2). rewrite (no_writers_on t1 Wa d), (no_asked t1 sF Wa d). cbn [app].
        change (writers_on d (EAct i (Write r b c) :: t3)) with (writer_on d (EAct i (Write r b c)) ++ writers_on d t3). cbn [flat_map]. fold (asked_on sF d t3).
        rewrite (no_writers_on t3 Wb d), (no_asked t3 sF Wb d), !app_nil_r. apply Forall2_app; [|exact (A2 sF Jf d)]. cbn [writer_on asks]. destruct (Nat.eqb d c); [|constructor].
        destruct (jobs_trans _ _ _ J1 (jobs_trans _ _ _ J2 Jf) i pc Ni) as (pc' & Ni' & Ja & Jp & Jr). unfold method_of. rewrite Ni'. cbn [option_map]. constructor; [|constructor].
        exists pc'. cbn [a_method a_body a_request]. rewrite <- Jp, <- Jr. split; [exact Ni'|]. split; [reflexivity|]. split; [exact Eb | exact En].
Qed.
Theorem writes_once ls size d s tr : prun tmax checks ls (psys_new size d) = (s, tr) ->
  NoDup (writers tr) /\ forall c, Forall2 (asks_as s) (writers_on c tr) (asked_on s c tr).
Proof.
  intros E. assert (T : talks_past (psys_new size d)) by (intros i pc c k N; destruct i; discriminate). destruct (run_once ls _ s tr T E) as (_ & _ & _ & N & _ & A).
  split; [exact N|]. exact (A s (jobs_refl s)).
Qed.
End Once.

(** ** Over all connections *)
Lemma count_writers i : forall cs tr, NoDup cs -> list_sum (map (fun c => count_occ Nat.eq_dec (writers_on c tr) i) cs) <= count_occ Nat.eq_dec (writers tr) i.
Proof.
  intros cs tr Nd. induction tr as [|e tr IH].
  - clear Nd. induction cs as [|c cs IH]; [reflexivity | exact IH].
  - assert (S1 : forall e, list_sum (map (fun c => count_occ Nat.eq_dec (writer_on c e) i) cs) <= count_occ Nat.eq_dec (writer e) i).
    { clear e IH. intros e. destruct e as [|j [r b c|c|x]| |]; try (clear Nd; induction cs as [|d cs IHc]; [apply Nat.le_0_l | exact IHc]).
      cbn [writer_on writer]. induction Nd as [|d cs N Nd IHc]; [apply Nat.le_0_l|]. cbn [map list_sum fold_right]. fold (list_sum (map (fun c0 : conn => count_occ Nat.eq_dec (if Nat.eqb c0 c then [j] else []) i) cs)).
      destruct (Nat.eqb_spec d c) as [->|Nc]; [|exact IHc].
      assert (Z : list_sum (map (fun c0 : conn => count_occ Nat.eq_dec (if Nat.eqb c0 c then [j] else []) i) cs) = 0).
      { clear -N. induction cs as [|x cs IH]; [reflexivity|]. cbn [map list_sum fold_right]. destruct (Nat.eqb_spec x c) as [->|_]; [elim N; left; reflexivity|]. apply IH. intros I. apply N. right. exact I. }
      unfold list_sum in *. rewrite Z. lia. }
    assert (S2 : list_sum (map (fun c => count_occ Nat.eq_dec (writers_on c (e :: tr)) i) cs) =
                 list_sum (map (fun c => count_occ Nat.eq_dec (writer_on c e) i) cs) + list_sum (map (fun c => count_occ Nat.eq_dec (writers_on c tr) i) cs)).
    { clear. unfold writers_on. cbn [flat_map]. induction cs as [|c cs IH]; [reflexivity|]. cbn [map list_sum fold_right]. rewrite count_occ_app. unfold list_sum in *. rewrite IH. lia. }
    rewrite S2. unfold writers. cbn [flat_map]. rewrite count_occ_app. fold (writers tr). specialize (S1 e). lia.
Qed.
