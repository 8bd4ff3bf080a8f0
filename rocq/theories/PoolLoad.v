(** * What calls through a pool hold, open and send: proofs (C95). *)
From Verif Require Import Base Serde Procedure Router SerRequest DeHeader DepUrl Error Client ClientSpec Pool PoolSpec PoolProofs PoolSystem PoolSystemSpec PoolSystemProofs PoolLoadSpec.
Open Scope nat_scope.

Section Load.
Context `{floatlib} `{urlenv}.
Variables (tmax : Z) (checks : bool).

Definition one (b : bool) : nat := if b then 1 else 0.
Definition with_state x pc := mkPcall (c_addr pc) (c_proc pc) (c_req pc) x.
Lemma count_set f x : forall l i pc, nth_error l i = Some pc -> length (filter f (set_state i x l)) + one (f pc) = length (filter f l) + one (f (with_state x pc)).
Proof.
  induction l as [|a l IH]; intros [|i] pc E; cbn in E; try discriminate.
  - injection E as ->. cbn [set_state filter]. fold (with_state x pc). unfold one. destruct (f (with_state x pc)), (f pc); cbn [length]; lia.
  - cbn [set_state filter]. specialize (IH i pc E). destruct (f a); cbn [length]; lia.
Qed.

(** ** The pool *)
Definition within (size : N) (s : psys) : Prop :=
  match s_pool s with Some p => (N.of_nat (length (p_conns p)) <= p_size p)%N /\ p_size p = size | None => True end.
Lemma within_same size s s' : s_pool s' = s_pool s -> within size s -> within size s'.
Proof. unfold within. intros ->. auto. Qed.
Lemma send_pool c (s : psys) : s_pool (send c s) = s_pool s.
Proof. unfold send. destruct (s_pool s) eqn:E; cbn; congruence. Qed.
Lemma inner_pool i pc c r s : s_pool (fst (inner_result i pc c r s)) = s_pool s.
Proof. destruct r as [t o]. unfold inner_result. destruct o as [[k|v b c']|e| |]; cbn [fst]; rewrite ?send_pool; reflexivity. Qed.
Lemma poll_pool i w pc s s' t : poll_pooled i w pc s = Some (s', t) -> s_pool s' = s_pool s.
Proof.
  unfold poll_pooled. destruct (c_state pc) as [a|c k| | | |]; try discriminate.
  - destruct (acquire_poll i a s) as [c [|]|e b|a'].
    + set (s1 := mkPsys _ _ _ _). destruct (inner_result i pc c _ s1) as [s2 t2] eqn:E. intros [= <- <-]. apply (f_equal (fun x => s_pool (fst x))) in E. rewrite inner_pool in E. cbn in E. congruence.
    + intros [= E]. apply (f_equal (fun x => s_pool (fst x))) in E. rewrite inner_pool in E. cbn in E. congruence.
    + destruct b; intros [= <- <-]; rewrite ?send_pool; reflexivity.
    + intros [= <- <-]. reflexivity.
  - intros [= E]. apply (f_equal (fun x => s_pool (fst x))) in E. rewrite inner_pool in E. cbn in E. congruence.
Qed.
Lemma reply_pool i a s : s_pool (reply i a s) = s_pool s.
Proof. unfold reply. destruct (nth_error _ _) as [c|]; [destruct (c_state c) as [[]|c' k| | | |]|]; reflexivity. Qed.
Lemma step_within size l s s' t : within size s -> pstep tmax checks l s = Some (s', t) -> within size s'.
Proof.
  intros W. destruct l as [addr p req|now f| |i w|i]; cbn [pstep].
  - intros [= <- <-]. apply (within_same size s); [rewrite send_pool; reflexivity | exact W].
  - destruct (s_pool s) as [p|] eqn:P; [|discriminate]. destruct (s_queue s) as [|c q]; [discriminate|]. unfold within in W. rewrite P in W. destruct W as [W1 W2].
    destruct (handle_command tmax checks now c p) as [[o p']|e| |] eqn:E; intros [= <- <-]; try exact I.
    destruct (handle_bound tmax checks now c p o p' W1 E) as [B S]. assert (X : within size (mkPsys (Some p') q (s_calls s) (s_opened s))) by (split; [exact B | congruence]).
    destruct o as [[i a]|]; [|exact X]. eapply within_same; [|exact X]. apply reply_pool.
  - destruct (s_pool s); [|discriminate]. intros [= <- <-]. exact I.
  - destruct (nth_error (s_calls s) i) as [pc|]; [|discriminate]. intros E. apply poll_pool in E. exact (within_same size s s' E W).
  - destruct (nth_error (s_calls s) i) as [pc|]; [|discriminate]. destruct (c_state pc); try discriminate; intros [= <- <-]; exact W.
Qed.
Lemma run_within size : forall ls s s' tr, within size s -> prun tmax checks ls s = (s', tr) -> within size s'.
Proof.
  induction ls as [|l ls IH]; intros s s' tr W; cbn [prun]; [intros [= <- <-]; exact W|].
  destruct (pstep tmax checks l s) as [[s1 t1]|] eqn:E; [|exact (IH s s' tr W)]. destruct (prun tmax checks ls s1) as [s2 t2] eqn:E2. intros [= <- <-]. exact (IH s1 s2 t2 (step_within _ _ _ _ _ W E) E2).
Qed.

(** ** Connections held *)
Lemma held_going l : length (flat_map held l) <= length (filter going l).
Proof.
  induction l as [|pc l IH]; [apply Nat.le_refl|]. cbn [flat_map filter]. rewrite app_length. unfold held at 1, going at 1. destruct (c_state pc) as [[[|c|f]|]|c k| | | |]; cbn [length]; lia.
Qed.
Lemma carried_way q : length (flat_map (@carried) q) = length (filter (fun c => match c with ReleaseConnection _ _ => true | _ => false end) q).
Proof. induction q as [|c q IH]; [reflexivity|]. cbn [flat_map filter]. rewrite app_length, IH. destruct c; reflexivity. Qed.
Theorem holders_bound size d ls s tr : prun tmax checks ls (psys_new size d) = (s, tr) ->
  (N.of_nat (length (holders s)) <= size + N.of_nat (how_many going s) + N.of_nat (on_their_way s))%N.
Proof.
  intros E. apply (run_within size) in E; [|split; [apply N.le_0_l | reflexivity]]. unfold holders, how_many, on_their_way. rewrite !app_length, carried_way. pose proof (held_going (s_calls s)) as G.
  unfold within in E. unfold idle_conns. destruct (s_pool s) as [p|]; [rewrite map_length|cbn [length]]; lia.
Qed.

(** ** Connections opened and commands sent *)
Definition opened_by (s : psys) (k : nat) : Prop := k = length (s_opened s) /\ k <= how_many past s.
Definition modest (s : psys) : Prop := length (s_opened s) <= how_many past s /\ length (s_queue s) <= length (s_calls s) + how_many over s.
Lemma send_queue c (s : psys) : length (s_queue (send c s)) <= S (length (s_queue s)).
Proof. unfold send. destruct (s_pool s); cbn; rewrite ?app_length; cbn; lia. Qed.
Lemma send_rest c (s : psys) : s_calls (send c s) = s_calls s /\ s_opened (send c s) = s_opened s.
Proof. unfold send. destruct (s_pool s); split; reflexivity. Qed.
(** A poll that goes on, and one that ends the call. *)
Lemma inner_load i pc c r s : nth_error (s_calls s) i = Some pc -> over pc = false -> length (s_opened s) <= how_many past s + one (negb (past pc)) ->
  length (s_queue s) <= length (s_calls s) + how_many over s -> modest (fst (inner_result i pc c r s)) /\ s_opened (fst (inner_result i pc c r s)) = s_opened s.
Proof.
  intros E Ov A B. destruct r as [t o]. unfold inner_result.
  assert (X : forall x q, match x with Acquiring _ => False | _ => True end -> length q <= length (s_queue s) + one (over (with_state x pc)) ->
    modest (mkPsys (s_pool s) q (set_state i x (s_calls s)) (s_opened s))).
  { intros x q Hx Hq. pose proof (count_set past x _ _ _ E) as P1. pose proof (count_set over x _ _ _ E) as P2. unfold modest, how_many in *. cbn [s_opened s_queue s_calls] in *. rewrite set_length. rewrite Ov in P2.
    assert (P3 : past (with_state x pc) = true) by (destruct x; [contradiction | reflexivity..]). rewrite P3 in P1. unfold one in *. destruct (past pc); cbn [negb] in *; lia. }
  destruct o as [[k|v b c']|e| |]; cbn [fst].
  - split; [apply X; [exact I | cbn; lia] | reflexivity].
  - destruct (send_rest (ReleaseConnection (c_addr pc) c') (put_state i (Finished v b) s)) as [S1 S2]. split; [|rewrite S2; reflexivity].
    pose proof (send_queue (ReleaseConnection (c_addr pc) c') (put_state i (Finished v b) s)) as Q. cbn [put_state s_queue] in Q. specialize (X (Finished v b) (s_queue (send (ReleaseConnection (c_addr pc) c') (put_state i (Finished v b) s))) I). unfold modest, how_many in *. rewrite S1, S2. cbn [put_state s_calls s_opened s_queue] in *. apply X. cbn [over with_state c_state one]. lia.
  - split; [apply X; [exact I | cbn; lia] | reflexivity].
  - split; [apply X; [exact I | cbn; lia] | reflexivity].
  - split; [apply X; [exact I | cbn; lia] | reflexivity].
Qed.
Lemma openings_app a b : openings (a ++ b) = openings a + openings b.
Proof. unfold openings. rewrite filter_app, app_length. reflexivity. Qed.
Lemma inner_opens i pc c r s : openings (snd (inner_result i pc c r s)) = 0.
Proof.
  destruct r as [t o]. unfold inner_result. assert (X : forall t, openings (map (EAct i) t) = 0) by (intros t'; unfold openings; induction t' as [|a t' IH]; [reflexivity | exact IH]).
  destruct o as [[k|v b c']|e| |]; cbn [snd]; rewrite ?openings_app, X; reflexivity.
Qed.
Lemma step_load l s s' t : modest s -> pstep tmax checks l s = Some (s', t) -> modest s' /\ length (s_opened s') = length (s_opened s) + openings t.
Proof.
  intros M. pose proof M as [M1 M2]. destruct l as [addr p req|now f| |i w|i]; cbn [pstep].
  - intros [= <- <-]. set (s1 := mkPsys _ _ _ _). destruct (send_rest (AcquireConnection addr (length (s_calls s))) s1) as [S1 S2]. pose proof (send_queue (AcquireConnection addr (length (s_calls s))) s1) as Q.
    unfold modest, how_many. rewrite S1, S2. subst s1. cbn [s_calls s_opened s_queue] in *. rewrite !filter_app, !app_length in *. cbn in *. unfold how_many in *. lia.
  - destruct (s_pool s) as [p|]; [|discriminate]. destruct (s_queue s) as [|c q] eqn:Q; [discriminate|]. cbn [length] in M2.
    destruct (handle_command tmax checks now c p) as [[o p']|e| |]; intros [= <- <-]; try (unfold modest, how_many, pool_gone in *; cbn; lia).
    destruct o as [[i a]|]; [|unfold modest, how_many in *; cbn; lia]. unfold reply. cbn [s_calls]. destruct (nth_error (s_calls s) i) as [pc|] eqn:E; [|unfold modest, how_many in *; cbn; lia].
    destruct (c_state pc) as [[]|c' k| | | |] eqn:St; try (unfold modest, how_many in *; cbn; lia). unfold put_state. cbn [s_calls s_pool s_queue s_opened].
    pose proof (count_set past (Acquiring (Some (to_pooled a f))) _ _ _ E) as P1. pose proof (count_set over (Acquiring (Some (to_pooled a f))) _ _ _ E) as P2. assert (Pa : past pc = false) by (unfold past; rewrite St; reflexivity). assert (Ov : over pc = false) by (unfold over; rewrite St; reflexivity). rewrite Pa in P1. rewrite Ov in P2. cbn in P1, P2.
    unfold modest, how_many in *. cbn [s_calls s_opened s_queue]. rewrite set_length. cbn. lia.
  - destruct (s_pool s); [|discriminate]. intros [= <- <-]. unfold modest, how_many in *. cbn. lia.
  - destruct (nth_error (s_calls s) i) as [pc|] eqn:E; [|discriminate]. unfold poll_pooled. destruct (c_state pc) as [a|c k| | | |] eqn:St; try discriminate.
    + assert (Pa : past pc = false) by (unfold past; rewrite St; reflexivity). assert (Ov : over pc = false) by (unfold over; rewrite St; reflexivity).
      destruct (acquire_poll i a s) as [c [|]|e b|a'].
      * set (s1 := mkPsys _ _ _ _). set (r := poll_call _ _ _). destruct (inner_result i pc c r s1) as [s2 t2] eqn:Ei. intros [= <- <-].
        destruct (inner_load i pc c r s1 E Ov) as [X Y]; [subst s1; cbn [s_opened]; rewrite app_length, Pa; unfold how_many in *; cbn in *; lia | subst s1; unfold how_many in *; cbn in *; lia|].
        pose proof (inner_opens i pc c r s1) as Z. rewrite Ei in X, Y, Z. cbn [fst snd] in *. split; [exact X|]. rewrite Y. subst s1. cbn [s_opened]. rewrite app_length. unfold openings in *. cbn. lia.
      * set (r := poll_call _ _ _). destruct (inner_result i pc c r s) as [s2 t2] eqn:Ei. intros [= <- <-].
        destruct (inner_load i pc c r s E Ov) as [X Y]; [lia | exact M2|]. pose proof (inner_opens i pc c r s) as Z. rewrite Ei in X, Y, Z. cbn [fst snd] in *. split; [exact X|]. rewrite Y, Z. lia.
      * set (x := Broken _). pose proof (count_set past x _ _ _ E) as P1. pose proof (count_set over x _ _ _ E) as P2. rewrite Pa in P1. rewrite Ov in P2. cbn in P1, P2.
        destruct b; intros [= <- <-].
        -- destruct (send_rest (AddToBlacklist (c_addr pc)) (put_state i x s)) as [S1 S2]. pose proof (send_queue (AddToBlacklist (c_addr pc)) (put_state i x s)) as Q. unfold modest, how_many in *. rewrite S1, S2. cbn [put_state s_calls s_opened s_queue] in *. rewrite set_length. cbn. lia.
        -- unfold modest, how_many in *. cbn [put_state s_calls s_opened s_queue] in *. rewrite set_length. cbn. lia.
      * pose proof (count_set past (Acquiring a') _ _ _ E) as P1. pose proof (count_set over (Acquiring a') _ _ _ E) as P2. rewrite Pa in P1. rewrite Ov in P2. cbn in P1, P2. intros [= <- <-].
        unfold modest, how_many in *. cbn [put_state s_calls s_opened s_queue] in *. rewrite set_length. cbn. lia.
    + assert (Pa : past pc = true) by (unfold past; rewrite St; reflexivity). assert (Ov : over pc = false) by (unfold over; rewrite St; reflexivity).
      set (r := poll_call _ _ _). destruct (inner_result i pc c r s) as [s2 t2] eqn:Ei. intros [= <- <-].
      destruct (inner_load i pc c r s E Ov) as [X Y]; [lia | exact M2|]. pose proof (inner_opens i pc c r s) as Z. rewrite Ei in X, Y, Z. cbn [fst snd] in *. split; [exact X|]. rewrite Y, Z. lia.
  - destruct (nth_error (s_calls s) i) as [pc|] eqn:E; [|discriminate].
    assert (X : (going pc = true) -> modest (put_state i Dropped s)).
    { intros G. pose proof (count_set past Dropped _ _ _ E) as P1. pose proof (count_set over Dropped _ _ _ E) as P2. assert (Ov : over pc = false) by (unfold going, over in *; destruct (c_state pc); congruence). rewrite Ov in P2. unfold modest, how_many, one in *. cbn [put_state s_calls s_opened s_queue]. rewrite set_length. cbn in P1, P2. destruct (past pc); lia. }
    unfold going in X. destruct (c_state pc); try discriminate; intros [= <- <-]; (split; [exact (X eq_refl) | cbn; lia]).
Qed.
Lemma run_load : forall ls s s' tr, modest s -> prun tmax checks ls s = (s', tr) -> modest s' /\ length (s_opened s') = length (s_opened s) + openings tr.
Proof.
  induction ls as [|l ls IH]; intros s s' tr M; cbn [prun]; [intros [= <- <-]; split; [exact M | unfold openings; cbn; lia]|].
  destruct (pstep tmax checks l s) as [[s1 t1]|] eqn:E; [|exact (IH s s' tr M)]. destruct (prun tmax checks ls s1) as [s2 t2] eqn:E2. intros [= <- <-].
  destruct (step_load _ _ _ _ M E) as [M' O']. destruct (IH s1 s2 t2 M' E2) as [M'' O'']. split; [exact M''|]. rewrite O'', O', openings_app. lia.
Qed.
Theorem load_bound size d ls s tr : prun tmax checks ls (psys_new size d) = (s, tr) ->
  openings tr <= how_many past s /\ length (s_queue s) <= length (s_calls s) + how_many over s.
Proof.
  intros E. apply run_load in E; [|split; cbn; lia]. destruct E as [[A B] O]. cbn in O. split; [lia | exact B].
Qed.

(** ** The size of the pool is no bound *)
Variables (addr : saddr) (p : proc) (v : value) (body : bytes) (h : reqb).
Hypothesis Enc : encode_request (pr_entry p) v (N.of_nat (length body)) = Ok h.
Definition deaf : wire conn := mkWire (fun _ _ _ => Never) (fun _ => Never) (fun _ => Never).
Definition stuck_call : pcall := mkPcall addr p (v, body) (Acquiring None).
Definition stuck_at (c : conn) : pcall := with_state (Talking c (mkCall None (PhB Never))) stuck_call.
Definition crowd (size : N) (d : Z) (n : nat) : psys := mkPsys (Some (pool_new size d)) [] (map stuck_at (seq 0 n)) (repeat addr n).
Fixpoint crowding (n : nat) : list (plabel) :=
  match n with O => [] | S n => crowding n ++ [LCall addr p (v, body); LPool 0 (Ready tt); LPoll n deaf] end.
Lemma nth_last {A} (l : list A) x : nth_error (l ++ [x]) (length l) = Some x.
Proof. rewrite nth_error_app2, Nat.sub_diag by apply Nat.le_refl. reflexivity. Qed.
Lemma set_last x pc : forall l, set_state (length l) x (l ++ [pc]) = l ++ [with_state x pc].
Proof. induction l as [|a l IH]; [reflexivity|]. cbn [length app set_state]. rewrite IH. reflexivity. Qed.
Lemma crowd_length size d n : length (s_calls (crowd size d n)) = n.
Proof. unfold crowd. cbn [s_calls]. rewrite map_length, seq_length. reflexivity. Qed.
Lemma crowd_calls n : map stuck_at (seq 0 n) ++ [stuck_at n] = map stuck_at (seq 0 (S n)).
Proof. rewrite seq_S, map_app. reflexivity. Qed.
Lemma crowd_grows size d n : exists tr, prun tmax checks [LCall addr p (v, body); LPool 0 (Ready tt); LPoll n deaf] (crowd size d n) = (crowd size d (S n), tr).
Proof.
  set (l := map stuck_at (seq 0 n)). assert (Ln : length l = n) by (unfold l; rewrite map_length, seq_length; reflexivity).
  set (op := repeat addr n). assert (Lo : length op = n) by apply repeat_length.
  assert (E1 : pstep tmax checks (LCall addr p (v, body)) (crowd size d n) = Some (mkPsys (Some (pool_new size d)) [AcquireConnection addr n] (l ++ [stuck_call]) op, [])).
  { cbn [pstep]. rewrite crowd_length. reflexivity. }
  assert (E2 : pstep tmax checks (LPool 0 (Ready tt)) (mkPsys (Some (pool_new size d)) [AcquireConnection addr n] (l ++ [stuck_call]) op) =
    Some (mkPsys (Some (pool_new size d)) [] (l ++ [with_state (Acquiring (Some (PConnect (Ready tt)))) stuck_call]) op, [])).
  { assert (Hc : handle_command tmax checks 0 (AcquireConnection addr n) (pool_new size d) = Ok (Some (n, @Connect conn), pool_new size d)) by reflexivity.
    cbn [pstep s_pool s_queue]. rewrite Hc. unfold reply. cbn [s_calls s_opened]. replace (nth_error (l ++ [stuck_call]) n) with (Some stuck_call) by (rewrite <- Ln, nth_last; reflexivity).
    cbn [stuck_call c_state to_pooled]. unfold put_state. cbn [s_calls s_pool s_queue s_opened]. fold stuck_call. replace (set_state n (Acquiring (Some (PConnect (Ready tt)))) (l ++ [stuck_call])) with (l ++ [with_state (Acquiring (Some (PConnect (Ready tt)))) stuck_call]) by (rewrite <- Ln, set_last; reflexivity). reflexivity. }
  assert (E3 : exists tr, pstep tmax checks (LPoll n deaf) (mkPsys (Some (pool_new size d)) [] (l ++ [with_state (Acquiring (Some (PConnect (Ready tt)))) stuck_call]) op) = Some (crowd size d (S n), tr)).
  { set (at_last := with_state (Acquiring (Some (PConnect (Ready tt)))) stuck_call). cbn [pstep s_calls]. replace (nth_error (l ++ [at_last]) n) with (Some at_last) by (rewrite <- Ln, nth_last; reflexivity).
    unfold poll_pooled. subst at_last. cbn [with_state stuck_call c_state acquire_poll fpoll s_opened c_proc c_req c_addr].
    unfold poll_call. cbn [poll phase_poll call_new k_phase k_request fpoll on_connected]. rewrite Enc. cbn [bind]. unfold deaf. cbn [w_write]. cbn [poll phase_poll k_phase fpoll]. cbn [inner_result k_request].
    unfold put_state. cbn [s_calls s_pool s_queue s_opened]. eexists. f_equal. f_equal. unfold crowd. f_equal.
    - rewrite Lo. rewrite <- crowd_calls. fold l. etransitivity; [|exact (set_last (Talking n (mkCall None (PhB Never))) (with_state (Acquiring (Some (PConnect (Ready tt)))) stuck_call) l)]. rewrite Ln. reflexivity.
    - change (repeat addr (S n)) with (addr :: repeat addr n). rewrite repeat_cons. reflexivity. }
  destruct E3 as [tr E3]. cbn [prun]. rewrite E1, E2, E3. eexists. reflexivity.
Qed.
Lemma run_app : forall l1 l2 s s1 t1 s2 t2, prun tmax checks l1 s = (s1, t1) -> prun tmax checks l2 s1 = (s2, t2) -> prun tmax checks (l1 ++ l2) s = (s2, t1 ++ t2).
Proof.
  induction l1 as [|l l1 IH]; intros l2 s s1 t1 s2 t2; cbn [app prun]; [intros [= <- <-] E; exact E|].
  destruct (pstep tmax checks l s) as [[s' t']|]; [|apply IH]. destruct (prun tmax checks l1 s') as [s3 t3] eqn:E. intros [= <- <-] E2. rewrite (IH _ _ _ _ _ _ E E2), app_assoc. reflexivity.
Qed.
Lemma crowd_comes size d n : exists tr, prun tmax checks (crowding n) (psys_new size d) = (crowd size d n, tr).
Proof.
  induction n as [|n [tr IH]]; [exists []; reflexivity|]. destruct (crowd_grows size d n) as [tr' G]. cbn [crowding]. exists (tr ++ tr'). exact (run_app _ _ _ _ _ _ _ IH G).
Qed.
Theorem crowded size d n : exists ls s tr, prun tmax checks ls (psys_new size d) = (s, tr) /\ NoDup (holders s) /\ length (holders s) = n /\ openings tr = n /\ s_opened s = repeat addr n.
Proof.
  destruct (crowd_comes size d n) as [tr E]. exists (crowding n), (crowd size d n), tr. split; [exact E|].
  assert (Hh : holders (crowd size d n) = seq 0 n).
  { unfold holders, crowd. cbn [s_calls s_queue s_pool flat_map idle_conns pool_new p_conns map]. rewrite !app_nil_r, flat_map_concat_map, map_map. clear E. generalize 0. induction n as [|n IH]; intros k; [reflexivity|]. cbn. f_equal. apply IH. }
  rewrite Hh. split; [apply seq_NoDup|]. split; [apply seq_length|]. apply run_load in E; [|split; cbn; lia]. destruct E as [_ O]. unfold crowd in O. cbn in O. rewrite repeat_length in O. split; [symmetry; exact O | reflexivity].
Qed.
End Load.
