(** * Property C80: a connection costs at most one call. *)
From Verif Require Import Base Decimal Serde Procedure Router SerRequest DeHeader DeResponse DepUrl Error Client ClientSpec ClientProofs Pool PoolSpec PoolProofs PoolSystem PoolSystemSpec PoolSystemProofs PoolSystemInv PoolSystemAddr PoolCostSpec PoolCost Exhibit PathProps RequestProps ClientProps PoolProps PoolSystemProps.
Open Scope N_scope.

Section Lemmas.
Context {F : floatlib} {U : urlenv}.
Variables (tmax : Z) (checks : bool) (size : N) (d : Z).

Lemma counted ls s tr is : Forall honest_label ls -> prun tmax checks ls (psys_new size d) = (s, tr) -> NoDup is -> (forall i, In i is -> lost (state_of i s) /\ used i tr <> []) ->
  (length is <= length (opens tr))%nat.
Proof.
  intros Fh Er D E. pose proof (reached tmax checks size d ls s tr Fh Er) as Iv. rewrite <- (map_length fst (opens tr)).
  apply (chosen (fun i c => In c (used i tr)) (map fst (opens tr)) is D).
  - intros i Ii. destruct (E i Ii) as [_ N]. destruct (used i tr) as [|c l] eqn:Eu; [congruence|]. exists c. split; [left; reflexivity|].
    destruct (used_act i c tr) as (t1 & a & t2 & Et & <-); [rewrite Eu; left; reflexivity|].
    destruct (acts_endpoint tmax checks size d ls s tr Fh Er t1 i a t2 Et) as (addr & b & _ & I & _). apply in_map_iff. exists (act_conn a, b). split; [reflexivity|].
    apply opens_in. rewrite Et. apply in_or_app. left. exact I.
  - intros i j c Ii Ij. apply (one_each s tr i j c Iv); apply E; assumption.
Qed.
Lemma after_restart ls1 s1 tr1 ls2 s tr2 is : Forall honest_label (ls1 ++ ls2) -> prun tmax checks ls1 (psys_new size d) = (s1, tr1) -> prun tmax checks ls2 s1 = (s, tr2) -> NoDup is ->
  (forall i, In i is -> under_way (state_of i s1) /\ lost (state_of i s) /\ exists c a, In (EOpen c a) tr1 /\ In c (used i (tr1 ++ tr2))) -> (length is <= length (holders s1))%nat.
Proof.
  intros Fh E1 E2 D E. apply Forall_app in Fh. destruct Fh as [Fh1 Fh2]. pose proof (reached tmax checks size d ls1 s1 tr1 Fh1 E1) as Iv1.
  pose proof (invA_run tmax checks ls2 s1 tr1 Fh2 Iv1) as Iv. rewrite E2 in Iv.
  apply (chosen (fun i c => In c (used i (tr1 ++ tr2))) (holders s1) is D).
  - intros i Ii. destruct (E i Ii) as (W & _ & c & a & Io & Iu). exists c. split; [exact Iu|]. apply (old_held tmax checks ls2 s1 tr1 i c Fh2 Iv1 W).
    + apply opens_in, (in_map fst) in Io. rewrite (b_once _ _ _ _ _ (reached_endpoint tmax checks size d ls1 s1 tr1 Fh1 E1)) in Io. apply in_seq in Io. cbn [fst] in Io. lia.
    + rewrite E2. exact Iu.
  - intros i j c Ii Ij. apply (one_each s (tr1 ++ tr2) i j c Iv); apply E; assumption.
Qed.
End Lemmas.

(** No two calls that failed, panicked or were dropped used the same connection. *)
Theorem C80_one_call_each (F : floatlib) (U : urlenv) tmax checks size d ls s tr : Forall honest_label ls -> prun tmax checks ls (psys_new size d) = (s, tr) ->
  forall i j c, lost (state_of i s) -> lost (state_of j s) -> In c (used i tr) -> In c (used j tr) -> i = j.
Proof. intros Fh Er i j c. exact (one_each s tr i j c (reached tmax checks size d ls s tr Fh Er)). Qed.
Print Assumptions C80_one_call_each.

(** So no more calls are lost on connections than connections were opened. *)
Theorem C80_counted (F : floatlib) (U : urlenv) tmax checks size d ls s tr is : Forall honest_label ls -> prun tmax checks ls (psys_new size d) = (s, tr) -> NoDup is ->
  (forall i, In i is -> lost (state_of i s) /\ used i tr <> []) -> (length is <= length (opens tr))%nat.
Proof. exact (counted tmax checks size d ls s tr is). Qed.
Print Assumptions C80_counted.

(** If all connections there are stop working at some time, say because the server is started anew, no more calls are lost
    on them from then on than there are connections in someone's hands: used by a call, idle, or on their way to or from the pool. *)
Theorem C80_after_restart (F : floatlib) (U : urlenv) tmax checks size d ls1 s1 tr1 ls2 s tr2 is : Forall honest_label (ls1 ++ ls2) ->
  prun tmax checks ls1 (psys_new size d) = (s1, tr1) -> prun tmax checks ls2 s1 = (s, tr2) -> NoDup is ->
  (forall i, In i is -> under_way (state_of i s1) /\ lost (state_of i s) /\ exists c a, In (EOpen c a) tr1 /\ In c (used i (tr1 ++ tr2))) -> (length is <= length (holders s1))%nat.
Proof. exact (after_restart tmax checks size d ls1 s1 tr1 ls2 s tr2 is). Qed.
Print Assumptions C80_after_restart.

(** ** That the connection handed out works *)
(** Connection 0 does not work any more; others do. *)
Definition half_open : wire conn := {|
  w_write := fun r b c => Ready c;
  w_head := fun c => match c with 0%nat => Failed FromIo | _ => Ready (mkResponse 200 [(u "X-Id", u "17")] c) end;
  w_body := fun r => Ready (r, [104; 105])
|}.
Lemma half_honest : honest half_open.
Proof. split; [|split]; [intros r b c c' [= <-] | intros [|c] r [= <-] | intros r r' b [= <- _]]; reflexivity. Qed.
Lemma quick_honest : honest quick.
Proof. split; [|split]; [intros r b c c' [= <-] | intros c r [= <-] | intros r r' b [= <- _]]; reflexivity. Qed.
Definition ex_stale : list plabel := [ex_call ex_a; LPool 1 (Ready tt); LPoll 0 quick; LPool 2 Never; ex_call ex_a; LPool 3 (Ready tt); LPoll 1 half_open]%Z.
Lemma stale_honest : Forall honest_label ex_stale.
Proof. repeat (constructor; [first [exact I | exact quick_honest | exact half_honest]|]). constructor. Qed.

(** A call is not done again on another connection, nor is an idle connection looked at before it is handed out: a call
    that would have been completed without the connections kept fails with them. *)
Theorem C80_kept_connections_work_refuted : exists (F : floatlib) (U : urlenv) tmax checks d ls i, Forall honest_label ls /\
  (let '(s, tr) := prun tmax checks ls (psys_new 0 d) in exists v b, state_of i s = Some (Finished v b)) /\
  (let '(s, tr) := prun tmax checks ls (psys_new 1 d) in (exists e, state_of i s = Some (Broken e)) /\ used i tr <> [] /\ length (opens tr) = 1%nat).
Proof.
  exists ex_float, ex_url, 100%Z, true, 10%Z, ex_stale, 1%nat. split; [exact stale_honest|]. split.
  - vm_compute. eexists _, _. reflexivity.
  - vm_compute. split; [eexists; reflexivity|]. split; [discriminate | reflexivity].
Qed.
Print Assumptions C80_kept_connections_work_refuted.

(** ** A case *)
(** Two connections, one idle and one in use, when the server is started anew: calls 1 and 2 are lost, and call 3 is served on a third connection. *)
Definition dead01 : wire conn := {|
  w_write := fun r b c => Ready c;
  w_head := fun c => match c with 0%nat | 1%nat => Failed FromIo | _ => Ready (mkResponse 200 [(u "X-Id", u "17")] c) end;
  w_body := fun r => Ready (r, [104; 105])
|}.
Lemma dead01_honest : honest dead01.
Proof. split; [|split]; [intros r b c c' [= <-] | intros [|[|c]] r [= <-] | intros r r' b [= <- _]]; reflexivity. Qed.
Definition ex_before : list plabel := [ex_call ex_a; ex_call ex_a; LPool 1 (Ready tt); LPool 1 (Ready tt); LPoll 0 quick; LPoll 1 ex_wire; LPool 2 Never; ex_call ex_a]%Z.
Definition ex_after : list plabel := [LPool 3 Never; LPoll 1 dead01; LPoll 1 dead01; LPoll 2 dead01; ex_call ex_a; LPool 4 (Ready tt); LPoll 3 dead01]%Z.
Lemma before_after_honest : Forall honest_label (ex_before ++ ex_after).
Proof.
  assert (W : honest ex_wire) by (split; [|split]; [intros r b c c' [= <-] | intros c r [= <-] | intros r r' b [= <- _]]; reflexivity).
  repeat (constructor; [first [exact I | exact quick_honest | exact dead01_honest | exact W]|]). constructor.
Qed.
Example C80_case : let U := ex_url in let F := ex_float in
  let '(s1, tr1) := prun 100 true ex_before (psys_new 3 10) in let '(s, tr2) := prun 100 true ex_after s1 in
  (map (fun i => ex_state i s1) (seq 0 3) = [Some (None, None); Some (Some 1%nat, None); None] /\ opens tr1 = [(0%nat, ex_a); (1%nat, ex_a)] /\ length (holders s1) = 2%nat /\
  map (fun i => ex_state i s) (seq 0 4) = [Some (None, None); Some (None, Some Other); Some (None, Some Other); Some (None, None)] /\
  map (fun i => nodup Nat.eq_dec (used i (tr1 ++ tr2))) (seq 0 4) = [[0]; [1]; [0]; [2]]%nat /\ opens tr2 = [(2%nat, ex_a)])%type.
Proof. vm_compute. repeat split. Qed.
