(** * Property C93: whatever the servers send, the calls over a connection get its responses in turn; these need not be answers to them. *)
From Verif Require Import Base Utf8 Decimal DepUrl Serde Procedure ScalarSpec PathSpec FieldSpec Status SerHeader SerRequest SerResponse DeHeader DeRequest DeResponse Router RouterSpec DepHttp
  Error Client ClientSpec Server ServerSpec EndToEndSpec SessionSpec Pool PoolSystem PoolSystemSpec PoolAnswerSpec PoolFairSpec HttpBytes HttpBytesSpec PoolBytesSpec CutsSpec WholeSpec
  PoolOnceSpec PoolTurnSpec PoolTurn
  PoolSystemReport
  Exhibit PathProps FieldProps RequestProps ResponseProps ProblemProps EndToEndProps SessionProps PoolProps PoolAnswerProps PoolServedProps HttpBytesProps PoolBytesProps.
Open Scope N_scope.

(** Nothing is assumed of the bytes that come.  A call that has finished did so over a connection to its own address, and
    with exactly what the bytes of this connection say when the calls that wrote on it are given its responses in the
    order in which they wrote. *)
Theorem C93_in_turn (F : floatlib) (U : urlenv) (trims : bool) (cl : limits) (far : conn -> bconn) tmax checks ls size d s tr i pc v b :
  (forall c, (length (b_held (far c)) <= most_bytes cl)%nat) -> prun tmax checks ls (psys_new size d) = (s, tr) -> Forall honest_label ls ->
  read_off trims cl far (plog tmax checks ls (psys_new size d)) -> told_apart checks s tr ->
  nth_error (s_calls s) i = Some pc -> c_state pc = Finished v b ->
  exists c n, In (EOpen c (c_addr pc)) tr /\ nth_error (writers_on c tr) n = Some i /\ nth_error (found_on trims cl far s tr c) n = Some (v, b).
Proof. exact (fun Fa Er Fh Ro => in_turn trims cl far tmax checks Fa ls size d s tr Er Fh Ro i pc v b). Qed.
Print Assumptions C93_in_turn.
(** Only the last call that wrote on a connection may have found no response there: after garbage, an error, or a response
    not of the type nothing is written on the connection any more. *)
Theorem C93_none_after (F : floatlib) (U : urlenv) (trims : bool) (cl : limits) (far : conn -> bconn) tmax checks ls size d s tr c :
  (forall c, (length (b_held (far c)) <= most_bytes cl)%nat) -> prun tmax checks ls (psys_new size d) = (s, tr) -> Forall honest_label ls ->
  read_off trims cl far (plog tmax checks ls (psys_new size d)) ->
  (length (writers_on c tr) <= S (length (found_on trims cl far s tr c)))%nat.
Proof. exact (fun Fa Er Fh Ro => none_after trims cl far tmax checks Fa ls size d s tr Er Fh Ro c). Qed.
Print Assumptions C93_none_after.

(** That a response comes from after the request is not among what is checked: there is a run at some point of which one
    call has been made and everything the peer ever sends has been read; then a second call is made, and it finishes. *)
Definition ex_stale_far (c : conn) : bconn :=
  mkBconn [] [flat_map (replying_bytes ex_reason) (match ex_read 0%nat with [a; _; b] => [a; b] | _ => [] end)] false None.
Definition ex_stale1 : list plabel := [fst (ex_do ex_a (ex_errand MPost [1; 2; 3])); fst (ex_pool 1); ex_atb 0 false 0; ex_atb 0 false 0; fst (ex_pool 2)].
Definition ex_stale2 : list plabel := [fst (ex_do ex_a (ex_errand MPost [9; 9])); fst (ex_pool 3); ex_atb 1 false 2; ex_atb 1 false 2].
Lemma ex_netb_honest slow k : honest (ex_netb slow k).
Proof.
  split; [|split].
  - intros r b c c' E. cbn [ex_netb w_write] in E. destruct slow; injection E; auto.
  - intros c x E. cbn [ex_netb w_head] in E. destruct (nth_error _ k) as [[h b]|]; cbn [settle] in E; [injection E as <-; reflexivity | discriminate].
  - intros x x' b E. cbn [ex_netb w_body] in E. destruct (nth_error _ k) as [[h [b'|]]|]; [destruct slow; injection E as <- _; reflexivity | discriminate..].
Qed.
Theorem C93_asked_before_refuted : exists (F : floatlib) (U : urlenv) trims cl far tmax checks ls1 ls2 size d s1 tr1 s tr pc v b c,
  (forall c, (length (b_held (far c)) <= most_bytes cl)%nat) /\ Forall honest_label (ls1 ++ ls2) /\ read_off trims cl far (plog tmax checks (ls1 ++ ls2) (psys_new size d)) /\
  prun tmax checks ls1 (psys_new size d) = (s1, tr1) /\ prun tmax checks (ls1 ++ ls2) (psys_new size d) = (s, tr) /\
  length (s_calls s1) = 1%nat /\ b_coming (after_acts trims cl tr1 far c) = [] /\
  nth_error (s_calls s) 1 = Some pc /\ c_state pc = Finished v b /\ writers_on c tr = [0; 1]%nat.
Proof.
  exists ex_float, ex_url, true, ex_climits, ex_stale_far, 100%Z, true, ex_stale1, ex_stale2, 3, 10%Z.
  eexists _, _, _, _, _, _, _, 0%nat.
  split; [intros c; apply Nat.le_0_l|]. split; [repeat (constructor; [first [exact I | apply ex_netb_honest]|]); constructor|]. split; [apply read_checked; vm_compute; reflexivity|].
  do 2 (split; [vm_compute; reflexivity|]). repeat split; vm_compute; reflexivity.
Qed.
Print Assumptions C93_asked_before_refuted.

(** ** Cases: the five calls of C73 over two connections; and the run just given, in which a call with the body 9 9 gets a
    response that says 7 6 5. *)
Definition ex_outcomes (s : psys) : list (option (bytes * bytes)) := map (fun pc => match c_state pc with Finished _ b => Some (snd (c_req pc), b) | _ => None end) (s_calls s).
Example C93_case : let F := ex_float in let U := ex_url in let s := ex_stateb 31 in let tr := concat (map snd (ex_logb 31)) in
  (forall c, (length (b_held (ex_farb c)) <= most_bytes ex_climits)%nat) /\ prun 100 true (map ex_schedb (seq 0 31)) (psys_new 3 10) = (s, tr) /\
  Forall honest_label (map ex_schedb (seq 0 31)) /\ read_off true ex_climits ex_farb (ex_logb 31) /\ told_apart true s tr /\
  map (fun c => map (fun x => length (snd x)) (found_on true ex_climits ex_farb s tr c)) [0; 1]%nat = [[3; 60; 3]; [187; 0]]%nat /\
  map (option_map (fun x => length (snd x))) (ex_outcomes s) = [Some 3; Some 187; Some 0; Some 60; Some 3]%nat /\ writers_on 0%nat tr = [0; 3; 4]%nat /\ writers_on 1%nat tr = [1; 2]%nat.
Proof.
  intros F U s tr. pose proof C73_case as C. cbv zeta in C. destruct C as (Ho & _ & _ & _ & _ & Un & _). specialize (Un 31%nat ltac:(lia)). destruct Un as (_ & _ & _ & O).
  split; [intros c; apply Nat.le_0_l|]. split; [unfold tr, ex_logb; rewrite <- PoolSystemReport.prun_log; apply surjective_pairing|].
  split; [apply Forall_forall; intros l I; apply in_map_iff in I; destruct I as (n & <- & _); apply Ho|]. split; [exact (ot_read _ _ _ _ _ _ _ _ _ _ _ O)|]. split; [left; reflexivity|].
  do 3 (split; [vm_compute; reflexivity|]). vm_compute. reflexivity.
Qed.
Example C93_stale_case : let F := ex_float in let U := ex_url in let '(s, tr) := prun 100 true (ex_stale1 ++ ex_stale2) (psys_new 3 10) in
  ex_outcomes s = [Some ([1; 2; 3], [3; 2; 1]); Some ([9; 9], [7; 6; 5])] /\ found_on true ex_climits ex_stale_far s tr 0%nat = [ex_ok [3; 2; 1]; ex_ok [7; 6; 5]].
Proof. vm_compute. split; reflexivity. Qed.
