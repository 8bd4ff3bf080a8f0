(** * Property C73: calls through a pool whose connections carry bytes, in any pieces. *)
From Verif Require Import Base Utf8 Decimal DepUrl Serde Procedure FieldSpec Status SerHeader SerRequest SerResponse DeHeader DeRequest DeResponse Router RouterSpec DepHttp
  Error Client ClientSpec Server ServerSpec EndToEndSpec SessionSpec Pool PoolSystem PoolSystemSpec PoolAnswerSpec PoolAnswer PoolCauseSpec PoolFairSpec
  HttpBytes HttpBytesSpec HttpBytesProofs PoolBytesSpec PoolBytes PoolBytesServed
  Exhibit PathProps FieldProps RequestProps ResponseProps ProblemProps EndToEndProps SessionProps PoolProps PoolAnswerProps PoolServedProps HttpBytesProps.
Open Scope N_scope.

(** A response and a body that come for a call are the reply, byte for byte and header for header, of the server at the
    call's address to the call's own request, as the server reads it from the bytes of the connection. *)
Theorem C73_own_response (F : floatlib) (U : urlenv) (R : Type) (explain : request bconn -> ekind -> ustr * option ustr * option (list ustr)) (reason : status -> ustr)
  (trims : bool) (uri_byte : N -> bool) (cl sl : limits) (ps : saddr -> list (hproc bconn R)) (far near : conn -> bconn) tmax checks ls size d s tr i pc x b :
  prun tmax checks ls (psys_new size d) = (s, tr) -> Forall honest_label ls -> told_apart checks s tr ->
  over_tcp explain reason trims uri_byte cl sl ps far near s (plog tmax checks ls (psys_new size d)) ->
  nth_error (s_calls s) i = Some pc -> received (pr_method (c_proc pc)) (plog tmax checks ls (psys_new size d)) i x b ->
  own_reply_bytes explain reason trims uri_byte sl ps pc (r_code x) (r_headers x) b.
Proof. exact (own_replies explain reason trims uri_byte cl sl ps far near tmax checks ls size d s tr i pc x b). Qed.
Print Assumptions C73_own_response.

(** So a call that has finished has the answer to its own request. *)
Theorem C73_own_answer (F : floatlib) (U : urlenv) (R : Type) (explain : request bconn -> ekind -> ustr * option ustr * option (list ustr)) (reason : status -> ustr)
  (trims : bool) (uri_byte : N -> bool) (cl sl : limits) (ps : saddr -> list (hproc bconn R)) (far near : conn -> bconn) tmax checks ls size d s tr i pc v b :
  prun tmax checks ls (psys_new size d) = (s, tr) -> Forall honest_label ls -> told_apart checks s tr ->
  over_tcp explain reason trims uri_byte cl sl ps far near s (plog tmax checks ls (psys_new size d)) ->
  nth_error (s_calls s) i = Some pc -> c_state pc = Finished v b ->
  exists code hs, own_reply_bytes explain reason trims uri_byte sl ps pc code hs b /\ de_response code hs (pr_resp (c_proc pc)) = Ok v.
Proof. exact (own_answers_bytes explain reason trims uri_byte cl sl ps far near tmax checks ls size d s tr i pc v b). Qed.
Print Assumptions C73_own_answer.

(** If nothing goes wrong, a call of which C70 says what it comes to never fails: unless its user drops it, it is under
    way, or it has come to that. *)
Theorem C73_never_lost (F : floatlib) (U : urlenv) (R : Type) (explain : request bconn -> ekind -> ustr * option ustr * option (list ustr)) (reason : status -> ustr)
  (trims : bool) (uri_byte : N -> bool) (cl sl : limits) (ps : saddr -> list (hproc bconn R)) (far near : conn -> bconn) tmax checks ls size d s tr i pc o :
  prun tmax checks ls (psys_new size d) = (s, tr) -> Forall honest_label ls ->
  untroubled_bytes explain reason trims uri_byte cl sl ps far near checks s (plog tmax checks ls (psys_new size d)) ->
  nth_error (s_calls s) i = Some pc ->
  exchanged explain reason trims uri_byte cl sl (ps (c_addr pc)) (mkErrand (c_proc pc) (fst (c_req pc)) (snd (c_req pc))) o ->
  match c_state pc with
  | Acquiring _ | Talking _ _ => True
  | Finished v b => (v, b) = o
  | Dropped => In (LDrop i, []) (plog tmax checks ls (psys_new size d))
  | Broken _ | Panicked => False
  end.
Proof. exact (well_served_bytes explain reason trims uri_byte cl sl ps far near tmax checks ls size d s tr i pc o). Qed.
Print Assumptions C73_never_lost.

(** And under a schedule that gives the pool and the call their turns again and again, it has come to it from some time on,
    whatever the other calls do. *)
Theorem C73_served_in_the_end (F : floatlib) (U : urlenv) (R : Type) (explain : request bconn -> ekind -> ustr * option ustr * option (list ustr)) (reason : status -> ustr)
  (trims : bool) (uri_byte : N -> bool) (cl sl : limits) (ps : saddr -> list (hproc bconn R)) (far near : conn -> bconn) tmax checks (sched : nat -> plabel) size d i n0 pc o :
  (forall n, honest_label (sched n)) -> (forall n, answering_label (sched n)) -> again pool_turn sched -> again (poll_of i) sched -> (forall n, ~ drop_of i (sched n)) ->
  (forall n, (n0 <= n)%nat -> untroubled_bytes explain reason trims uri_byte cl sl ps far near checks (at_time tmax checks sched n (psys_new size d)) (plog tmax checks (map sched (seq 0 n)) (psys_new size d))) ->
  nth_error (s_calls (at_time tmax checks sched n0 (psys_new size d))) i = Some pc ->
  exchanged explain reason trims uri_byte cl sl (ps (c_addr pc)) (mkErrand (c_proc pc) (fst (c_req pc)) (snd (c_req pc))) o ->
  exists n', (n0 <= n')%nat /\ forall m, (n' <= m)%nat -> state_of i (at_time tmax checks sched m (psys_new size d)) = Some (Finished (fst o) (snd o)).
Proof. exact (served_in_the_end_bytes explain reason trims uri_byte cl sl ps far near tmax checks sched size d i n0 pc o). Qed.
Print Assumptions C73_served_in_the_end.

(** ** A case: the calls of C62 and C66, over connections that carry bytes in pieces of 29 and 37, with pauses. *)
Definition ex_serversb (a : saddr) := if saddr_eqb a ex_a then ex_psb else [ex_hprocb MDelete ex_bool_ty; ex_hprocb MHead ex_req_ty].
Definition ex_nearb (c : conn) : bconn := let b := flat_map asking_bytes (sc_queue (ex_near c)) in mkBconn [] (cut (length b) 29 b) false None.
Definition ex_repliesb (c : conn) : list replying := let F := ex_float in let U := ex_url in
  replies_on ex_explainb ex_reason (byte_link true ex_uri server_limits) ex_serversb ex_nearb (ex_to c) c 90.
Definition ex_replies0 := Eval vm_compute in ex_repliesb 0%nat.
Definition ex_replies1 := Eval vm_compute in ex_repliesb 1%nat.
Definition ex_read (c : conn) : list replying := match c with O => ex_replies0 | S O => ex_replies1 | _ => [] end.
Definition ex_farb (c : conn) : bconn := let b := flat_map (replying_bytes ex_reason) (ex_read c) in mkBconn [] (cut (length b) 37 b) false None.
(** A network for the call that is the [k]th to use its connection. *)
Definition ex_netb (slow : bool) (k : nat) : wire conn := {|
  w_write := fun _ _ c => if slow then Later (Ready c) else Ready c;
  w_head := fun c => match nth_error (ex_read c) k with
    | Some (h, _) => Later (Ready (mkResponse (code_of (pb_status h)) (pb_headers h) c))
    | None => Failed FromIo end;
  w_body := fun x => match nth_error (ex_read (r_conn x)) k with Some (_, Some b) => if slow then Later (Ready (x, b)) else Ready (x, b) | _ => Failed FromIo end
|}.
Definition ex_atb (i : nat) (slow : bool) (k : nat) : plabel := LPoll i (ex_netb slow k).
Definition ex_turnsb : list plabel :=
  [fst (ex_do ex_a (ex_errand MPost [1; 2; 3])); fst (ex_do ex_b (ex_errand MDelete [9])); fst (ex_pool 1); fst (ex_pool 2);
   ex_atb 0 true 0; ex_atb 1 false 0; ex_atb 0 true 0; ex_atb 1 true 0; ex_atb 0 true 0; ex_atb 1 true 0; fst (ex_pool 3); ex_atb 0 true 0; fst (ex_pool 3);
   fst (ex_do ex_b (ex_errand MHead [4])); fst (ex_do ex_a (ex_errand MPut [])); fst (ex_pool 4); fst (ex_pool 5); ex_atb 3 false 1; ex_atb 2 true 1; ex_atb 3 false 1; ex_atb 2 false 1; fst (ex_pool 6);
   fst (ex_do ex_a (ex_errand MPost [5; 6; 7])); fst (ex_pool 7); ex_atb 2 false 1; ex_atb 4 false 2; ex_atb 4 false 2].
Definition ex_schedb (n : nat) : plabel := match nth_error ex_turnsb n with Some l => l | None => if Nat.even n then fst (ex_pool 8) else ex_atb 4 false 2 end.
Definition ex_stateb (n : nat) : psys := let F := ex_float in let U := ex_url in at_time 100 true ex_schedb n (psys_new 3 10).
Definition ex_logb (n : nat) := let F := ex_float in let U := ex_url in plog 100 true (map ex_schedb (seq 0 n)) (psys_new 3 10).

(** Checks by computing. *)
Definition headers_eqb (a b : list rheader) : bool := if list_eq_dec (fun x y : rheader => ltac:(repeat decide equality)) a b then true else false.
Definition act_checkb (st : conn -> bconn) (w : wire conn) (e : pevent) : bool :=
  match e with
  | EAct _ (ReadHead c) => match settle (w_head w c), settle (byte_head true ex_climits (st c)) with
      | Comes x, Comes y => (r_code x =? r_code y) && headers_eqb (r_headers x) (r_headers y)
      | Comes _, _ => false
      | _, _ => true end
  | EAct _ (ReadBody x) => match settle (w_body w x), settle (read_body (st (r_conn x))) with
      | Comes (x', b), Comes (b', _) => (r_code x' =? r_code x) && headers_eqb (r_headers x') (r_headers x) && ustr_eqb b b'
      | Comes _, _ => false
      | _, _ => true end
  | _ => true
  end.
Fixpoint acts_checkb (st : conn -> bconn) (w : wire conn) (t : list pevent) : bool :=
  match t with [] => true | e :: t => act_checkb st w e && acts_checkb (after_act true ex_climits st e) w t end.
Fixpoint read_check (st : conn -> bconn) (lg : list (plabel * list pevent)) : bool :=
  match lg with
  | [] => true
  | (l, t) :: r => match l with LPoll _ w => acts_checkb st w t | _ => true end && read_check (after_acts true ex_climits t st) r
  end.
Lemma headers_eqb_eq a b : headers_eqb a b = true -> a = b.
Proof. unfold headers_eqb. destruct (list_eq_dec _ a b); [auto | discriminate]. Qed.
Lemma acts_checkedb w t : forall st, acts_checkb st w t = true -> acts_bytes true ex_climits st w t.
Proof.
  induction t as [|e t IH]; intros st Q; [exact I|]. cbn [acts_checkb] in Q. apply andb_true_iff in Q. destruct Q as [Q1 Q2]. split; [|exact (IH _ Q2)].
  destruct e as [|i [r b c|c|x]| |]; try exact I; cbn [act_checkb act_bytes] in *.
  - intros x E. rewrite E in Q1. destruct (settle (byte_head true ex_climits (st c))) as [[n hs c']|e|]; try discriminate. apply andb_true_iff in Q1. destruct Q1 as [Q1 Q3].
    cbn [r_code r_headers] in *. apply N.eqb_eq in Q1. apply headers_eqb_eq in Q3. subst n hs. exists c'. reflexivity.
  - intros x' b E. rewrite E in Q1. destruct (settle (read_body (st (r_conn x)))) as [[b' c']|e|]; try discriminate. apply andb_true_iff in Q1. destruct Q1 as [Q1 Q3]. apply andb_true_iff in Q1. destruct Q1 as [Q1 Q4].
    apply N.eqb_eq in Q1. apply headers_eqb_eq in Q4. apply ustr_eqb_eq in Q3. subst b'. split; [exact Q1|]. split; [exact Q4|]. exists c'. reflexivity.
Qed.
Lemma read_checked lg : forall st, read_check st lg = true -> read_off true ex_climits st lg.
Proof.
  induction lg as [|[l t] lg IH]; intros st Q; [exact I|]. cbn [read_check] in Q. apply andb_true_iff in Q. destruct Q as [Q1 Q2]. split; [|exact (IH _ Q2)].
  destruct l; try exact I. exact (acts_checkedb _ _ _ Q1).
Qed.
Definition length_check (hs : list rheader) (n : nat) : bool :=
  match rev hs with
  | (k, v) :: r => ustr_eqb (lowercase k) (u "content-length") && ustr_eqb v (show_N (N.of_nat n)) && forallb (fun h => negb (is_length h)) r
  | [] => false
  end.
Lemma length_checked hs n : length_check hs n = true -> tells_length hs (N.of_nat n).
Proof.
  unfold length_check. destruct (rev hs) as [|[k v] r] eqn:E; [discriminate|]. intros Q. apply andb_true_iff in Q. destruct Q as [Q Q3]. apply andb_true_iff in Q. destruct Q as [Q1 Q2].
  apply ustr_eqb_eq in Q1. apply ustr_eqb_eq in Q2. subst v. exists (rev r), k, []. split; [|split; [exact Q1|]].
  - rewrite <- (rev_involutive hs), E. reflexivity.
  - intros h Ih Nl. rewrite app_nil_r, <- in_rev in Ih. rewrite forallb_forall in Q3. specialize (Q3 h Ih). apply is_length_iff in Nl. rewrite Nl in Q3. discriminate.
Qed.
Definition fit_checkq (x : asking) : bool := let r := a_request x in
  match rb_target r with [] => false | _ => true end && forallb (fun c => ex_uri c && negb (c =? 32)) (rb_target r) && forallb safe_header (rb_headers r) && length_check (rb_headers r) (length (a_body x)) &&
  (length (request_head (a_method x) r) <=? N.to_nat 8096)%nat && (length (rb_headers r) <=? 32)%nat.
Lemma fit_checkedq x : fit_checkq x = true -> fit_request ex_uri server_limits (a_method x) (a_request x) (a_body x).
Proof.
  unfold fit_checkq. rewrite !andb_true_iff. intros [[[[[Q1 Q2] Q3] Q4] Q5] Q6]. split.
  - split; [destruct (rb_target (a_request x)); discriminate|]. intros c Ic. rewrite forallb_forall in Q2. specialize (Q2 c Ic). apply andb_true_iff in Q2. destruct Q2 as [Q2 Q7]. split; [exact Q2|]. intros ->. discriminate Q7.
  - exact Q3.
  - exact (length_checked _ _ Q4).
  - apply Nat.leb_le. exact Q5.
  - apply Nat.leb_le. exact Q6.
Qed.
Definition fit_checkp (h : respb) (n : nat) : bool :=
  forallb value_byte (ex_reason (pb_status h)) && forallb safe_header (pb_headers h) && length_check (pb_headers h) n && (length (response_head ex_reason h) <=? N.to_nat 8096)%nat && (length (pb_headers h) <=? 32)%nat.
Lemma fit_checkedp h b : fit_checkp h (length b) = true -> fit_response ex_reason ex_climits h b.
Proof.
  unfold fit_checkp. rewrite !andb_true_iff. intros [[[[Q1 Q2] Q3] Q4] Q5]. split; [exact Q1 | exact Q2 | exact (length_checked _ _ Q3) | apply Nat.leb_le; exact Q4 | apply Nat.leb_le; exact Q5].
Qed.

Lemma takes_ex m t : takes_body (ex_hprocb m t).
Proof.
  intros v q q' x n E L. cbn [hp_body ex_hprocb] in E. rewrite ServerProofs.settle_bind in E. destruct (settle (read_body (q_conn q))) as [[b c]|e|] eqn:Eb; try discriminate E.
  cbn [settle] in E. injection E as <- <-. destruct (body_comes_only _ _ _ _ Eb L) as [E1 E2]. exists b. split; [exact E1 | exact E2].
Qed.
Definition body_size (r : replying) : nat := match snd r with Some b => length b | None => match body_length (pb_headers (fst r)) with Some n => n | None => 0%nat end end.
Lemma ex_replied_fit c h b n : nth_error (ex_read c) n = Some (h, b) -> forallb (fun r => fit_checkp (fst r) (body_size r)) (ex_read c) = true ->
  exists b0, fit_response ex_reason ex_climits h b0 /\ (b = None \/ b = Some b0).
Proof.
  intros E Q. rewrite forallb_forall in Q. specialize (Q _ (nth_error_In _ _ E)). cbn [fst] in Q. unfold body_size in Q. cbn [snd fst] in Q. destruct b as [b|].
  - exists b. split; [exact (fit_checkedp _ _ Q) | right; reflexivity].
  - exists (repeat 0 (match body_length (pb_headers h) with Some n => n | None => 0%nat end)). split; [apply fit_checkedp; rewrite repeat_length; exact Q | left; reflexivity].
Qed.
Example C73_case : let F := ex_float in let U := ex_url in
  (forall n, honest_label (ex_schedb n)) /\ (forall n, answering_label (ex_schedb n)) /\ again pool_turn ex_schedb /\ again (poll_of 4) ex_schedb /\ (forall n, ~ drop_of 4 (ex_schedb n)) /\
  (forall n, (23 <= n)%nat -> untroubled_bytes ex_explainb ex_reason true ex_uri ex_climits server_limits ex_serversb ex_farb ex_nearb true (ex_stateb n) (ex_logb n)) /\
  (exists pc, nth_error (s_calls (ex_stateb 23)) 4 = Some pc /\ c_state pc = Acquiring None /\
    exchanged ex_explainb ex_reason true ex_uri ex_climits server_limits (ex_serversb (c_addr pc)) (mkErrand (c_proc pc) (fst (c_req pc)) (snd (c_req pc))) (ex_ok [7; 6; 5])) /\
  used 4 (concat (map snd (ex_logb 31))) = [0; 0; 0]%nat /\
  map (fun c => length (b_coming (ex_nearb c))) [0; 1]%nat = [30; 20]%nat.
Proof.
  cbv zeta.
  assert (Le : length ex_turnsb = 27%nat) by reflexivity.
  assert (Te : forall n, (27 <= n)%nat -> ex_schedb n = if Nat.even n then LPool 8 (Ready tt) else LPoll 4 (ex_netb false 2)).
  { intros n L. unfold ex_schedb. rewrite (proj2 (nth_error_None ex_turnsb n)) by lia. destruct (Nat.even n); reflexivity. }
  assert (Sp : forall P : plabel -> Prop, Forall P ex_turnsb -> P (LPool 8 (Ready tt)) -> P (LPoll 4 (ex_netb false 2)) -> forall n, P (ex_schedb n)).
  { intros P Fa P1 P2 n. destruct (Nat.le_gt_cases 27 n) as [L|L]; [rewrite Te by exact L; destruct (Nat.even n); assumption|].
    unfold ex_schedb. destruct (nth_error ex_turnsb n) as [l|] eqn:E; [|apply nth_error_None in E; lia]. rewrite Forall_forall in Fa. apply Fa, (nth_error_In _ _ E). }
  assert (An : forall slow k, answering (ex_netb slow k)).
  { intros slow k. split; [|split].
    - intros r b c. unfold ends. cbn [ex_netb w_write]. destruct slow; discriminate.
    - intros c. unfold ends. cbn [ex_netb w_head]. destruct (nth_error _ k) as [[h b]|]; discriminate.
    - intros x. unfold ends. cbn [ex_netb w_body]. destruct (nth_error _ k) as [[h [b|]]|]; [destruct slow; discriminate | discriminate..]. }
  assert (Ho : forall slow k, honest (ex_netb slow k)).
  { intros slow k. split; [|split].
    - intros r b c c' E. cbn [ex_netb w_write] in E. destruct slow; injection E; auto.
    - intros c x E. cbn [ex_netb w_head] in E. destruct (nth_error _ k) as [[h b]|]; cbn [settle] in E; [injection E as <-; reflexivity | discriminate].
    - intros x x' b E. cbn [ex_netb w_body] in E. destruct (nth_error _ k) as [[h [b'|]]|]; [destruct slow; injection E as <- _; reflexivity | discriminate..]. }
  (* the run is over after 31 labels *)
  assert (St : forall k, ex_stateb (31 + k) = ex_stateb 31 /\ ex_logb (31 + k) = ex_logb 31).
  { assert (No : forall l, l = LPool 8 (Ready tt) \/ l = LPoll 4 (ex_netb false 2) -> @PoolSystem.pstep ex_float ex_url 100 true l (@at_time ex_float ex_url 100 true ex_schedb 31 (psys_new 3 10)) = None) by (intros l [-> | ->]; vm_compute; reflexivity).
    unfold ex_stateb, ex_logb.
    intros k. apply (@run_over ex_float ex_url). intros m. apply No. rewrite Te by lia. destruct (Nat.even (31 + m)); auto. }
  assert (Rd : forall c, (c < 2)%nat -> @replies_on ex_float ex_url bconn (value * bytes) ex_explainb ex_reason (byte_link true ex_uri server_limits) ex_serversb ex_nearb (ex_to c) c 90 = ex_read c).
  { intros c L. destruct c as [|[|c]]; [vm_compute; reflexivity | vm_compute; reflexivity | lia]. }
  (* what to check of one time *)
  assert (Ne : forall c, stream (ex_nearb c) = flat_map asking_bytes (sc_queue (ex_near c))) by (intros [|[|c]]; vm_compute; reflexivity).
  assert (Fq : forall c x, In x (sc_queue (ex_near c)) -> @fit_request ex_uri server_limits (a_method x) (a_request x) (a_body x)).
  { intros c x Ix. apply fit_checkedq. revert x Ix. apply forallb_forall. destruct c as [|[|c]]; vm_compute; reflexivity. }
  (* what to check of one time *)
  assert (Ch : forall n, (forall c, exists k, asked_on (ex_stateb n) c (concat (map snd (ex_logb n))) = firstn k (sc_queue (ex_near c))) ->
    (given_back (concat (map snd (ex_logb n))) <? 2 ^ 64) = true -> forallb well_check (ex_logb n) = true -> opens (concat (map snd (ex_logb n))) = [(0%nat, ex_a); (1%nat, ex_b)] ->
    read_check ex_farb (ex_logb n) = true ->
    @untroubled_bytes ex_float ex_url (value * bytes) ex_explainb ex_reason true ex_uri ex_climits server_limits ex_serversb ex_farb ex_nearb true (ex_stateb n) (ex_logb n)).
  { intros n H1 H2 H3 H4 H5. split; [left; reflexivity|]. split; [right; apply N.ltb_lt, H2|]. split; [apply well_checked, H3|].
    assert (Op : forall c a, In (EOpen c a) (concat (map snd (ex_logb n))) -> (c < 2)%nat /\ a = ex_to c).
    { intros c a Ia. apply PoolSystemAddr.opens_in in Ia. rewrite H4 in Ia. destruct Ia as [[= <- <-]|[[= <- <-]|[]]]; (split; [lia | reflexivity]). }
    split.
    - intros a hp Ih. unfold ex_serversb in Ih. destruct (saddr_eqb a ex_a); repeat (destruct Ih as [<-|Ih]; [apply takes_ex|]); destruct Ih.
    - intros c. destruct (H1 c) as [k E]. rewrite E, Ne. right. exists (flat_map asking_bytes (skipn k (sc_queue (ex_near c)))). rewrite <- flat_map_app, firstn_skipn. reflexivity.
    - intros c x Ix. destruct (H1 c) as [k E]. rewrite E in Ix. apply (Fq c). rewrite <- (firstn_skipn k (sc_queue (ex_near c))). apply in_or_app. left. exact Ix.
    - intros c a Ia. destruct (Op c a Ia) as [Lc ->]. exists 90%nat. rewrite (Rd c Lc). exists []. rewrite app_nil_r.
      destruct c as [|[|c]]; [vm_compute; reflexivity | vm_compute; reflexivity | lia].
    - intros c a m h b Ia Nr Lm. destruct (Op c a Ia) as [Lc ->]. destruct (H1 c) as [k E]. rewrite E in Lm.
      assert (Lr : (length (firstn k (sc_queue (ex_near c))) <= length (ex_read c))%nat).
      { rewrite firstn_length. apply (Nat.le_trans _ (length (sc_queue (ex_near c)))); [apply Nat.le_min_r|]. apply Nat.leb_le. destruct c as [|[|c]]; [vm_compute; reflexivity | vm_compute; reflexivity | lia]. }
      destruct (nth_error (ex_read c) m) as [[h' b']|] eqn:Er; [|apply nth_error_None in Er; lia].
      assert (Nr' : @nth_reply ex_float ex_url _ _ ex_explainb ex_reason (byte_link true ex_uri server_limits) ex_serversb ex_nearb (ex_to c) c m h' b').
      { exists 90%nat. rewrite (Rd c Lc). exact Er. }
      destruct (nth_reply_same _ _ _ _ _ _ _ _ _ _ _ _ Nr Nr') as [-> ->]. apply (ex_replied_fit c _ _ _ Er).
      destruct c as [|[|c]]; [vm_compute; reflexivity | vm_compute; reflexivity | lia].
    - exact (read_checked _ _ H5). }
  split; [|split; [|split; [|split; [|split; [|split; [|split; [|split]]]]]]].
  - apply Sp; [repeat (apply Forall_cons; [first [exact I | apply Ho]|]); constructor | exact I | apply Ho].
  - apply Sp; [repeat (apply Forall_cons; [first [exact I | discriminate | apply An]|]); constructor | discriminate | apply An].
  - intros n. exists (2 * (n + 14))%nat. split; [lia|]. rewrite Te by lia. rewrite Nat.even_mul. exact I.
  - intros n. exists (S (2 * (n + 14)))%nat. split; [lia|]. rewrite Te by lia. rewrite Nat.even_succ, Nat.odd_mul. reflexivity.
  - apply (Sp (fun l => ~ drop_of 4 l)); [repeat (apply Forall_cons; [intros []|]); constructor | intros [] | intros []].
  - assert (K : forall n, (23 <= n <= 31)%nat -> @untroubled_bytes ex_float ex_url (value * bytes) ex_explainb ex_reason true ex_uri ex_climits server_limits ex_serversb ex_farb ex_nearb true (ex_stateb n) (ex_logb n)).
    { assert (Ca : forall c n, In n (seq 23 9) -> asked_on (ex_stateb n) c (concat (map snd (ex_logb n))) = firstn (length (asked_on (ex_stateb n) c (concat (map snd (ex_logb n))))) (sc_queue (ex_near c))).
      { intros c. apply map_eq. destruct c as [|[|c]]; vm_compute; reflexivity. }
      assert (Cb : forallb (fun n => (given_back (concat (map snd (ex_logb n))) <? 2 ^ 64) && forallb well_check (ex_logb n) && read_check ex_farb (ex_logb n)) (seq 23 9) = true) by (vm_compute; reflexivity).
      assert (Co : forall n, In n (seq 23 9) -> opens (concat (map snd (ex_logb n))) = [(0%nat, ex_a); (1%nat, ex_b)]) by (apply (map_eq _ (fun _ => _)); vm_compute; reflexivity).
      rewrite forallb_forall in Cb. intros n L. assert (In n (seq 23 9)) as Is by (apply in_seq; lia). specialize (Cb n Is). apply andb_true_iff in Cb. destruct Cb as [Cb C3]. apply andb_true_iff in Cb. destruct Cb as [C1 C2].
      apply Ch; [intros c; eexists; exact (Ca c n Is) | exact C1 | exact C2 | exact (Co n Is) | exact C3]. }
    intros n L. destruct (Nat.le_gt_cases n 31) as [L'|L']; [exact (K n (conj L L'))|]. destruct (St (n - 31)%nat) as [E1 E2]. replace (31 + (n - 31))%nat with n in * by lia. rewrite E1, E2. apply K. lia.
  - assert (Q : option_map (fun pc => (c_addr pc, mkErrand (c_proc pc) (fst (c_req pc)) (snd (c_req pc)), match c_state pc with Acquiring None => true | _ => false end)) (nth_error (s_calls (ex_stateb 23)) 4) = Some (ex_a, ex_errand MPost [5; 6; 7], true)) by (vm_compute; reflexivity).
    destruct (nth_error (s_calls (ex_stateb 23)) 4) as [pc|]; [|discriminate Q]. cbn [option_map] in Q. exists pc. split; [reflexivity|].
    assert (Q1 : c_addr pc = ex_a) by congruence. assert (Q2 : mkErrand (c_proc pc) (fst (c_req pc)) (snd (c_req pc)) = ex_errand MPost [5; 6; 7]) by congruence.
    split; [destruct (c_state pc) as [[a|]| | | | |]; congruence|]. rewrite Q1, Q2. change (ex_serversb ex_a) with ex_psb. apply C70_handled. exact (C70_case_handled _ (or_intror (or_introl eq_refl)) [5; 6; 7] eq_refl).
  - vm_compute. reflexivity.
  - vm_compute. reflexivity.
Qed.
