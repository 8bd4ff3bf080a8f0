(** * Property C66: calls through a pool come to the answer they are meant to have, in the end, if nothing goes wrong. *)
From Verif Require Import Base Utf8 Decimal DepUrl Serde Procedure FieldSpec Status SerHeader SerRequest SerResponse DeHeader DeRequest DeResponse Router RouterSpec DepHttp
  Error Client ClientSpec Server ServerSpec EndToEndSpec SessionSpec Pool PoolSystem PoolSystemSpec PoolAnswerSpec PoolAnswer PoolCauseSpec PoolCause PoolReceivedSpec PoolReceived PoolFairSpec PoolServed
  Exhibit PathProps FieldProps RequestProps ResponseProps ProblemProps EndToEndProps SessionProps PoolProps PoolAnswerProps.
Open Scope N_scope.

(** A response and a body that come for a call are the reply to its own request, whether or not the call can read them and whatever becomes of it. *)
Theorem C66_own_response (F : floatlib) (U : urlenv) (W : httpenv) (SConn R : Type)
  (explain : request SConn -> ekind -> ustr * option ustr * option (list ustr)) (reason : status -> ustr) (ln : link SConn)
  (ps : saddr -> list (hproc SConn R)) (near : conn -> SConn) (queue : SConn -> list asking) (content : SConn -> bytes)
  tmax checks ls size d s tr i pc x b :
  prun tmax checks ls (psys_new size d) = (s, tr) -> Forall honest_label ls -> told_apart checks s tr ->
  reading ln ps queue content -> (forall c, agrees (queue (near c)) (asked_on s c tr)) ->
  orderly explain reason ln ps near (fun c a => In (EOpen c a) tr) [] (plog tmax checks ls (psys_new size d)) ->
  nth_error (s_calls s) i = Some pc -> received (pr_method (c_proc pc)) (plog tmax checks ls (psys_new size d)) i x b ->
  own_reply explain reason ln ps content pc x b.
Proof. exact (own_received explain reason ln ps near queue content tmax checks ls size d s tr i pc x b). Qed.
Print Assumptions C66_own_response.

(** If nothing goes wrong, a call of a procedure the server has, with a request that suits it (C50), never fails: unless its user drops it, it is under way, or it has
    come to the handler's answer. *)
Theorem C66_never_lost (F : floatlib) (U : urlenv) (W : httpenv) (SConn R : Type)
  (explain : request SConn -> ekind -> ustr * option ustr * option (list ustr)) (reason : status -> ustr) (ln : link SConn)
  (ps : saddr -> list (hproc SConn R)) (near : conn -> SConn) (queue : SConn -> list asking) (content : SConn -> bytes)
  tmax checks ls size d s tr i pc o :
  prun tmax checks ls (psys_new size d) = (s, tr) -> Forall honest_label ls -> reading ln ps queue content ->
  untroubled explain reason ln ps near queue checks s (plog tmax checks ls (psys_new size d)) ->
  nth_error (s_calls s) i = Some pc ->
  SessionSpec.served (ps (c_addr pc)) queue content (mkErrand (c_proc pc) (fst (c_req pc)) (snd (c_req pc))) o ->
  match c_state pc with
  | Acquiring _ | Talking _ _ => True
  | Finished v b => (v, b) = o
  | Dropped => In (LDrop i, []) (plog tmax checks ls (psys_new size d))
  | Broken _ | Panicked => False
  end.
Proof. exact (well_served explain reason ln ps near queue content tmax checks ls size d s tr i pc o). Qed.
Print Assumptions C66_never_lost.

(** And under a schedule that gives the pool and the call their turns again and again, it has come to it from some time on, whatever the other calls do. *)
Theorem C66_served_in_the_end (F : floatlib) (U : urlenv) (W : httpenv) (SConn R : Type)
  (explain : request SConn -> ekind -> ustr * option ustr * option (list ustr)) (reason : status -> ustr) (ln : link SConn)
  (ps : saddr -> list (hproc SConn R)) (near : conn -> SConn) (queue : SConn -> list asking) (content : SConn -> bytes)
  tmax checks (sched : nat -> plabel) size d i n0 pc o :
  (forall n, honest_label (sched n)) -> (forall n, answering_label (sched n)) -> again pool_turn sched -> again (poll_of i) sched -> (forall n, ~ drop_of i (sched n)) ->
  reading ln ps queue content ->
  (forall n, (n0 <= n)%nat -> untroubled explain reason ln ps near queue checks (at_time tmax checks sched n (psys_new size d)) (plog tmax checks (map sched (seq 0 n)) (psys_new size d))) ->
  nth_error (s_calls (at_time tmax checks sched n0 (psys_new size d))) i = Some pc ->
  SessionSpec.served (ps (c_addr pc)) queue content (mkErrand (c_proc pc) (fst (c_req pc)) (snd (c_req pc))) o ->
  exists n', (n0 <= n')%nat /\ forall m, (n' <= m)%nat -> state_of i (at_time tmax checks sched m (psys_new size d)) = Some (Finished (fst o) (snd o)).
Proof. exact (served_in_the_end explain reason ln ps near queue content tmax checks sched size d i n0 pc o). Qed.
Print Assumptions C66_served_in_the_end.

(** ** A case: the run of C62's case, continued for ever.  Its fifth call is the third to use its connection. *)
Definition ex_turn5 (n : nat) : plabel * nat :=
  match nth_error ex_turns4 n with
  | Some l => l
  | None => if Nat.even n then ex_pool 8 else ex_at 4 false 2
  end.
Definition ex_sched5 (n : nat) : plabel := fst (ex_turn5 n).
Definition ex_at5 (n : nat) : psys := let F := ex_float in let U := ex_url in at_time 100 true ex_sched5 n (psys_new 3 10).
Definition ex_log5 (n : nat) := let F := ex_float in let U := ex_url in plog 100 true (map ex_sched5 (seq 0 n)) (psys_new 3 10).
(** Checks by computing. *)
Definition comes_check {A} (f : fut A) : bool := match settle f with Comes _ => true | _ => false end.
Definition well_check (x : plabel * list pevent) : bool :=
  match fst x with
  | LPool _ f => comes_check f
  | LPoll _ w => forallb (fun e => match e with EAct _ (Write r b c) => comes_check (w_write w r b c) | EAct _ (ReadHead c) => comes_check (w_head w c) | EAct _ (ReadBody x) => comes_check (w_body w x) | _ => true end) (snd x)
  | LPoolDrop => false
  | _ => true
  end.
Lemma comes_checked {A} (f : fut A) : comes_check f = true -> comes f.
Proof. unfold comes_check, comes. destruct (settle f); try discriminate. eauto. Qed.
Lemma well_checked lg : forallb well_check lg = true -> Forall goes_well lg.
Proof.
  rewrite forallb_forall, Forall_forall. intros H [l t] I. specialize (H _ I). unfold well_check, goes_well in *. cbn [fst snd] in *. destruct l; try discriminate; try exact Logic.I.
  - apply comes_checked, H.
  - rewrite forallb_forall in H. apply Forall_forall. intros e Ie. specialize (H e Ie). destruct e as [|j [r b c|c|x]| |]; try exact Logic.I; apply comes_checked, H.
Qed.
(** A schedule none of whose labels does anything any more. *)
Lemma run_over {F : floatlib} {U : urlenv} tmax checks sched s N : (forall k, pstep tmax checks (sched (N + k)%nat) (at_time tmax checks sched N s) = None) ->
  forall k, at_time tmax checks sched (N + k) s = at_time tmax checks sched N s /\ plog tmax checks (map sched (seq 0 (N + k))) s = plog tmax checks (map sched (seq 0 N)) s.
Proof.
  intros No. unfold at_time in *. induction k as [|k [IH1 IH2]]; [rewrite Nat.add_0_r; auto|]. rewrite Nat.add_succ_r, seq_S, map_app, prun_app, plog_app, IH1, IH2. cbn [map Nat.add]. specialize (No k).
  cbn [prun plog]. rewrite No. split; [reflexivity | apply app_nil_r].
Qed.
Lemma map_eq {A B} (f g : A -> B) l : map f l = map g l -> forall x, In x l -> f x = g x.
Proof. induction l as [|y l IH]; [intros _ x []|]. intros [= E1 E2] x [<-|I]; [exact E1 | exact (IH E2 x I)]. Qed.
Example C66_case : let F := ex_float in let U := ex_url in let W := ex_http in
  (forall n, honest_label (ex_sched5 n)) /\ (forall n, answering_label (ex_sched5 n)) /\ again pool_turn ex_sched5 /\ again (poll_of 4) ex_sched5 /\ (forall n, ~ drop_of 4 (ex_sched5 n)) /\
  reading script_link ex_servers sc_queue sc_content /\
  (forall n, (23 <= n)%nat -> untroubled ex_explain3 ex_reason script_link ex_servers ex_near sc_queue true (ex_at5 n) (ex_log5 n)) /\
  (exists pc, nth_error (s_calls (ex_at5 23)) 4 = Some pc /\ c_state pc = Acquiring None /\
    SessionSpec.served (ex_servers (c_addr pc)) sc_queue sc_content (mkErrand (c_proc pc) (fst (c_req pc)) (snd (c_req pc))) (ex_ok [7; 6; 5])) /\
  used 4 (concat (map snd (ex_log5 31))) = [0; 0; 0]%nat.
Proof.
  cbv zeta.
  assert (Le : length ex_turns4 = 27%nat) by reflexivity.
  assert (Te : forall n, (27 <= n)%nat -> ex_sched5 n = if Nat.even n then LPool 8 (Ready tt) else LPoll 4 (ex_net false 2)).
  { intros n L. unfold ex_sched5, ex_turn5. rewrite (proj2 (nth_error_None ex_turns4 n)) by lia. destruct (Nat.even n); reflexivity. }
  assert (Sp : forall P : plabel -> Prop, Forall P (map fst ex_turns4) -> P (LPool 8 (Ready tt)) -> P (LPoll 4 (ex_net false 2)) -> forall n, P (ex_sched5 n)).
  { intros P Fa P1 P2 n. destruct (Nat.le_gt_cases 27 n) as [L|L]; [rewrite Te by exact L; destruct (Nat.even n); assumption|].
    unfold ex_sched5, ex_turn5. destruct (nth_error ex_turns4 n) as [l|] eqn:E; [|apply nth_error_None in E; lia]. rewrite Forall_forall in Fa. apply Fa, in_map, (nth_error_In _ _ E). }
  assert (An : forall slow k, answering (ex_net slow k)).
  { intros slow k. split; [|split].
    - intros r b c. unfold ends. cbn [ex_net w_write]. destruct slow; discriminate.
    - intros c. unfold ends. cbn [ex_net w_head]. destruct (nth_error _ k) as [[h b]|]; discriminate.
    - intros x. unfold ends. cbn [ex_net w_body]. destruct (nth_error _ k) as [[h [b|]]|]; [destruct slow; discriminate | discriminate..]. }
  assert (Wi : forall n, ex_wired (ex_turn5 n)).
  { intros n. unfold ex_turn5. assert (Fw : Forall ex_wired ex_turns4) by (repeat constructor; eexists; reflexivity). rewrite Forall_forall in Fw.
    destruct (nth_error ex_turns4 n) as [l|] eqn:E; [exact (Fw _ (nth_error_In _ _ E))|]. destruct (Nat.even n); [exact I | eexists; reflexivity]. }
  (* the run is over after 31 labels *)
  assert (St : forall k, ex_at5 (31 + k) = ex_at5 31 /\ ex_log5 (31 + k) = ex_log5 31).
  { assert (No : forall l, l = LPool 8 (Ready tt) \/ l = LPoll 4 (ex_net false 2) -> @pstep ex_float ex_url 100 true l (@at_time ex_float ex_url 100 true ex_sched5 31 (psys_new 3 10)) = None) by (intros l [-> | ->]; vm_compute; reflexivity).
    unfold ex_at5, ex_log5.
    intros k. apply (@run_over ex_float ex_url). intros m. apply No. rewrite Te by lia. destruct (Nat.even (31 + m)); auto. }
  (* what to check of one time *)
  assert (Ch : forall n, (forall c, (c < 2)%nat -> exists k, asked_on (ex_at5 n) c (concat (map snd (ex_log5 n))) = firstn k (sc_queue (ex_near c))) ->
    (given_back (concat (map snd (ex_log5 n))) <? 2 ^ 64) = true -> forallb well_check (ex_log5 n) = true -> opens (concat (map snd (ex_log5 n))) = [(0%nat, ex_a); (1%nat, ex_b)] ->
    run_check (map ex_turn5 (seq 0 n)) [] (psys_new 3 10) = true ->
    @untroubled ex_float ex_url ex_http sconn (value * bytes) ex_explain3 ex_reason (@script_link ex_http) ex_servers ex_near sc_queue true (ex_at5 n) (ex_log5 n)).
  { intros n H1 H2 H3 H4 H5. split; [left; reflexivity|]. split; [right; apply N.ltb_lt, H2|]. split; [apply well_checked, H3|]. split.
    - intros c m x y E1 E2. destruct c as [|[|c]]; [| |cbn [ex_near sc_queue] in E1; destruct m; discriminate E1].
      + destruct (H1 0%nat ltac:(lia)) as [k Q]. rewrite Q in E2. pose proof (firstn_skipn k (sc_queue (ex_near 0%nat))) as Z. rewrite <- Z, nth_error_app1 in E1 by (apply nth_error_Some; congruence). congruence.
      + destruct (H1 1%nat ltac:(lia)) as [k Q]. rewrite Q in E2. pose proof (firstn_skipn k (sc_queue (ex_near 1%nat))) as Z. rewrite <- Z, nth_error_app1 in E1 by (apply nth_error_Some; congruence). congruence.
    - unfold ex_log5 at 2. assert (Z : map ex_sched5 (seq 0 n) = map fst (map ex_turn5 (seq 0 n))) by (rewrite map_map; reflexivity). rewrite Z. apply run_checked; [| |exact H5].
      + intros c a Ia. apply PoolSystemAddr.opens_in in Ia. rewrite H4 in Ia. destruct Ia as [[= <- <-]|[[= <- <-]|[]]]; reflexivity.
      + apply Forall_forall. intros l Il. apply in_map_iff in Il. destruct Il as (k & <- & _). apply Wi. }
  split; [|split; [|split; [|split; [|split; [|split; [|split; [|split]]]]]]].
  - apply Sp; [repeat (apply Forall_cons; [first [exact I | apply ex_net_honest]|]); constructor | exact I | apply ex_net_honest].
  - apply Sp; [repeat (apply Forall_cons; [first [exact I | discriminate | apply An]|]); constructor | discriminate | apply An].
  - intros n. exists (2 * (n + 14))%nat. split; [lia|]. rewrite Te by lia. rewrite Nat.even_mul. exact I.
  - intros n. exists (S (2 * (n + 14)))%nat. split; [lia|]. rewrite Te by lia. rewrite Nat.even_succ, Nat.odd_mul. reflexivity.
  - apply (Sp (fun l => ~ drop_of 4 l)); [repeat (apply Forall_cons; [intros []|]); constructor | intros [] | intros []].
  - apply (@script_reading ex_http). intros a p v q q' x I. unfold ex_servers in I. destruct (saddr_eqb a ex_a); repeat (destruct I as [<-|I]; [intros [= <- _]; reflexivity|]); destruct I.
  - assert (K : forall n, (23 <= n <= 31)%nat -> @untroubled ex_float ex_url ex_http sconn (value * bytes) ex_explain3 ex_reason (@script_link ex_http) ex_servers ex_near sc_queue true (ex_at5 n) (ex_log5 n)).
    { assert (Ca : forall c, (c < 2)%nat -> forall n, In n (seq 23 9) -> asked_on (ex_at5 n) c (concat (map snd (ex_log5 n))) = firstn (length (asked_on (ex_at5 n) c (concat (map snd (ex_log5 n))))) (sc_queue (ex_near c))).
      { intros c Lc. apply map_eq. destruct c as [|[|c]]; [vm_compute; reflexivity | vm_compute; reflexivity | lia]. }
      assert (Cb : forallb (fun n => (given_back (concat (map snd (ex_log5 n))) <? 2 ^ 64) && forallb well_check (ex_log5 n) && run_check (map ex_turn5 (seq 0 n)) [] (psys_new 3 10)) (seq 23 9) = true) by (vm_compute; reflexivity).
      assert (Co : forall n, In n (seq 23 9) -> opens (concat (map snd (ex_log5 n))) = [(0%nat, ex_a); (1%nat, ex_b)]) by (apply (map_eq _ (fun _ => _)); vm_compute; reflexivity).
      rewrite forallb_forall in Cb. intros n L. assert (In n (seq 23 9)) as Is by (apply in_seq; lia). specialize (Cb n Is). apply andb_true_iff in Cb. destruct Cb as [Cb C3]. apply andb_true_iff in Cb. destruct Cb as [C1 C2].
      apply Ch; [intros c Lc; eexists; exact (Ca c Lc n Is) | exact C1 | exact C2 | exact (Co n Is) | exact C3]. }
    intros n L. destruct (Nat.le_gt_cases n 31) as [L'|L']; [exact (K n (conj L L'))|]. destruct (St (n - 31)%nat) as [E1 E2]. replace (31 + (n - 31))%nat with n in * by lia. rewrite E1, E2. apply K. lia.
  - assert (Q : option_map (fun pc => (c_addr pc, mkErrand (c_proc pc) (fst (c_req pc)) (snd (c_req pc)), match c_state pc with Acquiring None => true | _ => false end)) (nth_error (s_calls (ex_at5 23)) 4) = Some (ex_a, ex_errand MPost [5; 6; 7], true)) by (vm_compute; reflexivity).
    destruct (nth_error (s_calls (ex_at5 23)) 4) as [pc|]; [|discriminate Q]. cbn [option_map] in Q. exists pc. split; [reflexivity|].
    assert (Q1 : c_addr pc = ex_a) by congruence. assert (Q2 : mkErrand (c_proc pc) (fst (c_req pc)) (snd (c_req pc)) = ex_errand MPost [5; 6; 7]) by congruence.
    split; [destruct (c_state pc) as [[a|]| | | | |]; congruence|]. rewrite Q1, Q2. exact (C52_case_served _ (or_intror (or_introl eq_refl)) [5; 6; 7] eq_refl).
  - vm_compute. reflexivity.
Qed.
