(** * Properties C35, C36, C38, C48 and C49: a pool and its calls, under all schedules. *)
From Verif Require Import Base Decimal Serde Procedure Router SerRequest DeHeader DeResponse DepUrl Error Client ClientSpec ClientProofs Pool PoolSpec PoolProofs PoolSystem PoolSystemSpec PoolSystemProofs PoolSystemInv PoolSystemAddr PoolSystemGone PoolSystemReport Exhibit PathProps RequestProps ClientProps PoolProps.
Open Scope N_scope.

Section Lemmas.
Context {F : floatlib} {U : urlenv}.
Variables (tmax : Z) (checks : bool) (size : N) (d : Z) (ls : list plabel) (s : psys) (tr : list pevent).
Hypothesis (Fh : Forall honest_label ls) (Er : prun tmax checks ls (psys_new size d) = (s, tr)).

Lemma reached : invA s tr.
Proof. pose proof (invA_run tmax checks ls _ _ Fh (invA_new size d)) as Q. rewrite Er in Q. exact Q. Qed.
Lemma acts_endpoint t1 i a t2 : tr = t1 ++ EAct i a :: t2 -> exists addr b, addr_of i s = Some addr /\ In (EOpen (act_conn a) b) t1 /\ ip_fam b = ip_fam addr /\ ip_of b = ip_of addr /\ port_of b = port_of addr.
Proof. intros E. destruct (b_acts _ _ _ _ _ (reached_endpoint tmax checks size d ls s tr Fh Er) _ _ _ _ E) as (addr & b & E1 & I & [= V1 V2 V3]). exists addr, b. auto. Qed.
Lemma acts_addr t1 i a t2 : told_apart checks s tr -> tr = t1 ++ EAct i a :: t2 -> exists addr, addr_of i s = Some addr /\ In (EOpen (act_conn a) addr) t1.
Proof. intros Ta E. destruct (reached_addr tmax checks size d ls s tr Fh Er Ta) as [w B]. destruct (b_acts _ _ _ _ _ B _ _ _ _ E) as (addr & b & E1 & I & ->). exists addr. auto. Qed.
Lemma rels_addr t1 i a c t2 : told_apart checks s tr -> tr = t1 ++ ERelease i a c :: t2 -> addr_of i s = Some a /\ In (EOpen c a) t1.
Proof. intros Ta E. destruct (reached_addr tmax checks size d ls s tr Fh Er Ta) as [w B]. destruct (b_rels _ _ _ _ _ B _ _ _ _ _ E) as (E1 & b & I & ->). auto. Qed.
Lemma rels_own t1 i a c t2 : tr = t1 ++ ERelease i a c :: t2 -> addr_of i s = Some a.
Proof. intros E. exact (proj1 (b_rels _ _ _ _ _ (reached_endpoint tmax checks size d ls s tr Fh Er) _ _ _ _ _ E)). Qed.

Lemma holders_nodup : NoDup (holders s).
Proof. apply (NoDup_count_occ Nat.eq_dec). intros c. change (cnt c (holders s) <= 1)%nat. rewrite holders_cnt. apply (a_once _ _ reached). Qed.

Lemma in_use_sole t1 i a t2 : tr = t1 ++ EAct i a :: t2 -> (forall addr, ~ In (ERelease i addr (act_conn a)) t2) ->
  ~ In (act_conn a) (flat_map carried (s_queue s)) /\ ~ In (act_conn a) (idle_conns (s_pool s)) /\
  (forall j pc, j <> i -> nth_error (s_calls s) j = Some pc -> ~ In (act_conn a) (held pc)).
Proof.
  intros E N. destruct (a_sole _ _ reached i (act_conn a)) as [_ L]; [exists t1, a, t2; auto|]. set (c := act_conn a) in *.
  assert (Hi : (cnt c (held_at i s) <= cnt c (flat_map held (s_calls s)))%nat).
  { unfold held_at. destruct (nth_error (s_calls s) i) as [pc|] eqn:Ei; [apply (nth_cnt c _ i pc Ei) | rewrite cnt_nil; lia]. }
  unfold H in L. split; [|split].
  - rewrite cnt_in. lia.
  - rewrite cnt_in. lia.
  - intros j pc Nj Ej. rewrite cnt_in. pose proof (held_at2_le i j s c (fun X => Nj (eq_sym X))) as L2. unfold H in L2. unfold held_at in L2 at 2. rewrite Ej in L2. lia.
Qed.

Lemma fates i : match state_of i s with
  | Some (Finished _ _) => exists a c, addr_of i s = Some a /\ released i tr = [(a, c)] /\ used i tr <> [] /\ Forall (eq c) (used i tr)
  | _ => released i tr = []
  end.
Proof. pose proof (a_use _ _ reached i) as Q. unfold use_ok in Q. destruct (state_of i s) as [[]|]; tauto. Qed.
Lemma used_split i t c : In c (used i t) -> exists t1 a t2, t = t1 ++ EAct i a :: t2 /\ act_conn a = c.
Proof.
  induction t as [|e t IH]; [intros []|]. destruct e as [c0 a0|j a0|j a0 c0|j a0]; cbn [used]; try (intros I; destruct (IH I) as (t1 & a & t2 & -> & E); eexists (_ :: t1), a, t2; split; [reflexivity | exact E]).
  destruct (Nat.eqb_spec i j) as [<-|N].
  - intros [E|I]; [exists [], a0, t; auto|]. destruct (IH I) as (t1 & a & t2 & -> & E). exists (EAct i a0 :: t1), a, t2. auto.
  - intros I. destruct (IH I) as (t1 & a & t2 & -> & E). exists (EAct j a0 :: t1), a, t2. auto.
Qed.
Lemma dead_holds_nothing i x c : state_of i s = Some x -> dead x -> In c (used i tr) -> ~ In c (holders s).
Proof.
  intros Es Dx I. destruct (used_split i tr c I) as (t1 & a & t2 & E & Ea). pose proof (fates i) as Fi. rewrite Es in Fi.
  assert (R : released i tr = []) by (destruct x; try contradiction; exact Fi).
  destruct (a_sole _ _ reached i c) as [_ L].
  { exists t1, a, t2. split; [exact E|]. split; [exact Ea|]. intros addr Ir. assert (I' : In (ERelease i addr c) tr) by (rewrite E; apply in_or_app; right; right; exact Ir). apply released_in in I'. rewrite R in I'. exact I'. }
  assert (Z : held_at i s = []).
  { unfold held_at. unfold state_of in Es. destruct (nth_error (s_calls s) i) as [pc|]; [|reflexivity]. cbn [option_map] in Es. injection Es as Es. rewrite held_eq, Es. destruct x; try contradiction; reflexivity. }
  rewrite Z, cnt_nil in L. rewrite cnt_in, holders_cnt. lia.
Qed.
End Lemmas.

Lemma release_queued {F : floatlib} {U : urlenv} tmax checks l s s' t i a c : pstep tmax checks l s = Some (s', t) -> In (ERelease i a c) t -> s_pool s <> None ->
  s_queue s' = s_queue s ++ [ReleaseConnection a c].
Proof.
  intros E I G. destruct l as [addr p req|now f| |j w|j]; cbn [pstep] in E.
  - injection E as <- <-. destruct I.
  - destruct (s_pool s) as [p|]; [|discriminate]. destruct (s_queue s) as [|cm q]; [discriminate|]. destruct (handle_command tmax checks now cm p) as [[o p']|e| |]; injection E as <- <-; destruct I.
  - destruct (s_pool s); [|discriminate]. injection E as <- <-. destruct I.
  - destruct (nth_error (s_calls s) j) as [pc|]; [|discriminate]. unfold poll_pooled in E.
    assert (R : forall c0 r s0, s_pool s0 <> None -> In (ERelease i a c) (snd (inner_result j pc c0 r s0)) -> s_queue (fst (inner_result j pc c0 r s0)) = s_queue s0 ++ [ReleaseConnection a c]).
    { intros c0 [ts o] s0 G0. unfold inner_result.
      assert (M : forall ts, ~ In (ERelease i a c) (map (EAct j) ts)) by (intros ts0; rewrite in_map_iff; intros (x & [=] & _)).
      destruct o as [[k|v b c']|e| |]; cbn [fst snd]; intros I0; try (elim (M _ I0)). apply in_app_or in I0. destruct I0 as [I0|[[= -> <- <-]|[]]]; [elim (M _ I0)|].
      rewrite send_eq. unfold put_state, queue_after. cbn [s_pool s_queue]. destruct (s_pool s0); [reflexivity | congruence]. }
    destruct (c_state pc) as [x|c0 k| | | |]; try discriminate.
    + destruct (acquire_poll j x s) as [c0 [|]|e b|a'].
      * cbv zeta in E. pose proof (R c0 (poll_call w (c_proc pc) (call_new (c_req pc) (Ready c0))) (mkPsys (s_pool s) (s_queue s) (s_calls s) (s_opened s ++ [c_addr pc])) G) as Q.
        destruct (inner_result j pc c0 _ _) as [s1 t1]. injection E as <- <-. destruct I as [[=]|I]. exact (Q I).
      * pose proof (R c0 (poll_call w (c_proc pc) (call_new (c_req pc) (Ready c0))) s G) as Q. destruct (inner_result j pc c0 _ _) as [s1 t1]. injection E as <- <-. exact (Q I).
      * destruct b; injection E as <- <-; [destruct I as [[=]|[]] | destruct I].
      * injection E as <- <-. destruct I.
    + pose proof (R c0 (poll_call w (c_proc pc) k) s G) as Q. destruct (inner_result j pc c0 _ _) as [s1 t1]. injection E as <- <-. exact (Q I).
  - destruct (nth_error (s_calls s) j) as [pc|]; [|discriminate]. destruct (c_state pc); try discriminate; injection E as <- <-; destruct I.
Qed.

(** ** C35 *)
(** Whatever a call does, it does on a connection opened earlier to its IP address and port, for any number of calls. *)
Theorem C35_own_endpoint (F : floatlib) (U : urlenv) tmax checks size d ls s tr : Forall honest_label ls -> prun tmax checks ls (psys_new size d) = (s, tr) ->
  forall t1 i a t2, tr = t1 ++ EAct i a :: t2 -> exists addr b, addr_of i s = Some addr /\ In (EOpen (act_conn a) b) t1 /\ ip_fam b = ip_fam addr /\ ip_of b = ip_of addr /\ port_of b = port_of addr.
Proof. exact (acts_endpoint tmax checks size d ls s tr). Qed.
Print Assumptions C35_own_endpoint.

(** On a connection to its very address, scope and flow label included, if the pool tells the addresses apart. *)
Theorem C35_own_address (F : floatlib) (U : urlenv) tmax checks size d ls s tr : Forall honest_label ls -> prun tmax checks ls (psys_new size d) = (s, tr) -> told_apart checks s tr ->
  forall t1 i a t2, tr = t1 ++ EAct i a :: t2 -> exists addr, addr_of i s = Some addr /\ In (EOpen (act_conn a) addr) t1.
Proof. intros Fh Er Ta t1 i a t2. exact (acts_addr tmax checks size d ls s tr Fh Er t1 i a t2 Ta). Qed.
Print Assumptions C35_own_address.

(** It gives it back under that address. *)
Theorem C35_released_as_opened (F : floatlib) (U : urlenv) tmax checks size d ls s tr : Forall honest_label ls -> prun tmax checks ls (psys_new size d) = (s, tr) ->
  forall t1 i a c t2, tr = t1 ++ ERelease i a c :: t2 -> addr_of i s = Some a /\ (told_apart checks s tr -> In (EOpen c a) t1).
Proof.
  intros Fh Er t1 i a c t2 E. split; [exact (rels_own tmax checks size d ls s tr Fh Er t1 i a c t2 E)|].
  intros Ta. exact (proj2 (rels_addr tmax checks size d ls s tr Fh Er t1 i a c t2 Ta E)).
Qed.
Print Assumptions C35_released_as_opened.

(** A connection is opened once, so to one address only. *)
Theorem C35_opened_once (F : floatlib) (U : urlenv) tmax checks size d ls s tr : Forall honest_label ls -> prun tmax checks ls (psys_new size d) = (s, tr) -> NoDup (map fst (opens tr)).
Proof. intros Fh Er. rewrite (b_once _ _ _ _ _ (reached_endpoint tmax checks size d ls s tr Fh Er)). apply seq_NoDup. Qed.
Print Assumptions C35_opened_once.

(** ** C36 *)
Theorem C36_held_once (F : floatlib) (U : urlenv) tmax checks size d ls s tr : Forall honest_label ls -> prun tmax checks ls (psys_new size d) = (s, tr) -> NoDup (holders s).
Proof. intros Fh Er. exact (holders_nodup tmax checks size d ls s tr Fh Er). Qed.
Print Assumptions C36_held_once.

(** A connection a call acted on and did not give back is in nobody else's hands. *)
Theorem C36_in_use (F : floatlib) (U : urlenv) tmax checks size d ls s tr : Forall honest_label ls -> prun tmax checks ls (psys_new size d) = (s, tr) ->
  forall t1 i a t2, tr = t1 ++ EAct i a :: t2 -> (forall addr, ~ In (ERelease i addr (act_conn a)) t2) ->
  ~ In (act_conn a) (flat_map carried (s_queue s)) /\ ~ In (act_conn a) (idle_conns (s_pool s)) /\
  (forall j pc, j <> i -> nth_error (s_calls s) j = Some pc -> ~ In (act_conn a) (held pc)).
Proof. intros Fh Er. exact (in_use_sole tmax checks size d ls s tr Fh Er). Qed.
Print Assumptions C36_in_use.

(** So two calls never use the same connection, unless the first has given it back before the second begins. *)
Theorem C36_exclusive_use (F : floatlib) (U : urlenv) tmax checks size d ls s tr : Forall honest_label ls -> prun tmax checks ls (psys_new size d) = (s, tr) -> exclusive tr.
Proof. intros Fh Er. exact (a_excl _ _ (reached tmax checks size d ls s tr Fh Er)). Qed.
Print Assumptions C36_exclusive_use.

(** ** C38 *)
(** One release if the call is finished, of the connection it used throughout, to its address; none otherwise. *)
Theorem C38_released_iff_finished (F : floatlib) (U : urlenv) tmax checks size d ls s tr : Forall honest_label ls -> prun tmax checks ls (psys_new size d) = (s, tr) ->
  forall i, match state_of i s with
  | Some (Finished _ _) => exists a c, addr_of i s = Some a /\ released i tr = [(a, c)] /\ used i tr <> [] /\ Forall (eq c) (used i tr)
  | _ => released i tr = []
  end.
Proof. intros Fh Er. exact (fates tmax checks size d ls s tr Fh Er). Qed.
Print Assumptions C38_released_iff_finished.

(** The connection of a call that failed, panicked or was dropped is in nobody's hands any more: it is closed. *)
Theorem C38_lost_with_the_call (F : floatlib) (U : urlenv) tmax checks size d ls s tr : Forall honest_label ls -> prun tmax checks ls (psys_new size d) = (s, tr) ->
  forall i x c, state_of i s = Some x -> match x with Broken _ | Dropped | Panicked => True | _ => False end -> In c (used i tr) -> ~ In c (holders s).
Proof. intros Fh Er i x c. exact (dead_holds_nothing tmax checks size d ls s tr Fh Er i x c). Qed.
Print Assumptions C38_lost_with_the_call.

(** A release is a command to the pool, if there is one still. *)
Theorem C38_release_reaches_pool (F : floatlib) (U : urlenv) tmax checks l s s' t i a c : pstep tmax checks l s = Some (s', t) -> In (ERelease i a c) t -> s_pool s <> None ->
  s_queue s' = s_queue s ++ [ReleaseConnection a c].
Proof. exact (release_queued tmax checks l s s' t i a c). Qed.
Print Assumptions C38_release_reaches_pool.

(** ** C48 *)
(** With the pool gone, the next poll of a waiting call is its last, whether it was started before or after. *)
Theorem C48_waiting_calls_fail (F : floatlib) (U : urlenv) tmax checks size d ls s tr : Forall honest_label ls -> prun tmax checks ls (psys_new size d) = (s, tr) ->
  s_pool s = None -> forall i w, state_of i s = Some (Acquiring None) -> exists s',
    pstep tmax checks (LPoll i w) s = Some (s', []) /\ state_of i s' = Some (Broken Other) /\ s_pool s' = None /\ (forall j, j <> i -> state_of j s' = state_of j s).
Proof. intros Fh Er G i w. exact (waiting_fails tmax checks s tr i w (reached tmax checks size d ls s tr Fh Er) G). Qed.
Print Assumptions C48_waiting_calls_fail.
Theorem C48_gone_for_good (F : floatlib) (U : urlenv) tmax checks ls s : s_pool s = None -> s_pool (fst (prun tmax checks ls s)) = None.
Proof. exact (run_gone tmax checks ls s). Qed.
Print Assumptions C48_gone_for_good.

(** While there is a pool, no call is forgotten: when it has handled the commands it has, all are answered, or it is gone. *)
Theorem C48_no_call_forgotten (F : floatlib) (U : urlenv) tmax checks size d ls s tr : Forall honest_label ls -> prun tmax checks ls (psys_new size d) = (s, tr) ->
  forall xs, length xs = length (s_queue s) -> let s' := fst (prun tmax checks (turns xs) s) in
  s_pool s' = None \/ s_queue s' = [] /\ forall i, state_of i s' <> Some (Acquiring None).
Proof. intros Fh Er xs. exact (turns_answer tmax checks xs s tr (reached tmax checks size d ls s tr Fh Er)). Qed.
Print Assumptions C48_no_call_forgotten.

(** A call with a connection comes to the same, with the same actions, as by itself, whatever happens to the rest. *)
Theorem C48_holders_as_alone (F : floatlib) (U : urlenv) tmax checks ls s i pc k : nth_error (s_calls s) i = Some pc -> inner pc k -> Forall (undropped i) ls -> exists pc',
  let '(s', tr) := prun tmax checks ls s in let r := alone (c_proc pc) (polls i ls) k in nth_error (s_calls s') i = Some pc' /\ stands pc' (snd r) /\ acts i tr = fst r.
Proof. exact (as_alone tmax checks ls s i pc k). Qed.
Print Assumptions C48_holders_as_alone.
Theorem C48_alone_is_drive (F : floatlib) (U : urlenv) w p n k : alone p (repeat w n) k = drive w p n k.
Proof. exact (alone_drive w p n k). Qed.
Print Assumptions C48_alone_is_drive.

(** Nor does a call that is connecting look at the pool. *)
Theorem C48_pool_irrelevant (F : floatlib) (U : urlenv) tmax checks s i w pl q : state_of i s <> Some (Acquiring None) ->
  option_map (fun r => (s_calls (fst r), s_opened (fst r), snd r)) (pstep tmax checks (LPoll i w) s) =
  option_map (fun r => (s_calls (fst r), s_opened (fst r), snd r)) (pstep tmax checks (LPoll i w) (mkPsys pl q (s_calls s) (s_opened s))).
Proof. exact (pool_irrelevant tmax checks s i w pl q). Qed.
Print Assumptions C48_pool_irrelevant.

(** ** C49 *)
(** A call reports its address exactly when it is polled with its attempt to connect failed; nothing else is reported. *)
Theorem C49_reported_iff_failed (F : floatlib) (U : urlenv) tmax checks ls s i a : In (EBlacklist i a) (snd (prun tmax checks ls s)) <->
  exists l1 w l2, ls = l1 ++ LPoll i w :: l2 /\ connect_failed i a (fst (prun tmax checks l1 s)).
Proof. exact (reported_iff tmax checks ls s i a). Qed.
Print Assumptions C49_reported_iff_failed.

(** Then this is all the call ever does, and the call has failed. *)
Theorem C49_reported_once (F : floatlib) (U : urlenv) tmax checks size d ls s tr i a : prun tmax checks ls (psys_new size d) = (s, tr) -> In (EBlacklist i a) tr ->
  own i tr = [EBlacklist i a] /\ exists k, state_of i s = Some (Broken k).
Proof. exact (reported_once tmax checks ls size d s tr i a). Qed.
Print Assumptions C49_reported_once.

(** An attempt that comes to nothing is reported when the call has been polled often enough, whatever else happens. *)
Theorem C49_failure_reported (F : floatlib) (U : urlenv) tmax checks ls s i a f e : addr_of i s = Some a -> state_of i s = Some (Acquiring (Some (PConnect f))) -> settle f = Breaks e ->
  Forall (undropped i) ls -> (waits f < length (polls i ls))%nat -> In (EBlacklist i a) (snd (prun tmax checks ls s)).
Proof.
  intros Ea Es Sf Fu L. pose proof (failure_reported tmax checks ls s i a f e Ea Es Sf Fu L) as Q. destruct (prun tmax checks ls s) as [s' tr]. exact Q.
Qed.
Print Assumptions C49_failure_reported.

(** The pool handles what was sent in the order in which it was sent: the first commands are its history, the others are queued. *)
Theorem C49_in_order (F : floatlib) (U : urlenv) tmax checks size d ls s tr p : prun tmax checks ls (psys_new size d) = (s, tr) -> s_pool s = Some p ->
  let lg := plog tmax checks ls (psys_new size d) in
  concat (map snd lg) = tr /\ s_queue s = skipn (length (times lg)) (sent 0 lg) /\ (length (times lg) <= length (sent 0 lg))%nat /\
  exists xs, run tmax checks (history lg) (pool_new size d) = Ok (xs, p).
Proof.
  intros E Ep lg. split; [|exact (in_order tmax checks size d ls s tr p E Ep)]. pose proof (prun_log tmax checks ls (psys_new size d)) as Q. rewrite E in Q. symmetry. exact Q.
Qed.
Print Assumptions C49_in_order.

(** So calls to a reported address whose request is handled within the time of suspension fail without doing anything, and go on doing nothing; others are served. *)
Theorem C49_suspended_turned_down (F : floatlib) (U : urlenv) tmax checks size d ls s tr p h1 t a mid now i h2 : prun tmax checks ls (psys_new size d) = (s, tr) -> s_pool s = Some p ->
  history (plog tmax checks ls (psys_new size d)) = h1 ++ (t, AddToBlacklist a) :: mid ++ (now, AcquireConnection a i) :: h2 ->
  Forall (quiet a (t + d)) mid -> (now < t + d)%Z -> turned_down (state_of i s) /\ own i tr = [].
Proof. exact (suspended_turned_down tmax checks size d ls s tr p h1 t a mid now i h2). Qed.
Print Assumptions C49_suspended_turned_down.
Theorem C49_turned_down_stays (F : floatlib) (U : urlenv) tmax checks ls s i : turned_down (state_of i s) ->
  let '(s', tr) := prun tmax checks ls s in turned_down (state_of i s') /\ own i tr = [].
Proof. exact (turned_down_stays tmax checks ls s i). Qed.
Print Assumptions C49_turned_down_stays.
Theorem C49_otherwise_served (F : floatlib) (U : urlenv) tmax checks size d ls s tr p h1 a now i h2 : prun tmax checks ls (psys_new size d) = (s, tr) -> s_pool s = Some p ->
  history (plog tmax checks ls (psys_new size d)) = h1 ++ (now, AcquireConnection a i) :: h2 ->
  (forall t, deadline d a h1 = Some t -> (t <= now)%Z) -> served (state_of i s).
Proof. exact (otherwise_served tmax checks size d ls s tr p h1 a now i h2). Qed.
Print Assumptions C49_otherwise_served.

(** ** A case for all of them *)
(** Six calls.  The first opens connection 0 and gives it back; the second opens 1 to another address and is dropped while
    it writes; the third gets 0 and is answered after the pool is dropped; the fourth waits when the pool is dropped, the
    fifth is started after; the sixth cannot connect. *)
Definition quick : wire conn := {|
  w_write := fun r b c => Ready c;
  w_head := fun c => Ready (mkResponse 200 [(u "X-Id", u "17")] c);
  w_body := fun r => Ready (r, [104; 105])
|}.
Definition ex_call (a : saddr) : plabel := LCall a (ex_proc MPost) (ex_req, [1; 2]).
Definition ex_first : list plabel :=
  [ex_call ex_a; LPool 1 (Later (Ready tt)); LPoll 0 quick; LPoll 0 quick; LPool 2 Never;
   ex_call ex_b; LPool 3 (Ready tt); LPoll 1 ex_wire; LDrop 1;
   ex_call ex_a; ex_call ex_b; LPool 4 Never; LPoll 2 ex_wire; LPool 5 (Failed FromIo); LPoll 3 quick; LPool 6 Never; ex_call ex_b; LPool 7 Never; LPoll 4 quick; ex_call ex_a]%Z.
Definition ex_last : list plabel := [LPoolDrop; LPoll 2 ex_wire; ex_call ex_a; LPoll 5 quick; LPoll 6 quick; LPoll 2 ex_wire; LPoll 2 ex_wire; LPoll 2 ex_wire; LPoll 2 ex_wire].
Definition ex_state (i : nat) (s : psys) : option (option conn * option ekind) :=
  match state_of i s with
  | Some (Finished _ _) => Some (None, None)
  | Some (Talking c _) => Some (Some c, None)
  | Some (Broken k) => Some (None, Some k)
  | _ => None
  end.

Lemma ex_honest : Forall honest_label (ex_first ++ ex_last).
Proof.
  assert (Q : honest quick) by (split; [|split]; [intros r b c c' [= <-] | intros c r [= <-] | intros r r' b [= <- _]]; reflexivity).
  assert (W : honest ex_wire) by (split; [|split]; [intros r b c c' [= <-] | intros c r [= <-] | intros r r' b [= <- _]]; reflexivity).
  repeat (constructor; [first [exact I | exact Q | exact W]|]). constructor.
Qed.
(** When the pool is about to be dropped: call 2 uses connection 0, call 5 waits, its command is queued. *)
Example C36_case : let U := ex_url in let F := ex_float in let '(s, tr) := prun 100 true ex_first (psys_new 3 10) in
  map (fun i => ex_state i s) (seq 0 6) = [Some (None, None); None; Some (Some 0%nat, None); Some (None, Some Other); Some (None, Some Other); None] /\
  state_of 1 s = Some Dropped /\ state_of 5 s = Some (Acquiring None) /\ holders s = [0%nat] /\ s_queue s = [AcquireConnection ex_a 5] /\
  opens tr = [(0%nat, ex_a); (1%nat, ex_b)] /\ released 0 tr = [(ex_a, 0%nat)] /\ used 0 tr = [0; 0; 0]%nat /\ used 1 tr = [1]%nat /\ used 2 tr = [0]%nat.
Proof. vm_compute. tauto. Qed.
(** The addresses of the calls are far apart, so that the number of calls would not matter. *)
Example C35_case : let U := ex_url in let F := ex_float in let '(s, tr) := prun 100 false (ex_first ++ ex_last) (psys_new 3 10) in
  told_apart false s tr /\ (forall c1 c2 a b, In (EOpen c1 a) tr -> In (EOpen c2 b) tr -> ip_fam a = ip_fam b -> ip_of a = ip_of b -> port_of a = port_of b -> a = b) /\
  opens tr = [(0%nat, ex_a); (1%nat, ex_b)] /\ released 2 tr = [(ex_a, 0%nat)] /\ addr_of 2 s = Some ex_a.
Proof.
  intros U F. destruct (prun 100 false (ex_first ++ ex_last) (psys_new 3 10)) as [s tr] eqn:E.
  assert (Eo : opens tr = [(0%nat, ex_a); (1%nat, ex_b)]) by (apply (f_equal (fun x => opens (snd x))) in E; cbn [snd] in E; rewrite <- E; vm_compute; reflexivity).
  assert (Un : forall c1 c2 a b, In (EOpen c1 a) tr -> In (EOpen c2 b) tr -> ip_fam a = ip_fam b -> ip_of a = ip_of b -> port_of a = port_of b -> a = b).
  { intros c1 c2 a b I1 I2. apply opens_in in I1. apply opens_in in I2. rewrite Eo in I1, I2. destruct I1 as [[= <- <-]|[[= <- <-]|[]]], I2 as [[= <- <-]|[[= <- <-]|[]]]; try reflexivity; intros H1 H2 H3; vm_compute in H1, H2, H3; discriminate. }
  split; [right; right; exact Un|]. split; [exact Un|]. split; [exact Eo|]. split.
  - apply (f_equal (fun x => released 2 (snd x))) in E. cbn [snd] in E. rewrite <- E. vm_compute. reflexivity.
  - apply (f_equal (fun x => addr_of 2 (fst x))) in E. cbn [fst] in E. rewrite <- E. vm_compute. reflexivity.
Qed.
(** At the end: call 2 is finished, calls 5 and 6 have failed. *)
Example C48_case : let U := ex_url in let F := ex_float in let '(s, tr) := prun 100 true (ex_first ++ ex_last) (psys_new 3 10) in
  map (fun i => ex_state i s) (seq 0 7) = [Some (None, None); None; Some (None, None); Some (None, Some Other); Some (None, Some Other); Some (None, Some Other); Some (None, Some Other)] /\
  state_of 2 s = Some (Finished ex_response [104; 105]) /\ s_pool s = None /\ holders s = [] /\ released 2 tr = [(ex_a, 0%nat)].
Proof. vm_compute. tauto. Qed.
(** Between: a release message in the queue, then in the pool. *)
Example C38_case : let U := ex_url in let F := ex_float in
  (let '(s, tr) := prun 100 true (firstn 4 ex_first) (psys_new 3 10) in s_queue s = [ReleaseConnection ex_a 0%nat] /\ holders s = [0%nat]) /\
  (let '(s, tr) := prun 100 true (firstn 5 ex_first) (psys_new 3 10) in s_queue s = [] /\ idle_conns (s_pool s) = [0%nat]).
Proof. vm_compute. tauto. Qed.
(** An idle connection handed to a call that was dropped in the meantime is lost: the pool is empty afterwards. *)
Example C38_case_reply_to_dropped : let U := ex_url in let F := ex_float in
  (let '(s, tr) := prun 100 true (firstn 5 ex_first ++ [ex_call ex_a; LDrop 1; LPool 3 Never])%Z (psys_new 3 10) in state_of 1 s = Some Dropped /\ holders s = [] /\ s_queue s = []).
Proof. vm_compute. tauto. Qed.
(** Call 3 of [ex_first] cannot connect and reports this; call 4, to the same address, is turned down, and a call after the
    suspension is served. *)
Definition ex_failed : list plabel := ex_first ++ [ex_call ex_b; LPool 9 (Ready tt); LPool 16 Never]%Z.
Example C49_case : let U := ex_url in let F := ex_float in
  (let '(s, tr) := prun 100 true (firstn 14 ex_first) (psys_new 3 10) in addr_of 3 s = Some ex_b /\ state_of 3 s = Some (Acquiring (Some (PConnect (Failed FromIo))))) /\
  let '(s, tr) := prun 100 true ex_failed (psys_new 3 10) in
  own 3 tr = [EBlacklist 3 ex_b] /\ state_of 3 s = Some (Broken Other) /\ state_of 4 s = Some (Broken Other) /\ own 4 tr = [] /\ state_of 6 s = Some (Acquiring (Some (PConnect Never))) /\
  s_pool s <> None /\ history (plog 100 true ex_failed (psys_new 3 10)) =
    ([(1, AcquireConnection ex_a 0%nat); (2, ReleaseConnection ex_a 0%nat); (3, AcquireConnection ex_b 1%nat); (4, AcquireConnection ex_a 2%nat); (5, AcquireConnection ex_b 3%nat)] ++
    (6, AddToBlacklist ex_b) :: [] ++ (7, AcquireConnection ex_b 4%nat) :: [(9, AcquireConnection ex_a 5%nat); (16, AcquireConnection ex_b 6%nat)])%Z.
Proof. vm_compute. repeat split; discriminate. Qed.
