(** * Property C86: a server whose tasks are polled only when they are woken serves every client and answers every request. *)
From Verif Require Import Base Utf8 Decimal DepUrl Serde Json Procedure Router RouterSpec Status SerHeader SerRequest SerResponse DeHeader DeRequest DeResponse JsonText Problem ProblemSpec Error Client ClientSpec
  Server ServerSpec ServerProofs ServerPoll ServerFairSpec ServerFair ServerWake ServerWakeSpec ServerWakeProofs Exhibit JsonProps ProblemProps ServerProps ServerFairProps.
Open Scope nat_scope.

(** A poll is that of C61; beside it, it is seen whether the task was taken note of. *)
Theorem C86_same_polls (F : floatlib) (U : urlenv) (Conn R L : Type) explain reason ln (ps : list (hproc Conn R)) (incoming : L -> fut (option (fut Conn) * L)) w fuel s :
  let '(e, _, s') := wserve_poll explain reason ln incoming (build (registrations ps)) w fuel s in serve_poll explain reason ln incoming (build (registrations ps)) w fuel s = (e, s').
Proof. pose proof (same_poll explain reason ln ps incoming w fuel s) as Q. destruct (wserve_poll explain reason ln incoming (build (registrations ps)) w fuel s) as [[e g] s']. exact Q. Qed.
Print Assumptions C86_same_polls.

(** No wake-up is lost: at any time, whatever the executor and the network do, the accept loop and every connection that is not over are about to be polled,
    or asleep and taken note of by the future they wait for. *)
Theorem C86_no_lost_wakeup (F : floatlib) (U : urlenv) (Conn R L : Type) explain reason ln (ps : list (hproc Conn R)) (incoming : L -> fut (option (fut Conn) * L)) sched bind n x w :
  snd (wake_run explain reason ln incoming (build (registrations ps)) sched n bind) = Ok x -> living w (x_server x) ->
  x_due x w = true \/ x_noted x w = true /\
    match w with Acceptor => exists a, v_accept (x_server x) = ASleeps a | Connection i => exists t, nth_error (v_tasks (x_server x)) i = Some (Sleeps t) end.
Proof. exact (fun E => all_attended explain reason ln ps incoming sched bind n x E w). Qed.
Print Assumptions C86_no_lost_wakeup.

(** Every client that comes is served: as C61_clients_served, though nothing is polled unless it has just been spawned or was woken. *)
Theorem C86_clients_served (F : floatlib) (U : urlenv) (Conn R L : Type) explain reason ln (ps : list (hproc Conn R)) (incoming : L -> fut (option (fut Conn) * L)) sched bind k i c m :
  let after n := wake_run explain reason ln incoming (build (registrations ps)) sched n bind in
  polls_return after -> polls_due sched after -> wakes_noted sched after -> nth_error (fst (accepting incoming k bind)) i = Some c ->
  finally (fun n => exists ev x, after n = (ev, Ok x) /\
    exists a', doings i ev = fst (conversation explain reason ln ps m c) ++ a' /\
      (snd (conversation explain reason ln ps m c) <> Unfinished -> a' = [] /\ outcome i (x_server x) = Some (snd (conversation explain reason ln ps m c)))).
Proof. exact (fun R D N => woken_served explain reason ln ps incoming sched bind R D N k i c m). Qed.
Print Assumptions C86_clients_served.

(** Every request that is read is answered. *)
Theorem C86_requests_answered (F : floatlib) (U : urlenv) (Conn R L : Type) explain reason ln (ps : list (hproc Conn R)) (incoming : L -> fut (option (fut Conn) * L)) sched bind t i a c r :
  let after n := wake_run explain reason ln incoming (build (registrations ps)) sched n bind in
  obliging ln ps -> polls_return after -> polls_due sched after -> wakes_noted sched after ->
  doings i (fst (after t)) = a ++ [ARead c] -> settle (l_read ln c) = Comes (Got r) ->
  finally (fun n => exists ev x, after n = (ev, Ok x) /\
    match reply_to explain reason ln ps r with
    | Sends c' h b => exists l, doings i ev = a ++ ARead c :: AWrite h (match q_method r with MHead => None | _ => Some b end) c' :: l
    | Refuses k => doings i ev = a ++ [ARead c] /\ outcome i (x_server x) = Some (Failing k)
    | Crashes => doings i ev = a ++ [ARead c] /\ outcome i (x_server x) = Some Crashed
    | Hesitates => False
    end).
Proof.
  intros after O Rt D N Ea Er. destruct (woken_answered explain reason ln ps incoming sched bind Rt D N t i a c r _ eq_refl Ea Er) as [n Q]. exists n. intros m Lm. destruct (Q m Lm) as (ev & x & E & Y).
  exists ev, x. split; [exact E|]. pose proof (obliging_replies explain reason ln ps r O) as Nh. destruct (reply_to explain reason ln ps r); auto.
Qed.
Print Assumptions C86_requests_answered.

(** ** Case *)
(** The three clients of C61's case.  The executor goes round, polling what is due; after each poll the network wakes a task, until all that is left is the accept loop, which waits for a
    client that never comes. *)
Definition ex_task (k : nat) : who := match k with 0 => Acceptor | S i => Connection i end.
Definition ex_wakes (n : nat) : slabel :=
  let k := ex_task ((n / 2) mod 4) in if Nat.even n then SPoll k 10 else if n <? 192 then SNet k else SPoll k 10.
Definition ex_woken n := wake_run (H := ex_float) (H0 := ex_url) ex_explain ex_reason ex_link ex_incoming (build (registrations ex_procs)) ex_wakes n (Later (Ready ex_clients)).
Definition ex_tasks := [Acceptor; Connection 0; Connection 1; Connection 2].
Definition ex_state n := match snd (ex_woken n) with Ok x => x | _ => wserver_new Never end.
Lemma ex_woken_S n : ex_woken (S n) = match ex_woken n with (ev, Ok x) => let '(e, y) := wake_step (H := ex_float) (H0 := ex_url) ex_explain ex_reason ex_link ex_incoming (build (registrations ex_procs)) (ex_wakes n) x in (ev ++ e, y) | (ev, y) => (ev, y) end.
Proof. reflexivity. Qed.
Lemma ex_wakes_late n : 200 <= n -> exists k, k < 4 /\ ex_wakes n = SPoll (ex_task k) 10.
Proof.
  intros Ln. exists ((n / 2) mod 4). split; [apply Nat.mod_upper_bound; discriminate|]. unfold ex_wakes. destruct (Nat.even n); [reflexivity|]. rewrite (proj2 (Nat.ltb_ge n 192)) by lia. reflexivity.
Qed.
Lemma ex_woken_late n : 200 <= n -> ex_woken n = ex_woken 200.
Proof.
  intros Ln. replace n with ((n - 200) + 200) by lia. generalize (n - 200). clear n Ln. intros n.
  assert (X : forall k, k < 4 -> match ex_woken 200 with (ev, Ok x) => x_due x (ex_task k) | _ => true end = false) by (intros [|[|[|[|k]]]] Lk; [vm_compute; reflexivity..|lia]).
  assert (O : is_ok (snd (ex_woken 200)) = true) by (vm_compute; reflexivity). induction n as [|n IH]; [exact eq_refl|]. cbn [Nat.add]. rewrite ex_woken_S, IH.
  destruct (ex_wakes_late (n + 200) ltac:(lia)) as (k & Lk & ->). specialize (X k Lk). destruct (ex_woken 200) as [ev [x| | |]]; try discriminate. cbn [wake_step]. rewrite X, app_nil_r. reflexivity.
Qed.
Lemma ex_bound (P : nat -> bool) : forallb (fun n => P n) (seq 0 201) = true -> (forall n, 200 <= n -> P n = P 200) -> forall n, P n = true.
Proof.
  intros Y Q n. rewrite forallb_forall in Y. destruct (Nat.lt_ge_cases n 200) as [X|X]; [apply Y, in_seq; lia | rewrite (Q n X); apply Y, in_seq; lia].
Qed.
Lemma ex_woken_ok n : is_ok (snd (ex_woken n)) = true.
Proof. revert n. apply ex_bound; [vm_compute; reflexivity|]. intros n Ln. rewrite (ex_woken_late n Ln). reflexivity. Qed.
Lemma ex_three n : length (v_tasks (x_server (ex_state n))) <= 3.
Proof.
  apply Nat.leb_le. revert n. apply (ex_bound (fun n => length (v_tasks (x_server (ex_state n))) <=? 3)); [vm_compute; reflexivity|]. intros n Ln. unfold ex_state. rewrite (ex_woken_late n Ln). reflexivity.
Qed.
Lemma ex_four n x w : snd (ex_woken n) = Ok x -> x_due x w = true \/ x_noted x w = true -> exists k, k < 4 /\ w = ex_task k.
Proof.
  intros E X. pose proof (only_there ex_explain ex_reason ex_link ex_procs ex_incoming ex_wakes (Later (Ready ex_clients)) n x E w X) as T. pose proof (ex_three n) as Th. unfold ex_state in Th. rewrite E in Th.
  destruct w as [|i]; [exists 0; split; [lia | reflexivity]|]. cbn [there] in T. exists (S i). split; [lia | reflexivity].
Qed.
Lemma ex_polled k n : k < 4 -> exists m, n <= m /\ ex_wakes m = SPoll (ex_task k) 10.
Proof.
  intros Lk. exists ((k + n * 4) * 2). split; [lia|]. unfold ex_wakes. rewrite Nat.even_mul, orb_true_r, Nat.div_mul, Nat.mod_add, Nat.mod_small by (discriminate || lia). reflexivity.
Qed.
Lemma ex_netted k n : k < 4 -> n < 184 -> exists m, n <= m /\ ex_wakes m = SNet (ex_task k).
Proof.
  intros Lk Ln. assert (Y : forallb (fun n => forallb (fun k => existsb (fun m => match ex_wakes m with SNet v => who_eqb v (ex_task k) | _ => false end) (seq n 8)) (seq 0 4)) (seq 0 184) = true) by (vm_compute; reflexivity).
  rewrite forallb_forall in Y. specialize (Y n ltac:(apply in_seq; lia)). rewrite forallb_forall in Y. specialize (Y k ltac:(apply in_seq; lia)). apply existsb_exists in Y. destruct Y as (m & Im & E). apply in_seq in Im.
  exists m. split; [lia|]. destruct (ex_wakes m) as [|v]; [discriminate|]. apply who_eqb_eq in E. congruence.
Qed.
Definition ex_idle n := forallb (fun w => negb (x_noted (ex_state n) w) || (who_eqb w Acceptor && match v_accept (x_server (ex_state n)) with ASleeps (AcB f) => is_never f | _ => false end)) ex_tasks.
Lemma ex_idle_late n : 184 <= n -> ex_idle n = true.
Proof.
  intros Ln. destruct (Nat.lt_ge_cases n 200) as [X|X].
  - assert (Y : forallb ex_idle (seq 184 16) = true) by (vm_compute; reflexivity). rewrite forallb_forall in Y. apply Y, in_seq. lia.
  - unfold ex_idle, ex_state. rewrite (ex_woken_late n X). vm_compute. reflexivity.
Qed.
Example C86_case : let F := ex_float in let U := ex_url in
  let after n := wake_run ex_explain ex_reason ex_link ex_incoming (build (registrations ex_procs)) ex_wakes n (Later (Ready ex_clients)) in
  let c2 := [(MGet, u "/items/7"); (MHead, u "/items/8")] in let c1 := [(MHead, u "/items/8")] in
  polls_return after /\ polls_due ex_wakes after /\ wakes_noted ex_wakes after /\
  nth_error (fst (accepting ex_incoming 3 (Later (Ready ex_clients)))) 2 = Some (Ready c2) /\ obliging ex_link ex_procs /\
  doings 2 (fst (after 48)) = [ARead c2] /\ settle (l_read ex_link c2) = Comes (Got (mkRequest MGet (u "/items/7") [(u "Host", u "foo")] c1)) /\
  doings 2 (fst (after 200)) = [ARead c2; AWrite ex_head2 (Some (u "hi")) c1; ARead c1; AWrite ex_head2 None []; ARead []] /\
  (match snd (after 200) with Ok x => map (fun i => outcome i (x_server x)) [0; 1; 2] | _ => [] end) = [Some Crashed; Some (Failing Other); Some Closed].
Proof.
  intros F U after c2 c1. split; [|split; [|split; [|split; [vm_compute; reflexivity|split]]]].
  - intros n. apply is_ok_some. exact (ex_woken_ok n).
  - intros n x w E D. destruct (ex_four n x w E (or_introl D)) as (k & Lk & ->). destruct (ex_polled k n Lk) as (m & Lm & Em). exists m, 10. auto.
  - intros n x w E D V. destruct (ex_four n x w E (or_intror D)) as (k & Lk & ->). destruct (Nat.lt_ge_cases n 184) as [X|X]; [exact (ex_netted k n Lk X)|]. exfalso. apply V.
    pose proof (ex_idle_late n X) as Y. unfold ex_idle, ex_state in Y. change (snd (ex_woken n) = Ok x) in E. rewrite E in Y. rewrite forallb_forall in Y.
    specialize (Y (ex_task k) ltac:(destruct k as [|[|[|[|k]]]]; cbn; auto; lia)). rewrite D in Y. cbn [negb orb] in Y. apply andb_true_iff in Y. destruct Y as [Y1 Y2]. apply who_eqb_eq in Y1. rewrite Y1. cbn [in_vain].
    destruct (v_accept (x_server x)) as [a|[f|f]|e]; try discriminate. exact Y2.
  - split; [discriminate|]. intros p [<-|[<-|[]]]; split; discriminate.
  - split; [vm_compute; reflexivity|]. split; [reflexivity|]. split; vm_compute; reflexivity.
Qed.
