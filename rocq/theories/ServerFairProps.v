(** * Property C61: with a fair executor, every client that comes is served and every request read is answered; what one poll may take. *)
From Verif Require Import Base Utf8 Decimal DepUrl Serde Json Procedure Router RouterSpec Status SerHeader SerRequest SerResponse DeHeader DeRequest DeResponse JsonText Problem ProblemSpec Error Client ClientSpec
  Server ServerSpec ServerProofs ServerPoll ServerFairSpec ServerFair Exhibit JsonProps ProblemProps ServerProps.
Open Scope nat_scope.

(** The accept loop and connection [i] get their rounds again and again: from some time on, the [i]-th client has had the first [m] exchanges of its
    conversation, for every [m]; a conversation that is over stays so, with its outcome.  Nothing is said of the other clients: they may
    be silent, fail or crash, and their connections may be run or not. *)
Theorem C61_clients_served (F : floatlib) (U : urlenv) (Conn R L : Type) explain reason ln (ps : list (hproc Conn R))
    (incoming : L -> fut (option (fut Conn) * L)) bind sched k i c m :
  often (fun w => w = Acceptor) sched -> often (fun w => w = Connection i) sched -> nth_error (fst (accepting incoming k bind)) i = Some c ->
  finally (fun n => let '(ev, s) := after_rounds explain reason ln ps incoming sched n bind in
    exists a', doings i ev = fst (conversation explain reason ln ps m c) ++ a' /\
      (snd (conversation explain reason ln ps m c) <> Unfinished -> a' = [] /\ outcome i s = Some (snd (conversation explain reason ln ps m c)))).
Proof. exact (served_rounds explain reason ln ps incoming bind sched k i c m). Qed.
Print Assumptions C61_clients_served.

(** The same of an executor's polls, as long as each of them comes back. *)
Theorem C61_clients_served_by_polls (F : floatlib) (U : urlenv) (Conn R L : Type) explain reason ln (ps : list (hproc Conn R))
    (incoming : L -> fut (option (fut Conn) * L)) bind sched k i c m :
  (forall n, exists s, snd (after_polls explain reason ln ps incoming sched n bind) = Ok s) ->
  often (fun p => fst p = Acceptor) sched -> often (fun p => fst p = Connection i) sched -> nth_error (fst (accepting incoming k bind)) i = Some c ->
  finally (fun n => exists ev s, after_polls explain reason ln ps incoming sched n bind = (ev, Ok s) /\
    exists a', doings i ev = fst (conversation explain reason ln ps m c) ++ a' /\
      (snd (conversation explain reason ln ps m c) <> Unfinished -> a' = [] /\ outcome i s = Some (snd (conversation explain reason ln ps m c)))).
Proof. exact (served_polls explain reason ln ps incoming bind sched k i c m). Qed.
Print Assumptions C61_clients_served_by_polls.

(** A request read from a connection that gets its rounds is answered right after, by the response the specification gives; or there is none, and the connection is over. *)
Theorem C61_requests_answered (F : floatlib) (U : urlenv) (Conn R L : Type) explain reason ln (ps : list (hproc Conn R))
    (incoming : L -> fut (option (fut Conn) * L)) bind sched t i a c r :
  obliging ln ps -> often (fun w => w = Connection i) sched ->
  doings i (fst (after_rounds explain reason ln ps incoming sched t bind)) = a ++ [ARead c] -> settle (l_read ln c) = Comes (Got r) ->
  finally (fun n => let '(ev, s) := after_rounds explain reason ln ps incoming sched n bind in
    match reply_to explain reason ln ps r with
    | Sends c' h b => exists l, doings i ev = a ++ ARead c :: AWrite h (match q_method r with MHead => None | _ => Some b end) c' :: l
    | Refuses k => doings i ev = a ++ [ARead c] /\ outcome i s = Some (Failing k)
    | Crashes => doings i ev = a ++ [ARead c] /\ outcome i s = Some Crashed
    | Hesitates => False
    end).
Proof.
  intros O Oc Ea Er. destruct (answered_rounds explain reason ln ps incoming bind sched t i a c r Oc Ea Er) as [n Q]. exists n. intros m Lm. specialize (Q m Lm).
  destruct (after_rounds explain reason ln ps incoming sched m bind) as [ev s]. pose proof (obliging_replies explain reason ln ps r O) as N. destruct (reply_to explain reason ln ps r); auto.
Qed.
Print Assumptions C61_requests_answered.

Theorem C61_requests_answered_by_polls (F : floatlib) (U : urlenv) (Conn R L : Type) explain reason ln (ps : list (hproc Conn R))
    (incoming : L -> fut (option (fut Conn) * L)) bind sched t i a c r :
  obliging ln ps -> (forall n, exists s, snd (after_polls explain reason ln ps incoming sched n bind) = Ok s) -> often (fun p => fst p = Connection i) sched ->
  doings i (fst (after_polls explain reason ln ps incoming sched t bind)) = a ++ [ARead c] -> settle (l_read ln c) = Comes (Got r) ->
  finally (fun n => exists ev s, after_polls explain reason ln ps incoming sched n bind = (ev, Ok s) /\
    match reply_to explain reason ln ps r with
    | Sends c' h b => exists l, doings i ev = a ++ ARead c :: AWrite h (match q_method r with MHead => None | _ => Some b end) c' :: l
    | Refuses k => doings i ev = a ++ [ARead c] /\ outcome i s = Some (Failing k)
    | Crashes => doings i ev = a ++ [ARead c] /\ outcome i s = Some Crashed
    | Hesitates => False
    end).
Proof.
  intros O Ret Oc Ea Er. destruct (answered_polls explain reason ln ps incoming bind sched t i a c r Ret Oc Ea Er) as [n Q]. exists n. intros m Lm. destruct (Q m Lm) as (ev & s & E & Y).
  exists ev, s. split; [exact E|]. pose proof (obliging_replies explain reason ln ps r O) as N. destruct (reply_to explain reason ln ps r); auto.
Qed.
Print Assumptions C61_requests_answered_by_polls.

(** ** What one poll may take *)
(** A poll of a connection comes back exactly if somewhere in the conversation there is something to wait for, or the conversation ends. *)
Theorem C61_poll_returns_iff (F : floatlib) (U : urlenv) (Conn R : Type) explain reason ln (ps : list (hproc Conn R)) f m :
  (exists fuel a st, poll_task explain reason ln (build (registrations ps)) fuel (mkTask m (SpA f)) = (a, Ok st)) <-> pauses explain reason ln ps f.
Proof. exact (poll_returns_iff explain reason ln ps f m). Qed.
Print Assumptions C61_poll_returns_iff.

(** And one of the accept loop exactly if sooner or later no client is there at once. *)
Theorem C61_accept_returns_iff (Conn L : Type) (incoming : L -> fut (option (fut Conn) * L)) f :
  (exists fuel ts st, poll_accept incoming fuel (AcB f) = (ts, Ok st)) <-> lull incoming f.
Proof. exact (accept_returns incoming f). Qed.
Print Assumptions C61_accept_returns_iff.

(** ** Cases *)
(** Three clients, of which the first crashes its connection and the second fails, polled in turn with the accept loop. *)
Definition ex_clients : list ex_conn := [[(MGet, u "mailto:x")]; []; [(MGet, u "/items/7"); (MHead, u "/items/8")]].
Definition ex_turns (n : nat) : who := match n mod 4 with 0 => Acceptor | S i => Connection i end.
Definition ex_polls (n : nat) : who * nat := (ex_turns n, 10).
Lemma ex_turns_often k : k < 4 -> often (fun w => w = match k with 0 => Acceptor | S i => Connection i end) ex_turns.
Proof.
  intros Lk n. exists (k + n * 4). split; [lia|]. unfold ex_turns. rewrite Nat.mod_add, Nat.mod_small by (discriminate || lia). reflexivity.
Qed.
Lemma ex_turn_of n : exists i, i < 4 /\ ex_turns n = match i with 0 => Acceptor | S i => Connection i end.
Proof. exists (n mod 4). split; [apply Nat.mod_upper_bound; discriminate | reflexivity]. Qed.
Definition is_ok {A} (x : res A) : bool := match x with Ok _ => true | _ => false end.
Lemma is_ok_some {A} (x : res A) : is_ok x = true -> exists a, x = Ok a.
Proof. destruct x; try discriminate. eauto. Qed.
Definition ex_fin n := after_polls (H := ex_float) (H0 := ex_url) ex_explain ex_reason ex_link ex_procs ex_incoming ex_polls n (Later (Ready ex_clients)).
Definition ex_poll w s := serve_poll (H := ex_float) (H0 := ex_url) ex_explain ex_reason ex_link ex_incoming (build (registrations ex_procs)) w 10 s.
Lemma ex_fin_S n : ex_fin (S n) = match ex_fin n with (e, Ok s1) => let '(e', x) := ex_poll (ex_turns n) s1 in (e ++ e', x) | (e, x) => (e, x) end.
Proof.
  unfold ex_fin, after_polls. rewrite seq_S, map_app, serve_polls_app. destruct (serve_polls _ _ _ _ _ (map ex_polls (seq 0 n)) _) as [e [s1|k| |]]; try reflexivity.
  cbn [map Nat.add serve_polls]. unfold ex_polls at 1. fold (ex_poll (ex_turns n) s1). destruct (ex_poll (ex_turns n) s1) as [e' [x|k| |]]; rewrite ?app_nil_r; reflexivity.
Qed.
Lemma ex_fin_ok n : is_ok (snd (ex_fin n)) = true.
Proof.
  assert (Q : forall n, ex_fin (n + 60) = ex_fin 60).
  { assert (X : forall i, i < 4 -> match ex_fin 60 with (e, Ok s1) => let '(e', x) := ex_poll (match i with 0 => Acceptor | S i => Connection i end) s1 in (e ++ e', x) | (e, x) => (e, x) end = ex_fin 60)
      by (intros [|[|[|[|i]]]] Li; [vm_compute; reflexivity..|lia]).
    induction n0 as [|m IH]; [exact eq_refl|]. cbn [Nat.add]. rewrite ex_fin_S, IH. destruct (ex_turn_of (m + 60)) as (i & Li & ->). apply X, Li. }
  destruct (Nat.lt_ge_cases n 60) as [X|X].
  - assert (Y : forallb (fun n => is_ok (snd (ex_fin n))) (seq 0 60) = true) by (vm_compute; reflexivity).
    rewrite forallb_forall in Y. apply Y, in_seq. lia.
  - replace n with ((n - 60) + 60) by lia. rewrite Q. vm_compute. reflexivity.
Qed.
Definition ex_head2 := mkRespb StOk [(u "Content-Length", u "2")].
Example C61_case : let F := ex_float in let U := ex_url in
  let bind := Later (Ready ex_clients) in
  let after n := after_polls ex_explain ex_reason ex_link ex_procs ex_incoming ex_polls n bind in
  let c2 := [(MGet, u "/items/7"); (MHead, u "/items/8")] in let c1 := [(MHead, u "/items/8")] in
  (forall n, exists s, snd (after n) = Ok s) /\ often (fun p => fst p = Acceptor) ex_polls /\ often (fun p => fst p = Connection 2) ex_polls /\
  nth_error (fst (accepting ex_incoming 3 bind)) 2 = Some (Ready c2) /\ obliging ex_link ex_procs /\
  doings 2 (fst (after 20)) = [ARead c2] /\
  settle (l_read ex_link c2) = Comes (Got (mkRequest MGet (u "/items/7") [(u "Host", u "foo")] c1)) /\
  doings 2 (fst (after 100)) = [ARead c2; AWrite ex_head2 (Some (u "hi")) c1; ARead c1; AWrite ex_head2 None []; ARead []] /\
  (match snd (after 100) with Ok s => map (fun i => outcome i s) [0; 1; 2] | _ => [] end) = [Some Crashed; Some (Failing Other); Some Closed].
Proof.
  intros F U bind after c2 c1.
  split; [intros n; apply is_ok_some; exact (ex_fin_ok n)|]. split; [exact (ex_turns_often 0 ltac:(lia))|]. split; [exact (ex_turns_often 3 ltac:(lia))|]. split; [vm_compute; reflexivity|]. split.
  - split; [discriminate|]. intros p [<-|[<-|[]]]; split; discriminate.
  - split; [vm_compute; reflexivity|]. split; [reflexivity|]. split; vm_compute; reflexivity.
Qed.

(** A poll does not come back while everything is ready at once: a client who always has the next request there keeps the thread that polls it, and nobody else is served by it. *)
Definition ex_eager : link (option nat) := {|
  l_read := fun c => match c with Some 0 => Ready (IoError UnexpectedEof) | Some (S n) => Ready (Got (mkRequest MGet (u "/x") [] (Some n))) | None => Ready (Got (mkRequest MGet (u "/x") [] None)) end;
  l_drain := fun r => Ready r; l_write := fun _ _ c => Ready c
|}.
Definition ex_two (n : nat) : fut (option (fut (option nat)) * nat) := match n with 0 => Ready (Some (Ready None), 1) | 1 => Ready (Some (Ready (Some 1)), 2) | _ => Never end.
Definition ex_explain2 : request (option nat) -> ekind -> ustr * option ustr * option (list ustr) := fun _ _ => (u "Invalid", None, None).
Definition ex_none : list (hproc (option nat) unit) := [].
Lemma ex_greedy : let F := ex_float in let U := ex_url in ~ pauses ex_explain2 ex_reason ex_eager ex_none (Ready None).
Proof.
  intros F U P. remember (Ready None) as f eqn:E. induction P as [f N|c N|c r E0 N|c r E0 N|c r c' h b E0 Er P IH].
  - exact (N _ E).
  - injection E as ->. exact (N _ eq_refl).
  - injection E as ->. injection E0 as <-. apply N. vm_compute. eexists. reflexivity.
  - injection E as ->. injection E0 as <-. eapply N. vm_compute. reflexivity.
  - apply IH. injection E as ->. injection E0 as <-. vm_compute in Er. injection Er as <- _ _. reflexivity.
Qed.
Theorem C61_greedy_client_refuted : exists (F : floatlib) (U : urlenv) (Conn R L : Type) explain reason ln (ps : list (hproc Conn R)) (incoming : L -> fut (option (fut Conn) * L)) bind c x h b c',
  obliging ln ps /\ nth_error (fst (accepting incoming 2 bind)) 1 = Some c /\ fst (conversation explain reason ln ps 1 c) = [ARead x; AWrite h b c'] /\
  doings 1 (fst (serve_polls explain reason ln incoming (build (registrations ps)) [(Acceptor, 4); (Connection 1, 9)] (server_new bind))) = [ARead x; AWrite h b c'; ARead c'] /\
  forall fuel rest, doings 1 (fst (serve_polls explain reason ln incoming (build (registrations ps)) ((Acceptor, 4) :: (Connection 0, fuel) :: rest) (server_new bind))) = [].
Proof.
  exists ex_float, ex_url, (option nat), unit, nat, ex_explain2, ex_reason, ex_eager, ex_none, ex_two, (Ready 0), (Ready (Some 1)), (Some 1),
    (mkRespb StNotFound [(u "content-type", u "application/problem+json"); (u "Content-Length", show_N (N.of_nat (length (problem_text (AboutBlank (ex_reason StNotFound) 404)))))]),
    (Some (problem_text (AboutBlank (ex_reason StNotFound) 404))), (Some 0).
  split; [split; [discriminate | intros p []]|]. split; [reflexivity|]. split; [vm_compute; reflexivity|]. split; [vm_compute; reflexivity|].
  intros fuel rest. cbn [serve_polls].
  set (s1 := mkServer (ASleeps (AcB Never)) [Goes (task_new (Ready None)); Goes (task_new (Ready (Some 1)))] : server (option nat) nat).
  change (serve_poll ex_explain2 ex_reason ex_eager ex_two (build (registrations ex_none)) Acceptor 4 (server_new (Ready 0))) with ([ESpawn 0; ESpawn 1] : list (event (option nat)), Ok s1).
  cbv iota beta. cbn [serve_poll s1 v_tasks nth_error]. destruct (poll_task _ _ _ _ fuel (task_new (Ready None))) as [a x] eqn:E.
  assert (N : forall st, x <> Ok st).
  { intros st ->. apply ex_greedy. apply (proj1 (C61_poll_returns_iff ex_float ex_url _ _ ex_explain2 ex_reason ex_eager ex_none (Ready None) MGet)). exists fuel, a, st. exact E. }
  destruct x as [st|k| |]; [elim (N st); reflexivity|..]; cbn [fst app doings]; rewrite doings_acts; apply acts_other; discriminate.
Qed.
Print Assumptions C61_greedy_client_refuted.

(** Here a connection pauses after an exchange, and the accept loop after a client. *)
Example C61_poll_case : let F := ex_float in let U := ex_url in
  pauses ex_explain2 ex_reason ex_eager ex_none (Ready (Some 1)) /\ lull ex_two (ex_two 0) /\
  (exists a, poll_task ex_explain2 ex_reason ex_eager (build (registrations ex_none)) 9 (task_new (Ready (Some 1))) = (a, Ok Ends)) /\
  forall fuel a st, poll_task ex_explain2 ex_reason ex_eager (build (registrations ex_none)) fuel (task_new (Ready None)) <> (a, Ok st).
Proof.
  intros F U. split; [|split; [|split]].
  - apply (proj1 (C61_poll_returns_iff F U _ _ ex_explain2 ex_reason ex_eager ex_none (Ready (Some 1)) MGet)). exists 9. eexists. exists Ends. vm_compute. reflexivity.
  - apply LNext, LNext, LWait. discriminate.
  - eexists. vm_compute. reflexivity.
  - intros fuel a st E. apply ex_greedy. apply (proj1 (C61_poll_returns_iff F U _ _ ex_explain2 ex_reason ex_eager ex_none (Ready None) MGet)). exists fuel, a, st. exact E.
Qed.
