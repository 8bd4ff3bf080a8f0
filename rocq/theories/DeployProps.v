(** * Property C101: procedures that are added to a server change nothing for what they are not asked. *)
From Verif Require Import Base Utf8 Decimal DepUrl Serde Json Procedure Router RouterSpec Status SerHeader SerRequest SerResponse DeHeader DeRequest DeResponse JsonText JsonDe DepHttp
  HeaderProofs Problem ProblemSpec ProblemProofs Error Client ClientSpec ClientProofs Server ServerSpec ServerProofs Exhibit JsonProps ProblemProps ServerProps
  ClashSpec Clash DeploySpec Deploy.
From Coq Require Import Permutation.
Open Scope N_scope.

(** Two servers with whatever procedures do the same, event for event and to the last state, in every order of their
    tasks, as long as the requests that one of them reads are sent the same way by both. *)
Theorem C101_same_run (F : floatlib) (U : urlenv) (Conn R L : Type) explain reason (ln : link Conn) (incoming : L -> fut (option (fut Conn) * L))
    (ps ps' : list (hproc Conn R)) sched bind :
  requests_read ln (fst (serve_run explain reason ln incoming (build (registrations ps)) sched (server_new bind))) (same_way ps ps') ->
  serve_run explain reason ln incoming (build (registrations ps')) sched (server_new bind) =
  serve_run explain reason ln incoming (build (registrations ps)) sched (server_new bind).
Proof. exact (run_same explain reason ln incoming ps ps' sched bind). Qed.
Print Assumptions C101_same_run.

(** So procedures can be added, if none clashes with another (C100), without any difference to clients that ask for the
    old ones. *)
Theorem C101_added (F : floatlib) (U : urlenv) (Conn R L : Type) explain reason (ln : link Conn) (incoming : L -> fut (option (fut Conn) * L))
    (ps ps' : list (hproc Conn R)) sched bind :
  clash_free (registrations (ps ++ ps')) ->
  requests_read ln (fst (serve_run explain reason ln incoming (build (registrations ps)) sched (server_new bind))) (meant_for ps) ->
  serve_run explain reason ln incoming (build (registrations (ps ++ ps'))) sched (server_new bind) =
  serve_run explain reason ln incoming (build (registrations ps)) sched (server_new bind).
Proof. exact (run_added explain reason ln incoming ps ps' sched bind). Qed.
Print Assumptions C101_added.

(** The order of the registrations makes no difference at all, if there is no conflict ... *)
Theorem C101_order (F : floatlib) (U : urlenv) (Conn R L : Type) explain reason (ln : link Conn) (incoming : L -> fut (option (fut Conn) * L))
    (ps ps' : list (hproc Conn R)) sched bind :
  Permutation ps ps' -> NoDup (map (fun p => (hp_method p, hp_entry p)) ps) ->
  serve_run explain reason ln incoming (build (registrations ps')) sched (server_new bind) =
  serve_run explain reason ln incoming (build (registrations ps)) sched (server_new bind).
Proof. exact (run_order explain reason ln incoming ps ps' sched bind). Qed.
Print Assumptions C101_order.

(** ... and neither does a registration that is refused because of one. *)
Theorem C101_conflict (F : floatlib) (U : urlenv) (Conn R L : Type) explain reason (ln : link Conn) (incoming : L -> fut (option (fut Conn) * L))
    (ps : list (hproc Conn R)) p sched bind :
  (exists p', In p' ps /\ hp_method p' = hp_method p /\ hp_entry p' = hp_entry p) ->
  serve_run explain reason ln incoming (build (registrations (ps ++ [p]))) sched (server_new bind) =
  serve_run explain reason ln incoming (build (registrations ps)) sched (server_new bind).
Proof. exact (run_conflict explain reason ln incoming ps p sched bind). Qed.
Print Assumptions C101_conflict.

(** The server of C28 with another procedure, and clients that ask for the old one. *)
Definition ex_added (m : method) (ep : entry_point) : hproc ex_conn value := {|
  hp_method := m; hp_entry := ep; hp_req := TStruct (u "R") [];
  hp_body := fun v r => Ready (r, v);
  hp_call := fun v => NReady (SStruct (u "A") [(u "status", SInt U16 200)], u "new")
|}.
Definition ex_clients : list ex_conn := [[(MGet, u "/items/7"); (MHead, u "/items/8")]; [(MGet, u "/items/x")]].
Definition ex_orders : list who := repeat Acceptor 8 ++ flat_map (fun _ => [Connection 1; Connection 0]) (seq 0 24).

(** With a clash it is false: POST /items/7, which nobody asks for, makes the server say 405 to GET /items/7. *)
Theorem C101_clash_refuted : exists (F : floatlib) (U : urlenv) (Conn R L : Type) explain reason (ln : link Conn) (incoming : L -> fut (option (fut Conn) * L))
    (ps : list (hproc Conn R)) p sched bind i h h' b b' c,
  requests_read ln (fst (serve_run explain reason ln incoming (build (registrations ps)) sched (server_new bind)))
    (fun r => meant_for ps r /\ ~ meant_for [p] r) /\
  In (EAct i (AWrite h b c)) (fst (serve_run explain reason ln incoming (build (registrations ps)) sched (server_new bind))) /\
  pb_status h = StOk /\
  In (EAct i (AWrite h' b' c)) (fst (serve_run explain reason ln incoming (build (registrations (ps ++ [p]))) sched (server_new bind))) /\
  pb_status h' = StMethodNotAllowed.
Proof.
  exists ex_float, ex_url, ex_conn, value, (list ex_conn), ex_explain, ex_reason, ex_link, ex_incoming, ex_procs.
  exists (ex_added MPost [Val (u "items"); Val (u "7")]), (repeat Acceptor 4 ++ repeat (Connection 0) 9), (Ready [[(MGet, u "/items/7")]]).
  set (ev := fst (serve_run _ _ _ _ (build (registrations ex_procs)) _ _)). vm_compute in ev.
  set (ev' := fst (serve_run _ _ _ _ (build (registrations (ex_procs ++ _))) _ _)). vm_compute in ev'.
  do 6 eexists. split; [|split; [|split; [|split]]].
  - intros i c r I S. subst ev. cbn in I. repeat destruct I as [I|I]; try discriminate; try contradiction; injection I as <- <-.
    + cbn in S. injection S as <-. split.
      * exists [u "items"; u "7"], None, (ex_hproc MGet). split; [vm_compute; reflexivity|].
        split; [left; reflexivity | split; [reflexivity | cbn; auto]].
      * intros (segs & q & p & _ & [<-|[]] & E & _). discriminate.
    + discriminate.
  - subst ev. right. right. left. reflexivity.
  - reflexivity.
  - subst ev'. right. right. left. reflexivity.
  - reflexivity.
Qed.
Print Assumptions C101_clash_refuted.

Example C101_case : let F := ex_float in let U := ex_url in
  let more := [ex_added MPost [Val (u "items"); Var]; ex_added MGet [Val (u "things")]] in
  let run ps := serve_run ex_explain ex_reason ex_link ex_incoming (build (registrations ps)) ex_orders (server_new (Ready ex_clients)) in
  clash_free (registrations (ex_procs ++ more)) /\
  requests_read ex_link (fst (run ex_procs)) (meant_for ex_procs) /\
  length (acts_of 0 (fst (run (ex_procs ++ more)))) = 5%nat /\ length (acts_of 1 (fst (run (ex_procs ++ more)))) = 3%nat /\
  NoDup (map (fun p => (hp_method p, hp_entry p)) (ex_procs ++ more)) /\
  (* one that is refused *)
  (exists p', In p' ex_procs /\ hp_method p' = MHead /\ hp_entry p' = [Val (u "items"); Var]) /\
  run (ex_procs ++ [ex_added MHead [Val (u "items"); Var]]) = run ex_procs.
Proof.
  cbv zeta. split; [apply check_iff; vm_compute; reflexivity|]. split.
  - set (ev := fst _). vm_compute in ev. intros i c r I S. subst ev. cbn in I.
    repeat destruct I as [I|I]; try discriminate; try contradiction; injection I as <- <-; cbn in S; try discriminate; injection S as <-.
    all: match goal with |- meant_for _ (mkRequest ?m ?t _ _) =>
           match eval vm_compute in (option_map u_path (@parse_url ex_url t)) with
           | Some (Some ?segs) => exists segs, None, (ex_hproc m) end end.
    all: split; [vm_compute; reflexivity|].
    all: split; [cbn; auto | split; [reflexivity | cbn; auto]].
  - split; [vm_compute; reflexivity|]. split; [vm_compute; reflexivity|].
    split; [repeat constructor; cbn; intuition discriminate|].
    split; [exists (ex_hproc MHead); split; [right; left; reflexivity | split; reflexivity]|].
    vm_compute. reflexivity.
Qed.
