(** * Properties C28, C30-C32: the server. *)
From Verif Require Import Base Utf8 Decimal DepUrl Serde Json Procedure Router RouterSpec Status SerHeader SerRequest SerResponse DeHeader DeRequest DeResponse JsonText JsonDe DepHttp
  HeaderProofs Problem ProblemSpec ProblemProofs Error Client ClientSpec ClientProofs Server ServerSpec ServerProofs Exhibit JsonProps ProblemProps.
Open Scope N_scope.

(** A server with one procedure under GET and HEAD, whose connections are the list of the requests still to come. *)
Definition ex_conn : Type := list (method * ustr).
Definition ex_link : link ex_conn := {|
  l_read := fun c => match c with [] => Ready (IoError UnexpectedEof) | (m, t) :: c => Later (Ready (Got (mkRequest m t [(u "Host", u "foo")] c))) end;
  l_drain := fun r => Later (Ready r);
  l_write := fun _ _ c => Later (Later (Ready c))
|}.
Definition ex_hproc (m : method) : hproc ex_conn value := {|
  hp_method := m; hp_entry := [Val (u "items"); Var]; hp_req := TStruct (u "R") [(u "path", TTuple [TInt U8])];
  hp_body := fun v r => Ready (r, v);
  hp_call := fun v => NLater (NReady (SStruct (u "A") [(u "status", SInt U16 200)], u "hi"))
|}.
Definition ex_procs : list (hproc ex_conn value) := [ex_hproc MGet; ex_hproc MHead].
Definition ex_explain : request ex_conn -> ekind -> ustr * option ustr * option (list ustr) := fun _ _ => (u "Invalid", None, Some [u "at x.rs:1"]).
Definition ex_incoming (n : list ex_conn) : fut (option (fut ex_conn) * list ex_conn) :=
  match n with [] => Never | c :: n => Later (Ready (Some (match c with [] => Failed FromIo | _ => Ready c end), n)) end.

(** ** C28 *)
(** The answer to a request is that of the specification: 400, 404 or 405 with a problem, or what the handler says. *)
Theorem C28_answers (F : floatlib) (U : urlenv) (Conn R : Type) explain reason ln (ps : list (hproc Conn R)) r :
  reads_reply (on_request explain reason ln (build (registrations ps)) r) = reply_to explain reason ln ps r.
Proof. exact (on_request_is explain reason ln ps r). Qed.
Print Assumptions C28_answers.

(** The statuses, spelled out. *)
Theorem C28_statuses (F : floatlib) (U : urlenv) (Conn R : Type) explain reason ln (ps : list (hproc Conn R)) r r' :
  settle (l_drain ln r) = Comes r' ->
  let table := accepted (map (fun p => (hp_method p, hp_entry p, p)) ps) in
  (parse_url (q_target r) = None ->
     exists h b, reply_to explain reason ln ps r = Sends (q_conn r') h b /\ code_of (pb_status h) = 400) /\
  (forall segs q, parse_url (q_target r) = Some (mkUrl (Some segs) q) ->
     (route_spec table (q_method r) segs = inr NotFound ->
        exists h b, reply_to explain reason ln ps r = Sends (q_conn r') h b /\ code_of (pb_status h) = 404) /\
     (route_spec table (q_method r) segs = inr MethodNotAllowed ->
        exists h b, reply_to explain reason ln ps r = Sends (q_conn r') h b /\ code_of (pb_status h) = 405) /\
     (forall p k, route_spec table (q_method r) segs = inl p ->
        de_request (hp_entry p) (mkUrl (Some segs) q) (q_headers r) (hp_req p) = Err k ->
        exists h b, reply_to explain reason ln ps r = Sends (q_conn r') h b /\ code_of (pb_status h) = 400) /\
     (forall p v r1 y v1 b1 h1, route_spec table (q_method r) segs = inl p ->
        de_request (hp_entry p) (mkUrl (Some segs) q) (q_headers r) (hp_req p) = Ok v ->
        settle (hp_body p v r) = Comes (r1, y) -> nsettle (hp_call p y) = Comes (v1, b1) ->
        encode_response v1 (N.of_nat (length b1)) = Ok h1 ->
        reply_to explain reason ln ps r = Sends (q_conn r1) h1 b1)).
Proof. exact (reply_statuses explain reason ln ps r r'). Qed.
Print Assumptions C28_statuses.

(** The server panics exactly on targets that are URLs without path segments. *)
Theorem C28_panics_iff (F : floatlib) (U : urlenv) (Conn R : Type) explain reason ln (ps : list (hproc Conn R)) r :
  names_ok (q_headers r) = true ->
  (reply_to explain reason ln ps r = Crashes <-> exists x, parse_url (q_target r) = Some x /\ u_path x = None).
Proof. exact (reply_panics_iff explain reason ln ps r). Qed.
Print Assumptions C28_panics_iff.

Theorem C28_never_panics_refuted : exists (F : floatlib) (U : urlenv) (Conn R : Type) explain reason ln (ps : list (hproc Conn R)) r,
  on_request explain reason ln (build (registrations ps)) r = Panic.
Proof.
  exists ex_float, ex_url, ex_conn, value, ex_explain, ex_reason, ex_link, ex_procs, (mkRequest MGet (u "mailto:x") [] []). vm_compute. reflexivity.
Qed.
Print Assumptions C28_never_panics_refuted.

(** A response that cannot be serialized is no answer at all: the connection ends. *)
Theorem C28_always_answers_refuted : exists (F : floatlib) (U : urlenv) (Conn R : Type) explain reason ln (ps : list (hproc Conn R)) r p v r1 y,
  parse_url (q_target r) <> None /\
  route_spec (accepted (map (fun p => (hp_method p, hp_entry p, p)) ps)) (q_method r) [u "x"] = inl p /\
  settle (hp_body p v r) = Comes (r1, y) /\ (exists x, nsettle (hp_call p y) = Comes x) /\
  reply_to explain reason ln ps r = Refuses Invalid.
Proof.
  pose (p := mkHproc MGet [Val (u "x")] (TStruct (u "R") []) (fun v r => Ready (r, v)) (fun _ : value => NReady (SStruct (u "A") [(u "status", SInt U16 299)], [])) : hproc ex_conn value).
  exists ex_float, ex_url, ex_conn, value, ex_explain, ex_reason, ex_link, [p], (mkRequest MGet (u "/x") [(u "Host", u "foo")] []), p, SUnit, (mkRequest MGet (u "/x") [(u "Host", u "foo")] []), SUnit.
  split; [vm_compute; discriminate|]. split; [vm_compute; reflexivity|]. split; [reflexivity|]. split; [eexists; reflexivity | vm_compute; reflexivity].
Qed.
Print Assumptions C28_always_answers_refuted.

Definition status_sent (x : reply (Conn := ex_conn)) : option N := match x with Sends _ h _ => Some (code_of (pb_status h)) | _ => None end.
Example C28_case : let F := ex_float in let U := ex_url in
  let ask m t := reply_to ex_explain ex_reason ex_link ex_procs (mkRequest m t [(u "Host", u "foo")] []) in
  status_sent (ask MGet (u "/items/7")) = Some 200 /\ status_sent (ask MGet (u "/items/700")) = Some 400 /\ status_sent (ask MGet (u "/things/7")) = Some 404 /\
  status_sent (ask MPut (u "/items/7")) = Some 405 /\ status_sent (ask MGet (u "http://")) = Some 400 /\ ask MGet (u "mailto:x") = Crashes /\
  settle (l_drain ex_link (mkRequest MGet (u "/") [] [])) = Comes (mkRequest MGet (u "/") [] []).
Proof. vm_compute. repeat split. Qed.

(** ** C30 *)
(** All that is seen of a connection, after however many rounds of its loop. *)
Theorem C30_dialogue (F : floatlib) (U : urlenv) (Conn R : Type) explain reason ln (ps : list (hproc Conn R)) k connected :
  dialogue explain reason ln ps connected (fst (rounds explain reason ln (build (registrations ps)) k (task_new connected))).
Proof. exact (rounds_dialogue explain reason ln ps k connected). Qed.
Print Assumptions C30_dialogue.

(** It is a first part of the conversation, all of it when it is over, and it ends for the same reason. *)
Theorem C30_one_by_one (F : floatlib) (U : urlenv) (Conn R : Type) explain reason ln (ps : list (hproc Conn R)) k n connected : (k <= n)%nat ->
  let '(a, s) := rounds explain reason ln (build (registrations ps)) k (task_new connected) in
  match ended s with
  | Some e => conversation explain reason ln ps n connected = (a, e)
  | None => exists a', fst (conversation explain reason ln ps n connected) = a ++ a'
  end.
Proof. exact (rounds_conversation explain reason ln ps k n connected). Qed.
Print Assumptions C30_one_by_one.

(** Conversely, enough rounds perform any number of exchanges, as far as the network lets them. *)
Theorem C30_progress (F : floatlib) (U : urlenv) (Conn R : Type) explain reason ln (ps : list (hproc Conn R)) n connected :
  exists k a', fst (rounds explain reason ln (build (registrations ps)) k (task_new connected)) = fst (conversation explain reason ln ps n connected) ++ a' /\
    (snd (conversation explain reason ln ps n connected) <> Unfinished ->
     a' = [] /\ ended (snd (rounds explain reason ln (build (registrations ps)) k (task_new connected))) = Some (snd (conversation explain reason ln ps n connected))).
Proof. exact (conversation_rounds explain reason ln ps n connected). Qed.
Print Assumptions C30_progress.

(** Every poll is a number of rounds, and once a connection is over nothing follows. *)
Theorem C30_polls_are_rounds (F : floatlib) (U : urlenv) (Conn R : Type) explain reason ln (ps : list (hproc Conn R)) fuel t :
  let '(a, s) := poll_task explain reason ln (build (registrations ps)) fuel t in
  match s with
  | Ok (Sleeps t') => exists k, rounds explain reason ln (build (registrations ps)) k t = (a, Goes t')
  | Ok s => exists k, rounds explain reason ln (build (registrations ps)) k t = (a, s) /\ ended s <> None
  | Diverge => exists t', rounds explain reason ln (build (registrations ps)) fuel t = (a, Goes t')
  | _ => False
  end.
Proof. exact (poll_rounds explain reason ln ps fuel t). Qed.
Print Assumptions C30_polls_are_rounds.

Theorem C30_over_is_over (F : floatlib) (U : urlenv) (Conn R : Type) explain reason ln (ps : list (hproc Conn R)) k j t :
  ended (snd (rounds explain reason ln (build (registrations ps)) k t)) <> None ->
  rounds explain reason ln (build (registrations ps)) (j + k) t = rounds explain reason ln (build (registrations ps)) k t.
Proof. exact (rounds_over explain reason ln ps k j t). Qed.
Print Assumptions C30_over_is_over.

(** Three requests on one connection: two answers, then one that crashes. *)
Example C30_case : let F := ex_float in let U := ex_url in
  let c3 := [(MGet, u "/items/7"); (MHead, u "/items/8"); (MGet, u "mailto:x")] in
  let c2 := [(MHead, u "/items/8"); (MGet, u "mailto:x")] in let c1 := [(MGet, u "mailto:x")] in
  let head := mkRespb StOk [(u "Content-Length", u "2")] in
  let tr := build (registrations ex_procs) in
  rounds ex_explain ex_reason ex_link tr 40 (task_new (Ready c3)) =
    ([ARead c3; AWrite head (Some (u "hi")) c2; ARead c2; AWrite head None c1; ARead c1], Dies) /\
  fst (rounds ex_explain ex_reason ex_link tr 6 (task_new (Ready c3))) = [ARead c3; AWrite head (Some (u "hi")) c2] /\
  (* a failure to read, and a peer that is gone *)
  ended (snd (rounds ex_explain ex_reason (mkLink (fun _ => Ready HttpError) (l_drain ex_link) (l_write ex_link)) tr 5 (task_new (Ready c3)))) = Some (Failing Other) /\
  ended (snd (rounds ex_explain ex_reason ex_link tr 5 (task_new (Ready [])))) = Some Closed.
Proof. vm_compute. repeat split. Qed.

(** ** C31 *)
Theorem C31_head_and_length (F : floatlib) (U : urlenv) (Conn R : Type) explain reason ln (ps : list (hproc Conn R)) k connected h body c' :
  In (AWrite h body c') (fst (rounds explain reason ln (build (registrations ps)) k (task_new connected))) ->
  exists c r b, settle (l_read ln c) = Comes (Got r) /\ reply_to explain reason ln ps r = Sends c' h b /\
    (exists hs, pb_headers h = hs ++ [(u "Content-Length", show_N (N.of_nat (length b)))]) /\
    (q_method r = MHead -> body = None) /\ (q_method r <> MHead -> body = Some b).
Proof. exact (writes_framed explain reason ln ps k connected h body c'). Qed.
Print Assumptions C31_head_and_length.

(** A handler's own Content-Length header is written as well, so that the length stated first need not be the body's. *)
Theorem C31_only_length_refuted : exists (F : floatlib) (U : urlenv) (Conn R : Type) explain reason ln (ps : list (hproc Conn R)) r c h b,
  reply_to explain reason ln ps r = Sends c h b /\ pb_headers h = [(u "content-length", u "5"); (u "Content-Length", u "2")] /\ length b = 2%nat.
Proof.
  pose (v := SStruct (u "A") [(u "status", SInt U16 200); (u "header", SStruct (u "H") [(u "content-length", SInt U8 5)])]).
  exists ex_float, ex_url, ex_conn, value, ex_explain, ex_reason, ex_link,
    [mkHproc MGet [Val (u "x")] (TStruct (u "R") []) (fun v r => Ready (r, v)) (fun _ => NReady (v, u "hi"))], (mkRequest MGet (u "/x") [(u "Host", u "foo")] []).
  do 3 eexists. split; [vm_compute; reflexivity|]. split; reflexivity.
Qed.
Print Assumptions C31_only_length_refuted.

Example C31_case : let F := ex_float in let U := ex_url in
  let c2 := [(MGet, u "/items/7"); (MHead, u "/items/8")] in
  let head := mkRespb StOk [(u "Content-Length", u "2")] in
  In (AWrite head (Some (u "hi")) [(MHead, u "/items/8")]) (fst (rounds ex_explain ex_reason ex_link (build (registrations ex_procs)) 20 (task_new (Ready c2)))) /\
  In (AWrite head None []) (fst (rounds ex_explain ex_reason ex_link (build (registrations ex_procs)) 20 (task_new (Ready c2)))).
Proof. vm_compute. tauto. Qed.

(** ** C32 *)
(** Whatever the executor runs when: the tasks spawned are those of the clients accepted, one each and in order, each
    connection does what it does by itself, and the loop ends only when the listener fails or has no more clients. *)
Theorem C32_one_task_per_client (F : floatlib) (U : urlenv) (Conn R L : Type) explain reason ln (ps : list (hproc Conn R))
    (incoming : L -> fut (option (fut Conn) * L)) bind sched n :
  (turns is_acceptor sched <= n)%nat ->
  let '(ev, s) := serve_run explain reason ln incoming (build (registrations ps)) sched (server_new bind) in
  exists cs, spawned ev = seq 0 (length cs) /\ length (v_tasks s) = length cs /\
    match v_accept s with
    | AStops k => accepting incoming n bind = (cs, Broken k)
    | _ => exists cs', fst (accepting incoming n bind) = cs ++ cs'
    end /\
    forall i c, nth_error cs i = Some c -> exists st k,
      nth_error (v_tasks s) i = Some st /\ rounds explain reason ln (build (registrations ps)) k (task_new c) = (acts_of i ev, tview st).
Proof. exact (spawns_clients explain reason ln ps incoming bind sched n). Qed.
Print Assumptions C32_one_task_per_client.

(** From any moment on, a connection gets on with every round it is given, whatever happens to the others. *)
Theorem C32_connections_independent (F : floatlib) (U : urlenv) (Conn R L : Type) explain reason ln (ps : list (hproc Conn R))
    (incoming : L -> fut (option (fut Conn) * L)) sched (s : server Conn L) i t :
  nth_error (v_tasks s) i = Some (Goes t) ->
  let '(ev, s') := serve_run explain reason ln incoming (build (registrations ps)) sched s in
  exists st, nth_error (v_tasks s') i = Some st /\
    rounds explain reason ln (build (registrations ps)) (turns (is_conn i) sched) t = (acts_of i ev, tview st).
Proof. exact (task_alone explain reason ln ps incoming sched s i t). Qed.
Print Assumptions C32_connections_independent.

(** All clients that come are accepted, given enough rounds. *)
Theorem C32_all_clients_accepted (Conn L : Type) (incoming : L -> fut (option (fut Conn) * L)) bind n :
  exists k ts', fst (arounds incoming k (AcA bind)) = map task_new (fst (accepting incoming n bind)) ++ ts' /\
    (snd (accepting incoming n bind) <> Open ->
     ts' = [] /\ closes (snd (arounds incoming k (AcA bind))) = Some (snd (accepting incoming n bind))).
Proof. exact (accepting_reached incoming n bind). Qed.
Print Assumptions C32_all_clients_accepted.

(** Three clients of which the second fails at once: all are accepted and the third is answered. *)
Example C32_case : let F := ex_float in let U := ex_url in
  let clients := [[(MGet, u "mailto:x")]; []; [(MGet, u "/items/7")]] in
  let sched := repeat Acceptor 6 ++ repeat (Connection 0) 9 ++ repeat (Connection 1) 2 ++ [Acceptor; Acceptor] ++ repeat (Connection 2) 20 ++ [Acceptor] in
  let '(ev, s) := serve_run ex_explain ex_reason ex_link ex_incoming (build (registrations ex_procs)) sched (server_new (Later (Ready clients))) in
  spawned ev = [0; 1; 2]%nat /\ v_tasks s = [Dies; Stops Other; Ends] /\
  acts_of 2 ev = [ARead [(MGet, u "/items/7")]; AWrite (mkRespb StOk [(u "Content-Length", u "2")]) (Some (u "hi")) []; ARead []] /\
  (exists a, v_accept s = ASleeps a) /\ (turns is_acceptor sched <= 9)%nat.
Proof. vm_compute. repeat split; try lia. eexists. reflexivity. Qed.

(** ** C44: the server's own refusals arrive as problems. *)
Theorem C44_server_refusal_arrives (F : floatlib) (J : jsonfloat) (U : urlenv) (W : httpenv) (Conn : Type) (ln : link Conn) url_norm reason r r' st p n variants x :
  settle (l_drain ln r) = Comes r' ->
  problem_ok url_norm p -> code_of st = problem_status p -> status_from_str x = Ok st -> assoc x variants = Some (VNewtype pr_ty) ->
  exists c h b hs v, refusal ln r st p = Sends c h b /\ deliver (pb_headers h) = Some hs /\
    de_response (code_of (pb_status h)) hs (TEnum n variants) = Ok (SNewtypeVariant n x v) /\
    exists d, pr_decoded reason v = Some d /\ pr_set_body url_norm d b = mkPresp None p.
Proof. exact (refusal_arrives ln url_norm reason r r' st p n variants x). Qed.
Print Assumptions C44_server_refusal_arrives.

Example C44_server_case : let F := ex_float in let U := ex_url in
  let r := mkRequest MGet (u "/things/7") [(u "Host", u "foo")] ([] : ex_conn) in
  let p := AboutBlank (ex_reason StNotFound) 404 in
  settle (l_drain ex_link r) = Comes r /\ problem_ok ex_url_norm p /\ code_of StNotFound = problem_status p /\ status_from_str (u "NotFound") = Ok StNotFound /\
  reply_to ex_explain ex_reason ex_link ex_procs r = refusal ex_link r StNotFound p.
Proof. cbv zeta. split; [reflexivity|]. split; [split; [vm_compute; reflexivity | reflexivity]|]. repeat split. Qed.
