(** * Property C76: what is made of a connection depends on its bytes alone. *)
From Verif Require Import Base Utf8 Decimal DepUrl Serde Procedure FieldSpec Status SerHeader SerRequest SerResponse DeHeader DeRequest DeResponse Router RouterSpec DepHttp
  Error Client ClientSpec ClientProofs Server ServerSpec EndToEndSpec SessionSpec HttpBytes HttpBytesSpec PoolBytesSpec HttpBytesLeftSpec HttpBytesLeft CutsSpec CutsProofs ResponseTrip
  Exhibit PathProps FieldProps RequestProps ResponseProps ProblemProps EndToEndProps SessionProps HttpBytesProps PoolBytesProps HttpBytesLeftProps.
Open Scope N_scope.

(** Whatever bytes come, and however they are cut: reading a request comes to what the parser makes of the first of them,
    as many as the buffer holds ... *)
Theorem C76_request_read (trims : bool) (uri_byte : N -> bool) (sl : limits) (c : bconn) : (length (b_held c) <= most_bytes sl)%nat ->
  match head_in (run (qstep trims uri_byte (most_headers sl)) QStart) (most_bytes sl) (b_closed c) (stream c) with
  | Comes (Some (Some ((m, t, hs), rest))) => exists c', settle (l_read (byte_link trims uri_byte sl) c) = Comes (Got (mkRequest m t hs c')) /\ stream c' = rest /\ b_left c' = body_length hs
  | Comes (Some None) => settle (l_read (byte_link trims uri_byte sl) c) = Comes HttpError
  | Comes None => settle (l_read (byte_link trims uri_byte sl) c) = Comes (IoError UnexpectedEof)
  | Breaks _ => False
  | Hangs => settle (l_read (byte_link trims uri_byte sl) c) = Hangs
  end.
Proof. exact (request_read trims uri_byte sl c). Qed.
Print Assumptions C76_request_read.

(** ... and what the server replies to a beginning of the bytes it replies to every continuation of them, cut and delayed
    in any other way: nothing that comes later changes a reply.  If the server ends the connection, it does so in the same way. *)
Theorem C76_server (F : floatlib) (U : urlenv) (R : Type) (explain : request bconn -> ekind -> ustr * option ustr * option (list ustr)) (reason : status -> ustr)
  (trims : bool) (uri_byte : N -> bool) (sl : limits) (ps : list (hproc bconn R)) c c' k :
  (forall q q' e, like (most_bytes sl) q q' -> explain q e = explain q' e) -> (forall hp, In hp ps -> by_bytes (most_bytes sl) hp) -> leads (most_bytes sl) c c' ->
  let rounds := rounds explain reason (byte_link trims uri_byte sl) (build (registrations ps)) in
  exists k', forall j, (k' <= j)%nat -> exists more, replied (fst (rounds j (task_new (Ready c')))) = replied (fst (rounds k (task_new (Ready c)))) ++ more /\
    forall e, ended (snd (rounds k (task_new (Ready c)))) = Some e -> more = [] /\ ended (snd (rounds j (task_new (Ready c')))) = Some e.
Proof. intros E H L. exact (server_follows explain reason trims uri_byte sl ps E H c c' k L). Qed.
Print Assumptions C76_server.

(** Handlers that read a body to its end go by its bytes, and so do those that leave it. *)
Theorem C76_readers (R : Type) room (hp : hproc bconn R) (mk : value -> method -> ustr -> list rheader -> bytes -> R) :
  (forall v q, hp_body hp v q = fbind (read_body (q_conn q)) (fun '(b, c) => Ready (mkRequest (q_method q) (q_target q) (q_headers q) c, mk v (q_method q) (q_target q) (q_headers q) b))) -> by_bytes room hp.
Proof. exact (by_bytes_reads room hp mk). Qed.
Print Assumptions C76_readers.
Theorem C76_leavers (R : Type) room (hp : hproc bconn R) (mk : value -> method -> ustr -> list rheader -> R) :
  (forall v q, settle (hp_body hp v q) = Comes (q, mk v (q_method q) (q_target q) (q_headers q))) -> by_bytes room hp.
Proof. exact (by_bytes_leaves room hp mk). Qed.
Print Assumptions C76_leavers.

(** The same of a call: once it has come to an end it comes to the same end however the bytes of its connection are cut and
    go on, with the connection in the same place. *)
Theorem C76_call (F : floatlib) (U : urlenv) (trims : bool) (cl : limits) (p : proc) v body c c' n :
  leads (most_bytes cl) c c' -> over (snd (drive (byte_wire trims cl) p n (call_new (v, body) (Ready c)))) ->
  exists n0, forall j, (n0 <= j)%nat ->
    alike (most_bytes cl) (reads_as (snd (drive (byte_wire trims cl) p n (call_new (v, body) (Ready c))))) (reads_as (snd (drive (byte_wire trims cl) p j (call_new (v, body) (Ready c'))))) /\
    over (snd (drive (byte_wire trims cl) p j (call_new (v, body) (Ready c')))).
Proof. exact (client_follows trims cl p v body c c' n). Qed.
Print Assumptions C76_call.

(** ** A case: a request with a body that is left, which reads as another, in pieces of 50 bytes, and the same with bytes
    after it, in pieces of 7; and garbage. *)
Definition ex_sl7 : bconn := let b := ex_sentl ++ [0; 255; 13; 10] in mkBconn [] (cut (length b) 7 b) true None.
Definition ex_call50 : bconn := mkBconn [] (cut (length ex_backl) 50 ex_backl) false None.
Definition ex_call9 : bconn := mkBconn (firstn 20 ex_backl) (let b := skipn 20 ex_backl ++ [1; 2] in cut (length b) 9 b) true None.
Example C76_case : let F := ex_float in let U := ex_url in
  (forall hp, In hp ex_psl -> by_bytes (most_bytes server_limits) hp) /\ leads (most_bytes server_limits) ex_sl ex_sl7 /\
  length (replied (fst (rounds ex_explainb ex_reason (byte_link true ex_uri server_limits) (build (registrations ex_psl)) 60 (task_new (Ready ex_sl))))) = 3%nat /\
  replied (fst (rounds ex_explainb ex_reason (byte_link true ex_uri server_limits) (build (registrations ex_psl)) 400 (task_new (Ready ex_sl7)))) =
  replied (fst (rounds ex_explainb ex_reason (byte_link true ex_uri server_limits) (build (registrations ex_psl)) 60 (task_new (Ready ex_sl)))) /\
  ended (snd (rounds ex_explainb ex_reason (byte_link true ex_uri server_limits) (build (registrations ex_psl)) 400 (task_new (Ready ex_sl7)))) = Some (Failing Other) /\
  leads (most_bytes ex_climits) ex_call50 ex_call9 /\
  match ex_pair with
  | e :: _ => over (snd (drive (byte_wire true ex_climits) (e_proc e) 400 (call_new (e_value e, e_body e) (Ready ex_call50))))
  | [] => False
  end.
Proof.
  split; [intros hp [<-|[<-|[]]]; [apply (by_bytes_leaves _ _ (fun v _ _ _ => (v, []))) | apply (by_bytes_reads _ _ (fun v _ _ _ b => (v, b)))]; reflexivity|].
  split; [apply (leads_made _ _ _ [0; 255; 13; 10]); vm_compute; auto; try discriminate; apply Nat.le_0_l|].
  split; [vm_compute; reflexivity|]. split; [vm_compute; reflexivity|]. split; [vm_compute; reflexivity|]. split; [|vm_compute; exact I].
  apply (leads_made _ _ _ [1; 2]); [reflexivity | apply Nat.le_0_l | apply Nat.leb_le; vm_compute; reflexivity | vm_compute; reflexivity | discriminate].
Qed.
