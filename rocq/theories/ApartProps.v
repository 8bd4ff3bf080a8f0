(** * Property C85: the server carries nothing from one client to another. *)
From Verif Require Import Base Utf8 Decimal DepUrl Serde Procedure FieldSpec Status SerHeader SerRequest SerResponse DeHeader DeRequest DeResponse Router RouterSpec DepHttp
  Error Client ClientSpec ClientProofs Server ServerSpec ServerFairSpec EndToEndSpec SessionSpec HttpBytes HttpBytesSpec PoolBytesSpec HttpBytesLeftSpec HttpBytesLeft CutsSpec CutsProofs ApartSpec Apart ResponseTrip
  Exhibit PathProps FieldProps RequestProps ResponseProps ProblemProps EndToEndProps SessionProps HttpBytesProps PoolBytesProps HttpBytesLeftProps CutsProps.
Open Scope N_scope.

(** Two servers with the same procedures, with other clients, listeners and schedules: a client of the one and a client of the
    other that send the same bytes, in whatever pieces, are replied the same, as far as their connections have got.  If the
    first is over, the second is replied nothing more, and is over in the same way when it is. *)
Theorem C85_same_replies (F : floatlib) (U : urlenv) (R L1 L2 : Type) (explain : request bconn -> ekind -> ustr * option ustr * option (list ustr)) (reason : status -> ustr)
  (trims : bool) (uri_byte : N -> bool) (sl : limits) (ps : list (hproc bconn R)) (in1 : L1 -> fut (option (fut bconn) * L1)) (in2 : L2 -> fut (option (fut bconn) * L2))
  sched1 bind1 n1 i f1 sched2 bind2 n2 j f2 :
  (forall q q' e, like (most_bytes sl) q q' -> explain q e = explain q' e) -> (forall hp, In hp ps -> by_bytes (most_bytes sl) hp) ->
  nth_error (fst (accepting in1 n1 bind1)) i = Some f1 -> nth_error (fst (accepting in2 n2 bind2)) j = Some f2 -> sends_more (most_bytes sl) f1 f2 ->
  let '(ev1, s1) := serve_run explain reason (byte_link trims uri_byte sl) in1 (build (registrations ps)) sched1 (server_new bind1) in
  let '(ev2, s2) := serve_run explain reason (byte_link trims uri_byte sl) in2 (build (registrations ps)) sched2 (server_new bind2) in
  (prefix (heard i ev1) (heard j ev2) \/ prefix (heard j ev2) (heard i ev1)) /\
  forall e, outcome i s1 = Some e -> prefix (heard j ev2) (heard i ev1) /\ forall e', outcome j s2 = Some e' -> heard j ev2 = heard i ev1 /\ e' = e.
Proof. intros Ex Hp. exact (same_replies explain reason trims uri_byte sl ps in1 in2 Ex Hp sched1 bind1 n1 i f1 sched2 bind2 n2 j f2). Qed.
Print Assumptions C85_same_replies.

(** What the one has been replied, the other is replied in the end, if its server lets it have its turns again and again. *)
Theorem C85_same_in_the_end (F : floatlib) (U : urlenv) (R L1 L2 : Type) (explain : request bconn -> ekind -> ustr * option ustr * option (list ustr)) (reason : status -> ustr)
  (trims : bool) (uri_byte : N -> bool) (sl : limits) (ps : list (hproc bconn R)) (in1 : L1 -> fut (option (fut bconn) * L1)) (in2 : L2 -> fut (option (fut bconn) * L2))
  sched1 bind1 n1 i f1 sched2 bind2 n2 j f2 :
  (forall q q' e, like (most_bytes sl) q q' -> explain q e = explain q' e) -> (forall hp, In hp ps -> by_bytes (most_bytes sl) hp) ->
  nth_error (fst (accepting in1 n1 bind1)) i = Some f1 -> nth_error (fst (accepting in2 n2 bind2)) j = Some f2 -> sends_more (most_bytes sl) f1 f2 ->
  often (fun w => w = Acceptor) sched2 -> often (fun w => w = Connection j) sched2 ->
  let '(ev1, s1) := serve_run explain reason (byte_link trims uri_byte sl) in1 (build (registrations ps)) sched1 (server_new bind1) in
  finally (fun n => let '(ev2, s2) := after_rounds explain reason (byte_link trims uri_byte sl) ps in2 sched2 n bind2 in
    prefix (heard i ev1) (heard j ev2) /\ forall e, outcome i s1 = Some e -> heard j ev2 = heard i ev1 /\ outcome j s2 = Some e).
Proof. intros Ex Hp. exact (same_in_the_end explain reason trims uri_byte sl ps in1 in2 Ex Hp sched1 bind1 n1 i f1 sched2 bind2 n2 j f2). Qed.
Print Assumptions C85_same_in_the_end.

(** ** A case: the bytes of [C76_case], sent to a server whose first client crashes its task and whose third sends garbage, and to
    a server that has no other client. *)
Definition ex_in (l : list (fut bconn)) : fut (option (fut bconn) * list (fut bconn)) := match l with [] => Never | f :: l => Later (Ready (Some f, l)) end.
Definition ex_crash : bconn := mkBconn [] [u "GET mailto:x HTTP/1.1" ++ crlf ++ crlf] false None.
Definition ex_garbage : bconn := mkBconn [] [[0; 1; 2]] false None.
Definition ex_crowd : list (fut bconn) := [Ready ex_crash; Later (Later (Ready ex_sl)); Ready ex_garbage].
Definition ex_alone : list (fut bconn) := [Ready ex_sl7].
Definition ex_sched1 : list who := repeat Acceptor 12 ++ repeat (Connection 0%nat) 9 ++ repeat (Connection 2%nat) 9 ++ repeat (Connection 1%nat) 80.
Definition ex_sched2 (n : nat) : who := if Nat.even n then Acceptor else Connection 0.
Lemma ex_sched2_often : often (fun w => w = Acceptor) ex_sched2 /\ often (fun w => w = Connection 0%nat) ex_sched2.
Proof.
  split; intros n; [exists (2 * n)%nat | exists (1 + 2 * n)%nat]; (split; [lia|]); unfold ex_sched2; rewrite Nat.even_add_mul_2 + rewrite <- (Nat.add_0_l (2 * n)), Nat.even_add_mul_2; reflexivity.
Qed.
Example C85_case : let F := ex_float in let U := ex_url in
  (forall hp, In hp ex_psl -> by_bytes (most_bytes server_limits) hp) /\
  sends_more (most_bytes server_limits) (Later (Later (Ready ex_sl))) (Ready ex_sl7) /\
  nth_error (fst (accepting ex_in 3 (Ready ex_crowd))) 1 = Some (Later (Later (Ready ex_sl))) /\ nth_error (fst (accepting ex_in 1 (Ready ex_alone))) 0 = Some (Ready ex_sl7) /\
  (let run := serve_run ex_explainb ex_reason (byte_link true ex_uri server_limits) ex_in (build (registrations ex_psl)) in
   let '(ev1, s1) := run ex_sched1 (server_new (Ready ex_crowd)) in
   let '(ev2, s2) := run (map ex_sched2 (seq 0 800)) (server_new (Ready ex_alone)) in
   length (heard 1 ev1) = 3%nat /\ heard 0 ev2 = heard 1 ev1 /\ outcome 0 s1 = Some Crashed /\ outcome 2 s1 = Some (Failing Other) /\ outcome 1 s1 = None /\ outcome 0 s2 = Some (Failing Other)).
Proof.
  split; [intros hp [<-|[<-|[]]]; [apply (by_bytes_leaves _ _ (fun v _ _ _ => (v, []))) | apply (by_bytes_reads _ _ (fun v _ _ _ b => (v, b)))]; reflexivity|].
  split; [exists ex_sl7; split; [reflexivity|]; apply (leads_made _ _ _ [0; 255; 13; 10]); vm_compute; auto; try discriminate; apply Nat.le_0_l|].
  split; [reflexivity|]. split; [reflexivity|]. vm_compute. repeat split.
Qed.
