(** * Property C74: one reply to each request of a connection, if bodies are taken; a body that is left is read as requests. *)
From Verif Require Import Base Utf8 Decimal DepUrl Serde Procedure FieldSpec Status SerHeader SerRequest SerResponse DeHeader DeRequest DeResponse Router RouterSpec DepHttp
  Error Client ClientSpec Server ServerSpec EndToEndSpec SessionSpec HttpBytes HttpBytesSpec PoolBytesSpec HttpBytesLeftSpec HttpBytesLeft ResponseTrip
  Exhibit PathProps FieldProps RequestProps ResponseProps ProblemProps EndToEndProps SessionProps HttpBytesProps PoolBytesProps.
Open Scope N_scope.

(** If every handler takes the body of its request, the replies on a connection answer, one each and in order, the requests
    whose bytes come in on it, however the bytes are cut and wherever they end. *)
Theorem C74_one_reply_each (F : floatlib) (U : urlenv) (R : Type) (explain : request bconn -> ekind -> ustr * option ustr * option (list ustr)) (reason : status -> ustr)
  (trims : bool) (uri_byte : N -> bool) (sl : limits) (ps : list (hproc bconn R)) asks s k n h b y :
  (forall hp, In hp ps -> takes_body hp) -> agreeing (stream s) (flat_map asking_bytes asks) ->
  (forall x, In x asks -> fit_request uri_byte sl (a_method x) (a_request x) (a_body x)) ->
  nth_error (replied (fst (rounds explain reason (byte_link trims uri_byte sl) (build (registrations ps)) k (task_new (Ready s))))) n = Some (h, b) -> nth_error asks n = Some y ->
  exists q s' b0, arrives_as y q /\ reply_to explain reason (byte_link trims uri_byte sl) ps q = Sends s' h b0 /\ b = sent_body (a_method y) b0.
Proof. exact (one_reply_each explain reason trims uri_byte sl ps asks s k n h b y). Qed.
Print Assumptions C74_one_reply_each.

(** If a handler leaves it, a body that reads as a request is taken for one: two replies are written. *)
Theorem C74_body_taken_for_a_request (F : floatlib) (U : urlenv) (R : Type) (explain : request bconn -> ekind -> ustr * option ustr * option (list ustr)) (reason : status -> ustr)
  (trims : bool) (uri_byte : N -> bool) (sl : limits) (ps : list (hproc bconn R)) s m r m2 r2 body2 z segs qs hp v :
  leaves_body hp -> fit_request uri_byte sl m r (request_head m2 r2 ++ body2) -> fit_request uri_byte sl m2 r2 body2 ->
  stream s = request_head m r ++ (request_head m2 r2 ++ body2) ++ z ->
  parse_url (rb_target r) = Some (mkUrl (Some segs) qs) -> route_spec (accepted (registrations ps)) m segs = inl hp ->
  de_request (hp_entry hp) (mkUrl (Some segs) qs) (rb_headers r) (hp_req hp) = Ok v ->
  exists q1, arrives_as (mkAsking m r (request_head m2 r2 ++ body2)) q1 /\ forall s1 h1 b1, reply_to explain reason (byte_link trims uri_byte sl) ps q1 = Sends s1 h1 b1 ->
  exists q2, arrives_as (mkAsking m2 r2 body2) q2 /\ forall s2 h2 b2, reply_to explain reason (byte_link trims uri_byte sl) ps q2 = Sends s2 h2 b2 ->
  exists k rest, replied (fst (rounds explain reason (byte_link trims uri_byte sl) (build (registrations ps)) k (task_new (Ready s)))) = (h1, sent_body m b1) :: (h2, sent_body m2 b2) :: rest.
Proof. exact (left_body explain reason trims uri_byte sl ps s m r m2 r2 body2 z segs qs hp v). Qed.
Print Assumptions C74_body_taken_for_a_request.

(** ** A case: POST is given a body that reads as a DELETE, and its handler does not take it.  The next call on the
    connection, whose own answer would end in 7, gets what DELETE answered. *)
Definition ex_leaving : hproc bconn (value * bytes) := {|
  hp_method := MPost; hp_entry := ex_ep; hp_req := ex_req_ty;
  hp_body := fun v q => Later (Ready (q, (v, [])));
  hp_call := fun '(v, b) => NReady (SStructVariant (u "Res") (u "Ok") (head_val ex_head), [7])
|}.
Definition ex_psl := [ex_leaving; ex_hprocb MDelete ex_req_ty].
Definition ex_asked1 (e : errand) : list asking := let F := ex_float in let U := ex_url in
  match encode_request (pr_entry (e_proc e)) (e_value e) (N.of_nat (length (e_body e))) with Ok r => [mkAsking (pr_method (e_proc e)) r (e_body e)] | _ => [] end.
Definition ex_inner : list asking := ex_asked1 (ex_errand MDelete [1; 2; 3]).
Definition ex_pair : list errand := [ex_errand MPost (flat_map asking_bytes ex_inner); ex_errand MPost []].
Definition ex_sentl : bytes := flat_map asking_bytes (flat_map ex_asked1 ex_pair).
Definition ex_sl : bconn := mkBconn [] (cut (length ex_sentl) 50 ex_sentl) false None.
Definition ex_backl : bytes := let F := ex_float in let U := ex_url in
  flat_map (replying_bytes ex_reason) (replied (fst (conversation ex_explainb ex_reason (byte_link true ex_uri server_limits) ex_psl 9 (Ready ex_sl)))).
Definition ex_cl : bconn := mkBconn [] (cut (length ex_backl) 60 ex_backl) false None.
Example C74_case : let F := ex_float in let U := ex_url in
  leaves_body ex_leaving /\ takes_body (ex_hprocb MDelete ex_req_ty) /\
  (forall x, In x (flat_map ex_asked1 ex_pair ++ ex_inner) -> fit_request ex_uri server_limits (a_method x) (a_request x) (a_body x)) /\
  match flat_map ex_asked1 ex_pair, ex_inner with
  | [x; _], [y] => a_body x = request_head (a_method y) (a_request y) ++ a_body y /\
      match parse_url (rb_target (a_request x)) with
      | Some (mkUrl (Some segs) qs) => match route_spec (accepted (registrations ex_psl)) MPost segs with
          | inl hp => hp_method hp = MPost /\ match de_request (hp_entry hp) (mkUrl (Some segs) qs) (rb_headers (a_request x)) (hp_req hp) with Ok _ => True | _ => False end
          | inr _ => False
          end
      | _ => False
      end
  | _, _ => False
  end /\
  stream ex_sl = ex_sentl /\ stream ex_cl = ex_backl /\
  length (replied (fst (conversation ex_explainb ex_reason (byte_link true ex_uri server_limits) ex_psl 9 (Ready ex_sl)))) = 3%nat /\
  fst (session (byte_wire true ex_climits) 400 ex_pair ex_cl) = flat_map ex_asked1 ex_pair /\
  snd (session (byte_wire true ex_climits) 400 ex_pair ex_cl) = [ex_ok [7]; ex_ok [3; 2; 1]].
Proof.
  split; [intros v q q' x; cbn; congruence|]. split; [apply (takes_read (fun v q b c => (ex_take c q, (v, b)))); reflexivity|].
  split; [intros x Ix; apply fit_checkedq; revert x Ix; apply forallb_forall; vm_compute; reflexivity|]. split; [vm_compute; repeat split|].
  split; [vm_compute; reflexivity|]. split; [vm_compute; reflexivity|]. split; [vm_compute; reflexivity|]. split; vm_compute; reflexivity.
Qed.
