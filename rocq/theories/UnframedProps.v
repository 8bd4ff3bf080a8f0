(** * Property C84: messages that do not say how long their body is. *)
From Verif Require Import Base Utf8 Decimal DepUrl Serde Procedure FieldSpec Status SerHeader SerRequest SerResponse DeHeader DeRequest DeResponse Router RouterSpec DepHttp
  Error Client ClientSpec ClientProofs Server ServerSpec EndToEndSpec SessionSpec HttpBytes HttpBytesSpec PoolBytesSpec HttpBytesLeftSpec HttpBytesLeft CutsSpec UnframedSpec Unframed ResponseTrip
  Exhibit PathProps FieldProps RequestProps ResponseProps ProblemProps EndToEndProps SessionProps HttpBytesProps PoolBytesProps HttpBytesLeftProps.
Open Scope N_scope.

(** A request without a length is not replied to as long as its connection is open, whatever follows it and whether or not
    there is a procedure for it. *)
Theorem C84_not_answered (F : floatlib) (U : urlenv) (R : Type) (explain : request bconn -> ekind -> ustr * option ustr * option (list ustr)) (reason : status -> ustr)
  (trims : bool) (uri_byte : N -> bool) (sl : limits) (ps : list (hproc bconn R)) c m t hs rest k :
  (forall hp, In hp ps -> exists mk, reads_to_end hp mk) -> (length (b_held c) <= most_bytes sl)%nat -> b_closed c = false ->
  head_in (run (qstep trims uri_byte (most_headers sl)) QStart) (most_bytes sl) false (stream c) = Comes (Some (Some ((m, t, hs), rest))) -> unframed hs ->
  let rounds := rounds explain reason (byte_link trims uri_byte sl) (build (registrations ps)) in
  replied (fst (rounds k (task_new (Ready c)))) = [] /\ (ended (snd (rounds k (task_new (Ready c)))) = None \/ ended (snd (rounds k (task_new (Ready c)))) = Some Crashed).
Proof. exact (never_replied explain reason trims uri_byte sl ps c m t hs rest k). Qed.
Print Assumptions C84_not_answered.

(** Once the client has closed its side, everything it sent after the head is the body, further requests included; there is
    one reply at most, ... *)
Theorem C84_at_most_one (F : floatlib) (U : urlenv) (R : Type) (explain : request bconn -> ekind -> ustr * option ustr * option (list ustr)) (reason : status -> ustr)
  (trims : bool) (uri_byte : N -> bool) (sl : limits) (ps : list (hproc bconn R)) c m t hs rest k :
  (forall hp, In hp ps -> exists mk, reads_to_end hp mk) -> (length (b_held c) <= most_bytes sl)%nat -> b_closed c = true ->
  head_in (run (qstep trims uri_byte (most_headers sl)) QStart) (most_bytes sl) true (stream c) = Comes (Some (Some ((m, t, hs), rest))) -> unframed hs ->
  (length (replied (fst (rounds explain reason (byte_link trims uri_byte sl) (build (registrations ps)) k (task_new (Ready c))))) <= 1)%nat.
Proof. exact (at_most_one explain reason trims uri_byte sl ps c m t hs rest k). Qed.
Print Assumptions C84_at_most_one.

(** ... the one that the procedure makes of all these bytes, and then the connection is over. *)
Theorem C84_answered_at_end (F : floatlib) (U : urlenv) (R : Type) (explain : request bconn -> ekind -> ustr * option ustr * option (list ustr)) (reason : status -> ustr)
  (trims : bool) (uri_byte : N -> bool) (sl : limits) (ps : list (hproc bconn R)) c m t hs rest segs qs hp mk v w b h :
  (length (b_held c) <= most_bytes sl)%nat -> b_closed c = true ->
  head_in (run (qstep trims uri_byte (most_headers sl)) QStart) (most_bytes sl) true (stream c) = Comes (Some (Some ((m, t, hs), rest))) -> unframed hs ->
  parse_url t = Some (mkUrl (Some segs) qs) -> route_spec (accepted (registrations ps)) m segs = inl hp -> de_request (hp_entry hp) (mkUrl (Some segs) qs) hs (hp_req hp) = Ok v ->
  reads_to_end hp mk -> nsettle (hp_call hp (mk v m t hs rest)) = Comes (w, b) -> encode_response w (N.of_nat (length b)) = Ok h ->
  let rounds := rounds explain reason (byte_link trims uri_byte sl) (build (registrations ps)) in
  exists k0, forall k, (k0 <= k)%nat -> replied (fst (rounds k (task_new (Ready c)))) = [(h, sent_body m b)] /\ ended (snd (rounds k (task_new (Ready c)))) = Some Closed.
Proof. exact (answered_at_end explain reason trims uri_byte sl ps c m t hs rest segs qs hp mk v w b h). Qed.
Print Assumptions C84_answered_at_end.

(** A call that is answered without a length does not come to an end as long as its connection is open, ... *)
Theorem C84_call_waits (F : floatlib) (U : urlenv) (trims : bool) (cl : limits) (p : proc) v body rq c n hs rest k :
  pr_method p <> MHead -> encode_request (pr_entry p) v (N.of_nat (length body)) = Ok rq -> (length (b_held c) <= most_bytes cl)%nat -> b_closed c = false ->
  head_in (run (pstep trims (most_headers cl)) (PVersion (u "HTTP/1.1 "))) (most_bytes cl) false (stream c) = Comes (Some (Some ((n, hs), rest))) -> unframed hs ->
  ~ over (snd (drive (byte_wire trims cl) p k (call_new (v, body) (Ready c)))).
Proof. exact (call_never_over trims cl p v body rq c n hs rest k). Qed.
Print Assumptions C84_call_waits.

(** ... and once the server has closed its side takes everything as the body. *)
Theorem C84_call_takes_all (F : floatlib) (U : urlenv) (trims : bool) (cl : limits) (p : proc) v body rq c n hs rest :
  pr_method p <> MHead -> encode_request (pr_entry p) v (N.of_nat (length body)) = Ok rq -> (length (b_held c) <= most_bytes cl)%nat -> b_closed c = true ->
  head_in (run (pstep trims (most_headers cl)) (PVersion (u "HTTP/1.1 "))) (most_bytes cl) true (stream c) = Comes (Some (Some ((n, hs), rest))) -> unframed hs ->
  exists k0, forall k, (k0 <= k)%nat -> reads_as (snd (drive (byte_wire trims cl) p k (call_new (v, body) (Ready c)))) =
    match de_response n hs (pr_resp p) with Ok x => Yields x rest (mkBconn [] [] true (Some 0%nat)) | Err e => Fails e | _ => Panics end.
Proof. exact (call_takes_all trims cl p v body rq c n hs rest). Qed.
Print Assumptions C84_call_takes_all.

(** The connection such a call gives back fails the next call. *)
Theorem C84_next_call_fails (F : floatlib) (U : urlenv) (trims : bool) (cl : limits) (p : proc) v body rq :
  encode_request (pr_entry p) v (N.of_nat (length body)) = Ok rq ->
  exists k0, forall k, (k0 <= k)%nat -> reads_as (snd (drive (byte_wire trims cl) p k (call_new (v, body) (Ready (mkBconn [] [] true (Some 0%nat)))))) = Fails Other.
Proof. exact (call_spent trims cl p v body rq). Qed.
Print Assumptions C84_next_call_fails.

(** ** Cases *)
(** A request whose Content-Length has been left out, and a whole request behind it. *)
Definition not_length (h : bytes * bytes) : bool := negb (ustr_eqb (lowercase (fst h)) (u "content-length")).
Definition ex_bare : bytes := match ex_asked1 (ex_errand MPost []) with
  | [x] => request_head MPost (mkReqb (rb_target (a_request x)) (filter not_length (rb_headers (a_request x)))) | _ => [] end.
Definition ex_behind : bytes := flat_map asking_bytes (ex_asked1 (ex_errand MPost [1; 2; 3])).
Definition ex_unframed (closed : bool) : bconn := let b := ex_bare ++ ex_behind in mkBconn [] (cut (length b) 50 b) closed None.
Definition ex_pst := [ex_hprocb MPost ex_req_ty].
Lemma ex_pst_reads hp : In hp ex_pst -> exists mk, reads_to_end hp mk.
Proof. intros [<-|[]]. exists (fun v _ _ _ b => (v, b)). intros v q. reflexivity. Qed.
Definition ex_parse := run (qstep true ex_uri (most_headers server_limits)) QStart.
Definition unframedb (hs : list rheader) : bool := forallb (fun h => not_length h && negb (ustr_eqb (lowercase (fst h)) (u "transfer-encoding"))) hs.
Lemma unframedb_sound hs : unframedb hs = true -> unframed hs.
Proof.
  unfold unframedb. rewrite forallb_forall. intros A n v I. specialize (A (n, v) I). unfold not_length in A. cbn [fst] in A. apply andb_true_iff in A. destruct A as [A B].
  apply negb_true_iff in A, B. split; intros E; rewrite E in *; [rewrite ustr_eqb_refl in A; discriminate | rewrite ustr_eqb_refl in B; discriminate].
Qed.
Example C84_server_case : let F := ex_float in let U := ex_url in
  match head_in ex_parse (most_bytes server_limits) false (stream (ex_unframed false)) with
  | Comes (Some (Some ((m, t, hs), rest))) => m = MPost /\ rest = ex_behind /\ unframedb hs = true /\
      match parse_url t with
      | Some (mkUrl (Some segs) qs) => match route_spec (accepted (registrations ex_pst)) m segs with
          | inl hp => match de_request (hp_entry hp) (mkUrl (Some segs) qs) hs (hp_req hp) with Ok _ => True | _ => False end
          | inr _ => False
          end
      | _ => False
      end
  | _ => False
  end /\
  (let rounds := rounds ex_explainb ex_reason (byte_link true ex_uri server_limits) (build (registrations ex_pst)) in
   replied (fst (rounds 400%nat (task_new (Ready (ex_unframed false))))) = [] /\
   match replied (fst (rounds 400%nat (task_new (Ready (ex_unframed true))))) with [(_, Some b)] => b = rev ex_behind | _ => False end /\
   ended (snd (rounds 400%nat (task_new (Ready (ex_unframed true))))) = Some Closed).
Proof. split; [vm_compute; repeat split|]. split; [vm_compute; reflexivity|]. split; vm_compute; reflexivity. Qed.

(** A response whose Content-Length has been left out; and an interim response before a whole one, which a client takes for
    the response to its call. *)
Definition ex_bare_reply : bytes := let F := ex_float in let U := ex_url in
  match replied (fst (conversation ex_explainb ex_reason (byte_link true ex_uri server_limits) ex_psl 9 (Ready ex_sl))) with
  | (h, _) :: _ => response_head ex_reason (mkRespb (pb_status h) (filter not_length (pb_headers h))) | [] => [] end.
Definition ex_client (b : bytes) (closed : bool) : bconn := mkBconn [] (cut (length b) 40 b) closed None.
Definition ex_interim : bytes := u "HTTP/1.1 100 Continue" ++ crlf ++ crlf.
Definition ex_pparse := run (pstep true (most_headers ex_climits)) (PVersion (u "HTTP/1.1 ")).
Definition ex_outcome (b : bytes) (closed : bool) := let F := ex_float in let U := ex_url in
  reads_as (snd (drive (byte_wire true ex_climits) (ex_proc3 MPost) 400 (call_new (e_value (ex_errand MPost []), []) (Ready (ex_client b closed))))).
Example C84_client_case : let F := ex_float in let U := ex_url in
  match head_in ex_pparse (most_bytes ex_climits) false (stream (ex_client (ex_bare_reply ++ ex_backl) false)) with
  | Comes (Some (Some ((n, hs), rest))) => n = 200 /\ rest = ex_backl /\ unframedb hs = true | _ => False end /\
  match head_in ex_pparse (most_bytes ex_climits) false (stream (ex_client (ex_interim ++ ex_backl) false)) with
  | Comes (Some (Some ((n, hs), rest))) => n = 100 /\ rest = ex_backl /\ unframedb hs = true | _ => False end /\
  ex_outcome (ex_bare_reply ++ ex_backl) false = Waits /\ ex_outcome (ex_interim ++ ex_backl) false = Waits /\
  (match ex_outcome (ex_bare_reply ++ ex_backl) true with Yields _ b _ => b = ex_backl | _ => False end) /\
  ex_outcome (ex_interim ++ ex_backl) true = Fails Invalid /\
  (match ex_outcome ex_backl false with Yields _ b _ => b = [7] | _ => False end).
Proof.
  split; [vm_compute; repeat split|]. split; [vm_compute; repeat split|]. split; [vm_compute; reflexivity|]. split; [vm_compute; reflexivity|]. split; [vm_compute; reflexivity|].
  split; vm_compute; reflexivity.
Qed.
