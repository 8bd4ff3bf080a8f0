(** * Properties C70, C71, C72: calls over byte streams. *)
From Verif Require Import Base Utf8 Decimal DepUrl Serde Procedure ScalarSpec PathSpec FieldSpec Status SerPath SerQuery SerHeader SerRequest SerResponse DePath DeQuery DeHeader DeRequest DeResponse
  Router RouterSpec RouterProofs DepHttp UrlProofs PathProofs PathTrip FieldProofs QueryProofs HeaderProofs FieldMore RequestSpec RequestProofs RequestTrip RequestArrives
  ResponseSpec ResponseProofs ResponseTrip Json JsonText Problem ProblemSpec ProblemProofs Error Client ClientSpec ClientProofs Server ServerSpec ServerProofs EndToEndSpec EndToEnd
  SessionSpec SessionProofs HttpBytes HttpBytesSpec HttpBytesProofs HttpBytesSession HttpTargets HttpBytesLimits HttpBytesCounter
  Exhibit PathProps FieldProps RequestProps ResponseProps JsonProps ProblemProps ServerProps EndToEndProps SessionProps.
Open Scope N_scope.

(** ** C70 *)
(** A request that fits is read as it was written, however its bytes are cut into pieces, with its body and what follows still to come. *)
Theorem C70_request_read (trims : bool) (uri_byte : N -> bool) (sl : limits) c m r body z :
  fit_request uri_byte sl m r body -> stream c = request_head m r ++ body ++ z ->
  exists q, settle (l_read (byte_link trims uri_byte sl) c) = Comes (Got q) /\ q_method q = m /\ q_target q = rb_target r /\ q_headers q = rb_headers r /\
    waiting (q_conn q) body z /\ b_closed (q_conn q) = b_closed c.
Proof. exact (request_read trims uri_byte sl c m r body z). Qed.
Print Assumptions C70_request_read.

(** So is a response. *)
Theorem C70_response_read (reason : status -> ustr) (trims : bool) (cl : limits) c h body z :
  fit_response reason cl h body -> stream c = response_head reason h ++ z ->
  exists x, settle (w_head (byte_wire trims cl) c) = Comes x /\ r_code x = code_of (pb_status h) /\ r_headers x = pb_headers h /\
    b_left (r_conn x) = Some (length body) /\ stream (r_conn x) = z /\ b_closed (r_conn x) = b_closed c.
Proof. exact (response_read reason trims cl c h body z). Qed.
Print Assumptions C70_response_read.

(** A body is read to its end and no further. *)
Theorem C70_body_read c body z : waiting c body z ->
  exists c', settle (read_body c) = Comes (body, c') /\ stream c' = z /\ b_closed c' = b_closed c /\ b_left c' = Some 0%nat.
Proof. exact (body_comes c body z). Qed.
Print Assumptions C70_body_read.

(** What a handler is told the length of the body is, is what will be read; afterwards nothing is left. *)
Theorem C70_content_length (trims : bool) (uri_byte : N -> bool) (sl : limits) c m r body z :
  fit_request uri_byte sl m r body -> stream c = request_head m r ++ body ++ z ->
  exists q, settle (l_read (byte_link trims uri_byte sl) c) = Comes (Got q) /\ content_length (q_conn q) = Some (N.of_nat (length body)) /\
    forall b c', settle (read_body (q_conn q)) = Comes (b, c') -> b = body /\ content_length c' = Some 0.
Proof. exact (request_content_length trims uri_byte sl c m r body z). Qed.
Print Assumptions C70_content_length.

(** If bytes come in as they were written, every call gets the answer made for it. *)
Theorem C70_calls_over_bytes (F : floatlib) (U : urlenv) (R : Type)
    (explain : request bconn -> ekind -> ustr * option ustr * option (list ustr)) (reason : status -> ustr)
    (trims : bool) (uri_byte : N -> bool) (cl sl : limits) (ps : list (hproc bconn R)) es os c s :
  same_bytes explain reason trims uri_byte cl sl ps es c s -> Forall2 (exchanged explain reason trims uri_byte cl sl ps) es os ->
  exists n0, forall n, (n0 <= n)%nat -> snd (session (byte_wire trims cl) n es c) = os.
Proof. exact (calls_over_bytes explain reason trims uri_byte cl sl ps es os c s). Qed.
Print Assumptions C70_calls_over_bytes.

(** And for any calls that have an answer there are such streams, in any pieces. *)
Theorem C70_streams_exist (F : floatlib) (U : urlenv) (R : Type)
    (explain : request bconn -> ekind -> ustr * option ustr * option (list ustr)) (reason : status -> ustr)
    (trims : bool) (uri_byte : N -> bool) (cl sl : limits) (ps : list (hproc bconn R)) es os :
  Forall2 (exchanged explain reason trims uri_byte cl sl ps) es os ->
  exists sent, forall s, stream s = sent -> exists back, forall c, stream c = back -> same_bytes explain reason trims uri_byte cl sl ps es c s.
Proof. exact (streams_exist explain reason trims uri_byte cl sl ps es os). Qed.
Print Assumptions C70_streams_exist.

(** The answer to a call that a handler takes is what the handler gave. *)
Theorem C70_handled (F : floatlib) (U : urlenv) (R : Type)
    (explain : request bconn -> ekind -> ustr * option ustr * option (list ustr)) (reason : status -> ustr)
    (trims : bool) (uri_byte : N -> bool) (cl sl : limits) (ps : list (hproc bconn R)) e o :
  handled reason uri_byte cl sl ps e o -> exchanged explain reason trims uri_byte cl sl ps e o.
Proof. exact (handled_exchanged explain reason trims uri_byte cl sl ps e o). Qed.
Print Assumptions C70_handled.

(** To one that has no procedure, the problem saying so. *)
Theorem C70_refused (F : floatlib) (U : urlenv) (J : jsonfloat) (R : Type)
    (explain : request bconn -> ekind -> ustr * option ustr * option (list ustr)) (reason : status -> ustr)
    (trims : bool) (uri_byte : N -> bool) (cl sl : limits) (ps : list (hproc bconn R)) (p : proc) url_norm v body r segs qs no n variants x :
  encode_request (pr_entry p) v (N.of_nat (length body)) = Ok r -> fit_request uri_byte sl (pr_method p) r body ->
  parse_url (rb_target r) = Some (mkUrl (Some segs) qs) ->
  route_spec (accepted (registrations ps)) (pr_method p) segs = inr no ->
  pr_method p <> MHead -> pr_resp p = TEnum n variants -> status_from_str x = Ok (status_of no) -> assoc x variants = Some (VNewtype pr_ty) ->
  str_ok (reason (status_of no)) = true -> forallb value_byte (reason (status_of no)) = true -> (2 <= most_headers cl)%nat ->
  (let text := problem_text (AboutBlank (reason (status_of no)) (code_of (status_of no))) in
   length (response_head reason (mkRespb (status_of no) [(u "content-type", u "application/problem+json"); length_header (N.of_nat (length text))])) <= most_bytes cl)%nat ->
  exists v1 b d, exchanged explain reason trims uri_byte cl sl ps (mkErrand p v body) (SNewtypeVariant n x v1, b) /\
    pr_decoded reason v1 = Some d /\ pr_set_body url_norm d b = mkPresp None (AboutBlank (reason (status_of no)) (code_of (status_of no))).
Proof. exact (refused_exchanged explain reason trims uri_byte cl sl ps p url_norm v body r segs qs no n variants x). Qed.
Print Assumptions C70_refused.

(** To one that the handler's type does not admit, the problem with the explanation of the error. *)
Theorem C70_invalid (F : floatlib) (U : urlenv) (J : jsonfloat) (R : Type)
    (explain : request bconn -> ekind -> ustr * option ustr * option (list ustr)) (reason : status -> ustr)
    (trims : bool) (uri_byte : N -> bool) (cl sl : limits) (ps : list (hproc bconn R)) (p : proc) url_norm v body r segs qs (hp : hproc bconn R) k n variants y t d0 h :
  encode_request (pr_entry p) v (N.of_nat (length body)) = Ok r -> fit_request uri_byte sl (pr_method p) r body -> parse_url (rb_target r) = Some (mkUrl (Some segs) qs) ->
  route_spec (accepted (registrations ps)) (pr_method p) segs = inl hp ->
  de_request (hp_entry hp) (mkUrl (Some segs) qs) (rb_headers r) (hp_req hp) = Err k ->
  (forall q, q_method q = pr_method p -> q_target q = rb_target r -> q_headers q = rb_headers r -> explain q k = (t, d0, h)) -> problem_ok url_norm (Trackable t 400 d0 None h) ->
  pr_method p <> MHead -> pr_resp p = TEnum n variants -> status_from_str y = Ok StBadRequest -> assoc y variants = Some (VNewtype pr_ty) ->
  forallb value_byte (reason StBadRequest) = true -> (2 <= most_headers cl)%nat ->
  (let text := problem_text (Trackable t 400 d0 None h) in
   length (response_head reason (mkRespb StBadRequest [(u "content-type", u "application/problem+json"); length_header (N.of_nat (length text))])) <= most_bytes cl)%nat ->
  exists v1 b d, exchanged explain reason trims uri_byte cl sl ps (mkErrand p v body) (SNewtypeVariant n y v1, b) /\
    pr_decoded reason v1 = Some d /\ pr_set_body url_norm d b = mkPresp None (Trackable t 400 d0 None h).
Proof. exact (invalid_exchanged explain reason trims uri_byte cl sl ps p url_norm v body r segs qs hp k n variants y t d0 h). Qed.
Print Assumptions C70_invalid.

(** A stream that is cut within a message: the server takes the end of it for the end of the connection, the client for
    an error; while it stays open both wait. *)
Theorem C70_cut_request (trims : bool) (uri_byte : N -> bool) (l : limits) s m r body t :
  fit_request uri_byte l m r body -> request_head m r = stream s ++ t -> t <> [] ->
  settle (l_read (byte_link trims uri_byte l) s) = if b_closed s then Comes (IoError UnexpectedEof) else Hangs.
Proof. exact (cut_request trims uri_byte l s m r body t). Qed.
Print Assumptions C70_cut_request.
Theorem C70_cut_response (trims : bool) (reason : status -> ustr) (l : limits) c h body t :
  fit_response reason l h body -> response_head reason h = stream c ++ t -> t <> [] ->
  settle (w_head (byte_wire trims l) c) = if b_closed c then Breaks FromMiasht else Hangs.
Proof. exact (cut_response trims reason l c h body t). Qed.
Print Assumptions C70_cut_response.
Theorem C70_cut_body (trims : bool) (l : limits) x n : b_left (r_conn x) = Some n -> (length (stream (r_conn x)) < n)%nat ->
  settle (w_body (byte_wire trims l) x) = if b_closed (r_conn x) then Breaks FromMiasht else Hangs.
Proof. exact (cut_body trims l x n). Qed.
Print Assumptions C70_cut_body.

(** Which requests and responses fit: those with ordinary headers among which the user put no length, within the limits,
    and whose targets have no character that the HTTP parser refuses; [clean] ones are all that occur. *)
Theorem C70_request_fits (F : floatlib) (U : urlenv) uri_byte l m ep v body r : entry_ok ep -> wf_value v = true ->
  encode_request ep v (N.of_nat (length body)) = Ok r ->
  exists hs, rb_headers r = hs ++ [length_header (N.of_nat (length body))] /\
    ((forall c, In c (rb_target r) -> clean c -> uri_byte c = true) ->
     forallb safe_header hs = true -> (forall h, In h hs -> ~ names_length h) ->
     (length (request_head m r) <= most_bytes l)%nat -> (length hs < most_headers l)%nat -> fit_request uri_byte l m r body).
Proof. exact (request_fits uri_byte l m ep v body r). Qed.
Print Assumptions C70_request_fits.
Theorem C70_response_fits (F : floatlib) reason l v body h : encode_response v (N.of_nat (length body)) = Ok h ->
  exists hs, pb_headers h = hs ++ [length_header (N.of_nat (length body))] /\
    (forallb value_byte (reason (pb_status h)) = true -> forallb safe_header hs = true -> (forall x, In x hs -> ~ names_length x) ->
     (length (response_head reason h) <= most_bytes l)%nat -> (length hs < most_headers l)%nat -> fit_response reason l h body).
Proof. exact (response_fits reason l v body h). Qed.
Print Assumptions C70_response_fits.

(** The calls of C52 (answered, no such method, of another type, HEAD, answered), with every request and response cut into pieces. *)
Definition ex_take (c : bconn) (q : request bconn) : request bconn := mkRequest (q_method q) (q_target q) (q_headers q) c.
Definition ex_hprocb (m : method) (t : ty) : hproc bconn (value * bytes) := {|
  hp_method := m; hp_entry := ex_ep; hp_req := t;
  hp_body := fun v q => fbind (read_body (q_conn q)) (fun '(b, c) => Ready (ex_take c q, (v, b)));
  hp_call := fun '(v, b) => NLater (NReady (SStructVariant (u "Res") (u "Ok") (head_val ex_head), rev b))
|}.
Definition ex_psb := [ex_hprocb MHead ex_req_ty; ex_hprocb MPost ex_req_ty; ex_hprocb MDelete ex_bool_ty].
Definition ex_explainb : request bconn -> ekind -> ustr * option ustr * option (list ustr) := fun _ _ => (u "Invalid", Some (u "not a bool"), Some [u "at x.rs:1"]).
(** The characters that httparse takes in a target. *)
Definition ex_uri (c : N) : bool := is_digit c || ((65 <=? c) && (c <=? 90)) || ((97 <=? c) && (c <=? 122)) || mem c (u "!#$%&'*+-._();:@=,/?[]~^").
Definition ex_climits : limits := mkLimits (N.to_nat 8096) 32.
Fixpoint cut (fuel n : nat) (b : bytes) : list bytes :=
  match fuel, b with
  | S fuel, _ :: _ => firstn n b :: [] :: cut fuel n (skipn n b)
  | _, _ => []
  end.
Definition ex_sent : bytes := flat_map asking_bytes ex_asked.
Definition ex_s : bconn := mkBconn [] (cut (length ex_sent) 7 ex_sent) false None.
Definition ex_back : bytes := let F := ex_float in let U := ex_url in
  flat_map (replying_bytes ex_reason) (replied (fst (conversation ex_explainb ex_reason (byte_link true ex_uri server_limits) ex_psb 9 (Ready ex_s)))).
Definition ex_c : bconn := mkBconn [] (cut (length ex_back) 11 ex_back) false None.

Example C70_case_handled : forall hp, In hp [ex_hprocb MHead ex_req_ty; ex_hprocb MPost ex_req_ty] -> forall body, (length body =? 3)%nat || (length body =? 1)%nat = true ->
    let F := ex_float in let U := ex_url in
    handled ex_reason ex_uri ex_climits server_limits ex_psb (ex_errand (hp_method hp) body) (SStructVariant (u "Res") (u "Ok") (head_val ex_head), match hp_method hp with MHead => [] | _ => rev body end).
Proof.
  pose proof ex_head_fits as Hf. cbv zeta in *. destruct Hf as (l & Hf & Hs).
  pose proof C09_case as C9. cbv zeta in C9. destruct C9 as (_ & _ & P & Ne & Pf & Sa & Fo & Qf & _ & _ & _).
  intros hp Ih body Lb. cbv zeta.
  apply (@Handled ex_float ex_url (value * bytes) ex_reason ex_uri ex_climits server_limits ex_psb (ex_proc3 (hp_method hp)) hp (u "Req") ex_pa ex_qu ex_head [u "7"; u "a/b?%20.txt"] l body
           (fun v b => (v, b)) (SStructVariant (u "Res") (u "Ok") (head_val ex_head)) (rev body)).
  - reflexivity.
  - destruct Ih as [<-|[<-|[]]]; reflexivity.
  - destruct Ih as [<-|[<-|[]]]; vm_compute; auto.
  - destruct Ih as [<-|[<-|[]]]; vm_compute; auto.
  - destruct Ih as [<-|[<-|[]]]; exact P.
  - destruct Ih as [<-|[<-|[]]]; exact Ne.
  - destruct Ih as [<-|[<-|[]]]; reflexivity.
  - destruct Ih as [<-|[<-|[]]]; exact Pf.
  - exact Sa.
  - destruct Ih as [<-|[<-|[]]]; exact Fo.
  - exact Qf.
  - discriminate.
  - exact Hf.
  - apply with_length_safe. exact Hs.
  - intros r E.
    assert (Fit : forall m len, len = 3%nat \/ len = 1%nat -> forall r, @encode_request ex_url ex_float ex_ep (SStruct (u "Req") (value_parts ex_pa ex_qu ex_head)) (N.of_nat len) = Ok r ->
      (rb_target r <> [] /\ forallb (fun c => ex_uri c && negb (c =? 32)) (rb_target r) = true) /\ forallb safe_header (rb_headers r) = true /\
      (exists a b, rb_headers r = [a; b; length_header (N.of_nat len)] /\ is_length a = false /\ is_length b = false) /\
      ((length (request_head m r) <=? N.to_nat 8096)%nat && (length (rb_headers r) <=? 32)%nat)%bool = true).
    { clear. intros m len [-> | ->] r E; destruct m; vm_compute in E; injection E as <-;
      (split; [split; [discriminate | vm_compute; reflexivity]|]; split; [vm_compute; reflexivity|]; split; [do 2 eexists; split; [reflexivity|]; split; vm_compute; reflexivity | vm_compute; reflexivity]). }
    assert (Lb' : length body = 3%nat \/ length body = 1%nat) by lia.
    assert (En : @encode_request ex_url ex_float ex_ep (SStruct (u "Req") (value_parts ex_pa ex_qu ex_head)) (N.of_nat (length body)) = Ok r)
      by (destruct Ih as [<-|[<-|[]]]; exact E).
    destruct (Fit (hp_method hp) (length body) Lb' r En) as ((N & T) & S & (a & b & Hh & Na & Nb) & L). apply andb_true_iff in L. destruct L as [L1 L2].
    split; [| |  |apply Nat.leb_le; exact L1 | apply Nat.leb_le; exact L2].
    + split; [exact N|]. intros c Ic. rewrite forallb_forall in T. specialize (T c Ic). apply andb_true_iff in T. destruct T as [T1 T2]. split; [exact T1|]. intros ->. discriminate T2.
    + exact S.
    + rewrite Hh. change [a; b; length_header (N.of_nat (length body))] with ([a; b] ++ [length_header (N.of_nat (length body))]). apply length_told.
      intros h [<-|[<-|[]]]; intros X; apply is_length_iff in X; congruence.
  - intros q z Wt. destruct (body_comes _ _ _ Wt) as (c' & E & St & _). exists (ex_take c' q).
    destruct Ih as [<-|[<-|[]]]; cbn [hp_body ex_hprocb]; rewrite settle_bind, E; split; try reflexivity; exact St.
  - destruct Ih as [<-|[<-|[]]]; reflexivity.
  - apply (SuVariant (u "Res") (ex_res2 ++ [(u "BadRequest", VNewtype pr_ty)]) (u "Ok") StOk ex_head l); [reflexivity | reflexivity | exact Hf | exact Hs].
  - intros h E.
    assert (Fit : forall len, len = 3%nat \/ len = 1%nat -> forall r, @encode_response ex_float (SStructVariant (u "Res") (u "Ok") (head_val ex_head)) (N.of_nat len) = Ok r ->
      forallb value_byte (ex_reason (pb_status r)) = true /\ forallb safe_header (pb_headers r) = true /\
      (exists a b, pb_headers r = [a; b; length_header (N.of_nat len)] /\ is_length a = false /\ is_length b = false) /\
      ((length (response_head ex_reason r) <=? N.to_nat 8096)%nat && (length (pb_headers r) <=? 32)%nat)%bool = true).
    { clear. intros len [-> | ->] r E; vm_compute in E; injection E as <-;
      (split; [vm_compute; reflexivity|]; split; [vm_compute; reflexivity|]; split; [do 2 eexists; split; [reflexivity|]; split; vm_compute; reflexivity | vm_compute; reflexivity]). }
    destruct (Fit (length (rev body)) ltac:(rewrite rev_length; lia) h E) as (V & S & (a & b & Hh & Na & Nb) & L). apply andb_true_iff in L. destruct L as [L1 L2].
    split; [exact V | exact S | | apply Nat.leb_le; exact L1 | apply Nat.leb_le; exact L2].
    rewrite Hh. change [a; b; length_header (N.of_nat (length (rev body)))] with ([a; b] ++ [length_header (N.of_nat (length (rev body)))]). apply length_told.
    intros x [<-|[<-|[]]]; intros X; apply is_length_iff in X; congruence.
Qed.
Example C70_case : let F := ex_float in let U := ex_url in
  handled ex_reason ex_uri ex_climits server_limits ex_psb (ex_errand MPost [1; 2; 3]) (ex_ok [3; 2; 1]) /\
  handled ex_reason ex_uri ex_climits server_limits ex_psb (ex_errand MHead [4]) (ex_ok []) /\
  stream ex_s = ex_sent /\ length ex_sent = 693%nat /\ length (b_coming ex_s) = 198%nat /\ stream ex_c = ex_back /\
  match settle (l_read (byte_link true ex_uri server_limits) ex_s) with Comes (Got q) => content_length (q_conn q) = Some 3 | _ => False end /\
  fst (session (byte_wire true ex_climits) 400 ex_errands ex_c) = ex_asked /\
  map (fun o => match fst o with SStructVariant _ x _ | SNewtypeVariant _ x _ => (x, length (snd o)) | _ => ([], O) end) (snd (session (byte_wire true ex_climits) 400 ex_errands ex_c)) =
    [(u "Ok", 3%nat); (u "MethodNotAllowed", 60%nat); (u "BadRequest", 187%nat); (u "Ok", 0%nat); (u "Ok", 2%nat)].
Proof.
  pose proof C70_case_handled as S. cbv zeta in *.
  split; [exact (S _ (or_intror (or_introl eq_refl)) [1; 2; 3] eq_refl)|]. split; [exact (S _ (or_introl eq_refl) [4] eq_refl)|].
  do 5 (split; [vm_compute; reflexivity|]).
  split; vm_compute; reflexivity.
Qed.

(** ** C71 *)
(** A request with more bytes or more headers than the server reads is never answered, and the connection ends with an error. *)
Theorem C71_too_big (F : floatlib) (U : urlenv) (R : Type)
    (explain : request bconn -> ekind -> ustr * option ustr * option (list ustr)) (reason : status -> ustr)
    (trims : bool) (uri_byte : N -> bool) (sl : limits) (ps : list (hproc bconn R)) s m r z :
  rb_target r <> [] -> (forall c, In c (rb_target r) -> uri_byte c = true /\ c <> 32) -> forallb safe_header (rb_headers r) = true ->
  (most_bytes sl < length (request_head m r) \/ most_headers sl < length (rb_headers r))%nat ->
  (length (b_held s) <= most_bytes sl)%nat -> stream s = request_head m r ++ z ->
  (forall k, replied (fst (rounds explain reason (byte_link trims uri_byte sl) (build (registrations ps)) k (task_new (Ready s)))) = []) /\
  exists k, snd (rounds explain reason (byte_link trims uri_byte sl) (build (registrations ps)) k (task_new (Ready s))) = Stops Other.
Proof. exact (too_big_not_answered explain reason trims uri_byte sl ps s m r z). Qed.
Print Assumptions C71_too_big.

(** Nor is one with a character in its target that the HTTP parser does not take. *)
Theorem C71_odd_target (F : floatlib) (U : urlenv) (R : Type)
    (explain : request bconn -> ekind -> ustr * option ustr * option (list ustr)) (reason : status -> ustr)
    (trims : bool) (uri_byte : N -> bool) (sl : limits) (ps : list (hproc bconn R)) s m r z t1 c t2 :
  rb_target r = t1 ++ c :: t2 -> (forall c, In c t1 -> uri_byte c = true /\ c <> 32) -> uri_byte c = false -> c <> 32 ->
  (length (b_held s) <= most_bytes sl)%nat -> stream s = request_head m r ++ z ->
  (forall k, replied (fst (rounds explain reason (byte_link trims uri_byte sl) (build (registrations ps)) k (task_new (Ready s)))) = []) /\
  exists k, snd (rounds explain reason (byte_link trims uri_byte sl) (build (registrations ps)) k (task_new (Ready s))) = Stops Other.
Proof. exact (odd_target_not_answered explain reason trims uri_byte sl ps s m r z t1 c t2). Qed.
Print Assumptions C71_odd_target.

(** Targets are written in printable ASCII with none of the characters that delimit URLs; whether the HTTP parser takes all of those is up to it. *)
Theorem C71_targets_clean (F : floatlib) (U : urlenv) ep v n r : entry_ok ep -> wf_value v = true -> encode_request ep v n = Ok r ->
  (forall c, In c (rb_target r) -> clean c) /\ rb_target r <> [].
Proof. intros Ok W E. destruct (request_target_clean ep v n r Ok W E) as [C N]. rewrite Forall_forall in C. exact (conj C N). Qed.
Print Assumptions C71_targets_clean.

(** Not every call that the client can write is answered, whatever procedures the server has: one with 32 headers of its own,
    one with a path of 8100 characters, and, if the HTTP parser does not take [|], one with [|] in its path, are not. *)
Theorem C71_every_call_is_answered_refuted (F : floatlib) (U : urlenv) :
  exists vs, length vs = 3%nat /\ forall v, In v vs -> wf_value v = true /\ exists r, encode_request [Val (u "x"); Var] v 0 = Ok r /\ forallb safe_header (rb_headers r) = true /\
    forall (R : Type) explain reason trims uri_byte (ps : list (hproc bconn R)) s z,
    (forall c, clean c -> c <> 124 -> uri_byte c = true) -> uri_byte 124 = false -> (length (b_held s) <= most_bytes server_limits)%nat -> stream s = request_head MGet r ++ z ->
    forall k, replied (fst (rounds explain reason (byte_link trims uri_byte server_limits) (build (registrations ps)) k (task_new (Ready s)))) = [].
Proof. exists [x_many; x_long; x_bar]. split; [reflexivity | exact (calls_not_answered F U)]. Qed.
Print Assumptions C71_every_call_is_answered_refuted.

(** [GET /x/a] with 31 headers of the caller's own is read, or with [^]; with 32, as above, or with [|], it is not. *)
Definition ex_reads (v : value) : option (N * ustr) := let F := ex_float in let U := ex_url in
  match encode_request x_entry v 0 with
  | Ok r => let b := request_head MGet r in
      match settle (l_read (byte_link true ex_uri server_limits) (mkBconn [] (cut (length b) 9 b) false None)) with
      | Comes (Got q) => Some (N.of_nat (length (q_headers q)), q_target q)
      | Comes HttpError => Some (400, [])
      | _ => None
      end
  | _ => None
  end.
Example C71_case : ex_reads (x_call (u "a") (firstn 31 x_headers)) = Some (32, u "/x/a") /\ ex_reads x_many = Some (400, []) /\ ex_reads x_bar = Some (400, []) /\
  ex_reads (x_call (u "a^b") []) = Some (1, u "/x/a%5Eb") /\
  let F := ex_float in let U := ex_url in
  (rounds ex_explainb ex_reason (byte_link true ex_uri server_limits) (build (registrations ex_psb)) 5
     (task_new (Ready (mkBconn [] [u "GET /a|b HTTP"; u "/1.1"; crlf; crlf] false None)))) = ([ARead (mkBconn [] [u "GET /a|b HTTP"; u "/1.1"; crlf; crlf] false None)], Stops Other).
Proof. split; [vm_compute; reflexivity|]. split; [vm_compute; reflexivity|]. split; [vm_compute; reflexivity|]. split; vm_compute; reflexivity. Qed.
(** The hypotheses of the theorems are met by these. *)
Example C71_case_uri : (forall c, clean c -> c <> 124 -> ex_uri c = true) /\ ex_uri 124 = false /\ entry_ok x_entry.
Proof.
  split; [|split; [reflexivity | intros c [[= <-]|[C|[]]]; [reflexivity | discriminate C]]].
  intros c [R N] B. assert (Q : forallb (fun c => negb (cleanb c) || (c =? 124) || ex_uri c) (map N.of_nat (seq 33 94)) = true) by (vm_compute; reflexivity).
  rewrite forallb_forall in Q. specialize (Q c). rewrite !orb_true_iff, negb_true_iff in Q. destruct Q as [[Q|Q]|Q].
  - rewrite <- (N2Nat.id c). apply in_map, in_seq. lia.
  - exfalso. unfold cleanb in Q. rewrite !andb_false_iff, negb_false_iff in Q. destruct Q as [[Q|Q]|Q]; try lia. apply N. apply existsb_exists in Q. destruct Q as (d & I & E). apply N.eqb_eq in E. subst d. exact I.
  - apply N.eqb_eq in Q. contradiction.
  - exact Q.
Qed.

(** ** C72 *)
(** Over a parser that drops the blanks around values, exactly the ordinary headers arrive as they were. *)
Theorem C72_delivered_iff hs : byte_deliver true hs = Some hs <-> forallb safe_header hs = true.
Proof. exact (delivered_iff hs). Qed.
Print Assumptions C72_delivered_iff.

(** Over any other too they arrive. *)
Theorem C72_delivered trims hs : forallb safe_header hs = true -> byte_deliver trims hs = Some hs.
Proof. exact (byte_deliver_safe trims hs). Qed.
Print Assumptions C72_delivered.

(** Whatever bytes a server is sent, the headers it reads from them are ordinary ones. *)
Theorem C72_received_safe (uri_byte : N -> bool) (l : limits) s q :
  settle (l_read (byte_link true uri_byte l) s) = Comes (Got q) -> forallb safe_header (q_headers q) = true.
Proof. exact (received_safe uri_byte l s q). Qed.
Print Assumptions C72_received_safe.

(** Not every header that the client writes arrives or makes the message unreadable: one can arrive as two others. *)
Theorem C72_as_sent_or_not_at_all_refuted : exists hs hs', forall trims, byte_deliver trims hs = Some hs' /\ hs' <> hs /\ length hs' <> length hs.
Proof. exists [(u "A", u "1" ++ crlf ++ u "B: 2")], [(u "A", u "1"); (u "B", u "2")]. intros trims. split; [exact (header_arrives_as_two trims) | split; discriminate]. Qed.
Print Assumptions C72_as_sent_or_not_at_all_refuted.

(** Nor does every call make one request: the caller's text in a header can make the server read another, of another method and target. *)
Theorem C72_one_call_one_request_refuted (F : floatlib) (U : urlenv) :
  exists v r, wf_value v = true /\ encode_request [Val (u "x"); Var] v 0 = Ok r /\
  forall trims uri_byte s, (forall c, clean c -> c <> 124 -> uri_byte c = true) -> stream s = request_head MGet r ->
  exists q1 c q2, settle (l_read (byte_link trims uri_byte server_limits) s) = Comes (Got q1) /\ q_method q1 = MGet /\ q_target q1 = u "/x/a" /\
    settle (read_body (q_conn q1)) = Comes ([], c) /\
    settle (l_read (byte_link trims uri_byte server_limits) c) = Comes (Got q2) /\ q_method q2 = MDelete /\ q_target q2 = u "/all".
Proof. destruct (one_call_two_requests F U) as (W & r & E & Q). exists x_split, r. exact (conj W (conj E Q)). Qed.
Print Assumptions C72_one_call_one_request_refuted.

Example C72_case : (byte_deliver true [(u "Accept", u "text/plain, */*"); (u "X-Empty", []); (u "x_id", [195; 169])] = Some [(u "Accept", u "text/plain, */*"); (u "X-Empty", []); (u "x_id", [195; 169])] /\
  byte_deliver true [(u "A", u " 1 ")] = Some [(u "A", u "1")] /\ byte_deliver false [(u "A", u " 1 ")] = Some [(u "A", u "1 ")] /\
  byte_deliver true [(u "A b", u "1")] = None /\ byte_deliver true [(u "A", [0])] = None /\
  match settle (l_read (byte_link true ex_uri server_limits) (mkBconn [] [crlf ++ u "GET / HTTP/1.1"; crlf ++ u "A:  x  "; crlf ++ crlf] false None)) with
  | Comes (Got q) => q_headers q = [(u "A", u "x")]
  | _ => False
  end)%type.
Proof. repeat split; vm_compute; reflexivity. Qed.
