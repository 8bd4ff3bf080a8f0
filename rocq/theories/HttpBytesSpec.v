(** * What it means that bytes carry messages (C70-C72). *)
From Verif Require Import Base Utf8 Decimal DepUrl Serde Procedure ScalarSpec PathSpec FieldSpec Status SerHeader SerRequest SerResponse DeHeader DeRequest DeResponse Router RouterSpec DepHttp
  UrlProofs PathTrip HeaderProofs RequestArrives ResponseTrip Error Client ClientSpec Server ServerSpec EndToEndSpec SessionSpec HttpBytes.
Open Scope N_scope.

(** Exactly one header tells the length of the body. *)
Definition names_length (h : header) : Prop := lowercase (fst h) = u "content-length".
Definition tells_length (hs : list header) (n : N) : Prop :=
  exists l1 k l2, hs = l1 ++ (k, show_N n) :: l2 /\ lowercase k = u "content-length" /\ forall h, In h (l1 ++ l2) -> ~ names_length h.

(** Messages that HTTP can carry between peers with given limits. *)
Record fit_request (uri_byte : N -> bool) (l : limits) (m : method) (r : reqb) (body : bytes) : Prop := {
  fq_target : rb_target r <> [] /\ forall c, In c (rb_target r) -> uri_byte c = true /\ c <> 32;
  fq_headers : forallb safe_header (rb_headers r) = true;
  fq_length : tells_length (rb_headers r) (N.of_nat (length body));
  fq_bytes : (length (request_head m r) <= most_bytes l)%nat;
  fq_count : (length (rb_headers r) <= most_headers l)%nat
}.
Record fit_response (reason : status -> ustr) (l : limits) (h : respb) (body : bytes) : Prop := {
  fp_reason : forallb value_byte (reason (pb_status h)) = true;
  fp_headers : forallb safe_header (pb_headers h) = true;
  fp_length : tells_length (pb_headers h) (N.of_nat (length body));
  fp_bytes : (length (response_head reason h) <= most_bytes l)%nat;
  fp_count : (length (pb_headers h) <= most_headers l)%nat
}.

(** The bytes of what is put on a connection. *)
Definition asking_bytes (a : asking) : bytes := request_head (a_method a) (a_request a) ++ a_body a.
Definition replying_bytes (reason : status -> ustr) (x : replying) : bytes :=
  response_head reason (fst x) ++ match snd x with Some b => b | None => [] end.

(** A connection on which a body is the next to be read, before [z]. *)
Definition waiting (c : bconn) (body z : bytes) : Prop := b_left c = Some (length body) /\ stream c = body ++ z.

Section Session.
Context `{floatlib} `{urlenv} {R : Type}.
Variable explain : request bconn -> ekind -> ustr * option ustr * option (list ustr).
Variable reason : status -> ustr.
Variables (trims : bool) (uri_byte : N -> bool) (cl sl : limits).
Variable ps : list (hproc bconn R).
Notation wire := (byte_wire trims cl).
Notation ln := (byte_link trims uri_byte sl).

(** TCP: the bytes written on one end are the bytes that come in on the other, in whatever pieces. *)
Definition same_bytes (es : list errand) (c s : bconn) : Prop :=
  (forall n, prefix (flat_map asking_bytes (fst (session wire n es c))) (stream s)) /\
  (forall k, prefix (flat_map (replying_bytes reason) (replied (fst (rounds explain reason ln (build (registrations ps)) k (task_new (Ready s)))))) (stream c)).

(** A call that HTTP can carry, and the answer that the server, given its request, makes for it. *)
Definition exchanged (e : errand) (o : answer) : Prop :=
  exists r, encode_request (pr_entry (e_proc e)) (e_value e) (N.of_nat (length (e_body e))) = Ok r /\
    fit_request uri_byte sl (pr_method (e_proc e)) r (e_body e) /\
    forall q z, q_method q = pr_method (e_proc e) -> q_target q = rb_target r -> q_headers q = rb_headers r -> waiting (q_conn q) (e_body e) z ->
      exists s h b, reply_to explain reason ln ps q = Sends s h b /\ stream s = z /\ fit_response reason cl h b /\
        de_response (code_of (pb_status h)) (pb_headers h) (pr_resp (e_proc e)) = Ok (fst o) /\
        snd o = match pr_method (e_proc e) with MHead => [] | _ => b end.

(** A handler that reads the body to its end. *)
Definition reads_all (hp : hproc bconn R) (v : value) (body : bytes) (mk : value -> bytes -> R) : Prop :=
  forall q z, waiting (q_conn q) body z -> exists q', settle (hp_body hp v q) = Comes (q', mk v body) /\ stream (q_conn q') = z.

(** Calls whose handler is given the request and the body, and answers with something that suits the client (as in C52). *)
Inductive handled : errand -> answer -> Prop :=
| Handled p (hp : hproc bconn R) n pa qu hd ss l body mk v1 b1 :
    pr_method p = hp_method hp -> pr_entry p = hp_entry hp ->
    In (hp_method hp, hp_entry hp, hp) (accepted (registrations ps)) ->
    unshadowed (accepted (registrations ps)) (hp_entry hp) (map enc (fill (hp_entry hp) ss)) ->
    plain_entry (hp_entry hp) -> hp_entry hp <> [] ->
    hp_req hp = TStruct n (typed_parts pa qu hd) ->
    path_fits (hp_entry hp) pa ss -> Forall path_safe ss -> first_ok (fill (hp_entry hp) ss) ->
    query_fits qu -> (pa = None -> qu = None) ->
    header_fits hd l -> forallb safe_header (l ++ [length_header (N.of_nat (length body))]) = true ->
    (forall r, encode_request (hp_entry hp) (SStruct n (value_parts pa qu hd)) (N.of_nat (length body)) = Ok r -> fit_request uri_byte sl (hp_method hp) r body) ->
    reads_all hp (SStruct n (value_parts pa qu hd)) body mk ->
    nsettle (hp_call hp (mk (SStruct n (value_parts pa qu hd)) body)) = Comes (v1, b1) ->
    suits (pr_resp p) v1 ->
    (forall h, encode_response v1 (N.of_nat (length b1)) = Ok h -> fit_response reason cl h b1) ->
    handled (mkErrand p (SStruct n (value_parts pa qu hd)) body) (v1, match pr_method p with MHead => [] | _ => b1 end).
End Session.
