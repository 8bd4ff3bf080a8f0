(** * Several calls one after the other on one connection: what it means that the network keeps messages in order. *)
From Verif Require Import Base Utf8 Decimal DepUrl Serde Procedure ScalarSpec PathSpec FieldSpec Status SerHeader SerRequest SerResponse DeHeader DeRequest DeResponse Router RouterSpec RouterProofs DepHttp
  UrlProofs PathTrip HeaderProofs RequestArrives ResponseTrip Error Client ClientSpec Server ServerSpec EndToEndSpec.
Open Scope N_scope.

(** A call to be made, and how it ended. *)
Record errand := mkErrand { e_proc : proc; e_value : value; e_body : bytes }.
Definition answer : Type := value * bytes.
(** The requests and responses put on a connection, in order. *)
Record asking := mkAsking { a_method : method; a_request : reqb; a_body : bytes }.
Definition replying : Type := respb * option bytes.

Definition prefix {A} (l1 l2 : list A) : Prop := exists l, l2 = l1 ++ l.

Section Session.
Context `{floatlib} `{urlenv} `{httpenv} {CConn SConn R : Type}.
Variable explain : request SConn -> ekind -> ustr * option ustr * option (list ustr).
Variable reason : status -> ustr.
Variables (w : wire CConn) (ln : link SConn) (ps : list (hproc SConn R)).

(** ** The client's side: each call on the connection the one before gave back, polled up to [n] times.
    This is what calls through a pool do with a connection that is kept: src/pool.rs:186-192, 206-216, 323-325. *)
Definition asked_by (p : proc) (t : list (act CConn)) : list asking :=
  flat_map (fun a => match a with Write r b _ => [mkAsking (pr_method p) r b] | _ => [] end) t.
Fixpoint session (n : nat) (es : list errand) (c : CConn) : list asking * list answer :=
  match es with
  | [] => ([], [])
  | e :: es =>
      let '(t, o) := drive w (e_proc e) n (call_new (e_value e, e_body e) (Ready c)) in
      match o with
      | Ok (Done v b c) => (asked_by (e_proc e) t ++ fst (session n es c), (v, b) :: snd (session n es c))
      | _ => (asked_by (e_proc e) t, [])
      end
  end.

(** ** The server's side *)
Definition replied (l : list (sact SConn)) : list replying :=
  flat_map (fun a => match a with AWrite h b _ => [(h, b)] | _ => [] end) l.

(** ** The network *)
(** What is still to be read on either end, and the request body waiting on the server's. *)
Variables (inbox : CConn -> list replying) (queue : SConn -> list asking) (content : SConn -> bytes).
(** A request as read from what was written: method, target and body as they were, headers as HTTP delivers them. *)
Definition reads_request (a : asking) (q : request SConn) : Prop :=
  q_method q = a_method a /\ q_target q = rb_target (a_request a) /\
  (forall hs, deliver (rb_headers (a_request a)) = Some hs -> q_headers q = hs) /\ content (q_conn q) = a_body a.
(** The server reads the first of what is still to be read; writing and reading a body leave the rest. *)
Record server_end : Prop := {
  se_read : forall s a rest, queue s = a :: rest ->
    exists q, settle (l_read ln s) = Comes (Got q) /\ reads_request a q /\ queue (q_conn q) = rest;
  se_write : forall h b s, exists s', settle (l_write ln h b s) = Comes s' /\ queue s' = queue s;
  se_drain : forall q, exists q', settle (l_drain ln q) = Comes q' /\ queue (q_conn q') = queue (q_conn q)
}.
(** Likewise the client; a response that has a body is over when its body has been read. *)
Record client_end : Prop := {
  ce_write : forall r b c, exists c', settle (w_write w r b c) = Comes c' /\ inbox c' = inbox c;
  ce_read : forall c h b rest, inbox c = (h, b) :: rest ->
    exists x, settle (w_head w c) = Comes x /\ r_code x = code_of (pb_status h) /\ (forall hs, deliver (pb_headers h) = Some hs -> r_headers x = hs) /\
      match b with
      | None => inbox (r_conn x) = rest
      | Some b => exists c', settle (w_body w x) = Comes (mkResponse (r_code x) (r_headers x) c', b) /\ inbox c' = rest
      end
}.
(** Everything written on one end is, in order, what there is to be read on the other. *)
Definition in_order (es : list errand) (c : CConn) (s : SConn) : Prop :=
  (forall n, prefix (fst (session n es c)) (queue s)) /\
  (forall k, prefix (replied (fst (rounds explain reason ln (build (registrations ps)) k (task_new (Ready s))))) (inbox c)).

(** ** The answer to one call *)
(** The server answers this call's request, however it is read, and the client makes this of that. *)
Definition meant (e : errand) (o : answer) : Prop :=
  exists r, encode_request (pr_entry (e_proc e)) (e_value e) (N.of_nat (length (e_body e))) = Ok r /\
    forall q, reads_request (mkAsking (pr_method (e_proc e)) r (e_body e)) q ->
      exists s h b hs, reply_to explain reason ln ps q = Sends s h b /\ queue s = queue (q_conn q) /\
        deliver (pb_headers h) = Some hs /\ de_response (code_of (pb_status h)) hs (pr_resp (e_proc e)) = Ok (fst o) /\
        snd o = match pr_method (e_proc e) with MHead => [] | _ => b end.
(** Calls whose handler is given the request and the body, and answers with something that suits the client (C50). *)
Inductive served : errand -> answer -> Prop :=
| Served p (hp : hproc SConn R) n pa qu hd ss l body mk v1 b1 :
    pr_method p = hp_method hp -> pr_entry p = hp_entry hp ->
    In (hp_method hp, hp_entry hp, hp) (accepted (registrations ps)) ->
    unshadowed (accepted (registrations ps)) (hp_entry hp) (map enc (fill (hp_entry hp) ss)) ->
    plain_entry (hp_entry hp) -> hp_entry hp <> [] ->
    hp_req hp = TStruct n (typed_parts pa qu hd) ->
    path_fits (hp_entry hp) pa ss -> Forall path_safe ss -> first_ok (fill (hp_entry hp) ss) ->
    query_fits qu -> (pa = None -> qu = None) ->
    header_fits hd l -> forallb safe_header (l ++ [length_header (N.of_nat (length body))]) = true ->
    (forall q, content (q_conn q) = body -> exists q', settle (hp_body hp (SStruct n (value_parts pa qu hd)) q) = Comes (q', mk (SStruct n (value_parts pa qu hd)) body) /\
       queue (q_conn q') = queue (q_conn q)) ->
    nsettle (hp_call hp (mk (SStruct n (value_parts pa qu hd)) body)) = Comes (v1, b1) ->
    suits (pr_resp p) v1 ->
    served (mkErrand p (SStruct n (value_parts pa qu hd)) body) (v1, match pr_method p with MHead => [] | _ => b1 end).
End Session.

(** ** A network that keeps order, to show that there is one: either end holds what is still to be read on it. *)
Record sconn := mkSconn { sc_queue : list asking; sc_content : bytes }.
Section Scripted.
Context `{httpenv}.
Definition script_link : link sconn := {|
  l_read := fun s => match sc_queue s with
    | a :: rest => Later (Ready (Got (mkRequest (a_method a) (rb_target (a_request a)) (arrived (rb_headers (a_request a))) (mkSconn rest (a_body a)))))
    | [] => Never end;
  l_drain := fun q => Later (Ready q);
  l_write := fun _ _ s => Later (Ready s)
|}.
Definition script_wire : wire (list replying) := {|
  w_write := fun _ _ c => Later (Ready c);
  w_head := fun c => match c with
    | (h, None) :: rest => Later (Ready (mkResponse (code_of (pb_status h)) (arrived (pb_headers h)) rest))
    | (h, Some _) :: _ => Later (Ready (mkResponse (code_of (pb_status h)) (arrived (pb_headers h)) c))
    | [] => Never end;
  w_body := fun x => match r_conn x with
    | (_, Some b) :: rest => Later (Ready (mkResponse (r_code x) (r_headers x) rest, b))
    | _ => Never end
|}.
End Scripted.
