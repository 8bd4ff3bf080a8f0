(** * A call from the client's value to the handler and back (C50). *)
From Verif Require Import Base Utf8 Decimal DepUrl Serde Procedure ScalarSpec PathSpec FieldSpec Status SerHeader SerRequest SerResponse DeHeader DeRequest DeResponse Router RouterSpec RouterProofs DepHttp
  UrlProofs PathProofs PathTrip HeaderProofs RequestSpec RequestProofs RequestArrives ResponseProofs ResponseTrip Json JsonText Problem ProblemSpec ProblemProofs Error Client ClientSpec ClientProofs Server ServerSpec ServerProofs EndToEndSpec.
Open Scope N_scope.

Section EndToEnd.
Context `{F : floatlib} `{U : urlenv} `{W : httpenv} {CConn SConn R : Type}.

(** What suits the client's type comes out as it went in. *)
Lemma suits_arrives t v len : suits t v ->
  exists r hs, encode_response v len = Ok r /\ deliver (pb_headers r) = Some hs /\ de_response (code_of (pb_status r)) hs t = Ok v.
Proof.
  intros S. destruct S.
  - eapply unit_variant_arrives; eassumption.
  - eapply struct_variant_arrives; eassumption.
  - eapply struct_arrives; eassumption.
Qed.

Variable explain : request SConn -> ekind -> ustr * option ustr * option (list ustr).
Variable reason : status -> ustr.
Variables (w : wire CConn) (ln : link SConn) (ps : list (hproc SConn R)).
Variables (peer : CConn -> SConn) (content : SConn -> bytes).

(** The first exchange of a connection whose first request is answered. *)
Lemma first_exchange s q s' h b : settle (l_read ln s) = Comes (Got q) -> reply_to explain reason ln ps q = Sends s' h b ->
  exists k a, fst (rounds explain reason ln (build (registrations ps)) k (task_new (Ready s))) =
    ARead s :: AWrite h (match q_method q with MHead => None | _ => Some b end) s' :: a.
Proof.
  intros Q E. destruct (conversation_rounds explain reason ln ps 1 (Ready s)) as (k & a & T & _). exists k, a. rewrite T.
  cbn [conversation settle then_ performing]. rewrite Q. cbn [then_]. rewrite E. destruct (q_method q); reflexivity.
Qed.

(** Once the server has read the request and found its answer, the client ends with what it decodes from it. *)
Lemma exchange (p : proc) v body connect c r c1 q s h b hs v1 :
  settle connect = Comes c -> encode_request (pr_entry p) v (N.of_nat (length body)) = Ok r -> settle (w_write w r body c) = Comes c1 ->
  settle (l_read ln (peer c1)) = Comes (Got q) -> q_method q = pr_method p -> reply_to explain reason ln ps q = Sends s h b ->
  carries_responses explain reason w ln ps peer ->
  deliver (pb_headers h) = Some hs -> de_response (code_of (pb_status h)) hs (pr_resp p) = Ok v1 ->
  exists c0 n0, forall n, (n0 <= n)%nat ->
    snd (drive w p n (call_new (v, body) connect)) = Ok (Done v1 (match pr_method p with MHead => [] | _ => b end) c0).
Proof.
  intros Co En W1 Rd Qm Rp Cr Dh Dv.
  destruct (first_exchange _ _ _ _ _ Rd Rp) as (k & a & Tr). rewrite Qm in Tr.
  destruct (Cr c1 k h _ _ a Tr) as (y & Wh & Yc & Yh & Yb). specialize (Yh hs Dh).
  assert (Sq : snd (sequential w p v body connect) = Yields v1 (match pr_method p with MHead => [] | _ => b end) (r_conn y)).
  { unfold sequential. rewrite Co. cbn [after]. rewrite En. cbn [doing snd]. rewrite W1. cbn [after doing snd]. rewrite Wh. cbn [after].
    unfold decoding. destruct (pr_method p); cbn [doing snd]; try (rewrite (Yb b eq_refl); cbn [after snd]); rewrite Yc, Yh, Dv; reflexivity. }
  exists (r_conn y).
  destruct (call_finishes w p v body connect) as [n0 Fi]; [rewrite Sq; discriminate|]. exists n0. intros n' Le. specialize (Fi n' Le).
  pose proof (call_steps w p v body connect n') as St.
  match type of Fi with over (snd ?d) => match goal with |- snd ?d' = _ => change d' with d end; destruct d as [t o] end.
  cbn [snd] in Fi |- *.
  destruct o as [[k'|v' b' c']|k'| |]; [elim Fi| | | |]; destruct St as [_ St]; rewrite Sq in St; cbn [reads_as] in St; try discriminate St; congruence.
Qed.

Theorem call_end_to_end (p : proc) (hp : hproc SConn R) n pa qu hd ss l body connect c mk v1 b1 :
  (* the procedure is registered and its entry point is not hidden *)
  pr_method p = hp_method hp -> pr_entry p = hp_entry hp ->
  In (hp_method hp, hp_entry hp, hp) (accepted (registrations ps)) ->
  unshadowed (accepted (registrations ps)) (hp_entry hp) (map enc (fill (hp_entry hp) ss)) ->
  plain_entry (hp_entry hp) -> hp_entry hp <> [] ->
  (* the request is one that arrives *)
  hp_req hp = TStruct n (typed_parts pa qu hd) ->
  path_fits (hp_entry hp) pa ss -> Forall path_safe ss -> first_ok (fill (hp_entry hp) ss) ->
  query_fits qu -> (pa = None -> qu = None) ->
  header_fits hd l -> forallb safe_header (l ++ [content_length (N.of_nat (length body))]) = true ->
  (* the network does its work *)
  settle connect = Comes c -> (forall r, exists c1, settle (w_write w r body c) = Comes c1) ->
  carries_requests w ln peer content (pr_method p) -> carries_responses explain reason w ln ps peer ->
  (* the handler is given the request and its body, and answers *)
  (forall q, content (q_conn q) = body -> exists q', settle (hp_body hp (SStruct n (value_parts pa qu hd)) q) = Comes (q', mk (SStruct n (value_parts pa qu hd)) body)) ->
  nsettle (hp_call hp (mk (SStruct n (value_parts pa qu hd)) body)) = Comes (v1, b1) ->
  suits (pr_resp p) v1 ->
  exists c0 n0, forall n', (n0 <= n')%nat ->
    snd (drive w p n' (call_new (SStruct n (value_parts pa qu hd), body) connect)) =
      Ok (Done v1 (match pr_method p with MHead => [] | _ => b1 end) c0).
Proof.
  intros Pm Pe I Un Pl Ne Ty Pf Ps Fo Qf Pq Hf Sf Co Wr Cq Cr Hb Hc Su.
  destruct (request_arrives _ (registrations ps) (hp_method hp) (hp_entry hp) hp n pa qu hd ss l (N.of_nat (length body)) I Un Pl Ne Pf Ps Fo Qf Pq Hf Sf)
    as (r & x & hs & En & De & Pu & Ro & Dr).
  set (v := SStruct n (value_parts pa qu hd)) in *.
  destruct (Wr r) as [c1 W1]. destruct (Cq r body c c1 W1) as (q & Rd & Qm & Qt & Qh & Qb). specialize (Qh hs De).
  destruct (Hb q Qb) as [q' Hb']. destruct (suits_arrives _ _ (N.of_nat (length b1)) Su) as (h & hs1 & Er & Dh & Dv).
  eapply exchange; try eassumption; [rewrite Pe; exact En|].
  rewrite <- on_request_is. unfold Server.on_request. rewrite Qt, Pu, Qm, Pm, Ro. cbn [bind]. unfold handle. rewrite Qh, Ty, Dr. cbn [reads_reply].
  rewrite settle_bind, Hb', settle_bind, settle_no_error, Hc. cbn [settle once]. unfold serialize. unfold encode_response in Er.
  destruct (ser_response v1 sser_new) as [s|k| |]; cbn [bind] in Er |- *; try discriminate. rewrite Er. reflexivity.
Qed.

Context {J : jsonfloat}.

(** What cannot be routed comes back as the problem saying so. *)
Theorem refused_end_to_end (p : proc) url_norm v body connect c r segs qs no n variants x :
  encode_request (pr_entry p) v (N.of_nat (length body)) = Ok r -> parse_url (rb_target r) = Some (mkUrl (Some segs) qs) ->
  route_spec (accepted (registrations ps)) (pr_method p) segs = inr no ->
  pr_method p <> MHead -> pr_resp p = TEnum n variants -> status_from_str x = Ok (status_of no) -> assoc x variants = Some (VNewtype pr_ty) ->
  str_ok (reason (status_of no)) = true ->
  settle connect = Comes c -> (exists c1, settle (w_write w r body c) = Comes c1) -> (forall q, exists q', settle (l_drain ln q) = Comes q') ->
  carries_requests w ln peer content (pr_method p) -> carries_responses explain reason w ln ps peer ->
  exists c0 n0 v1 b, (forall n', (n0 <= n')%nat -> snd (drive w p n' (call_new (v, body) connect)) = Ok (Done (SNewtypeVariant n x v1) b c0)) /\
    exists d, pr_decoded reason v1 = Some d /\ pr_set_body url_norm d b = mkPresp None (AboutBlank (reason (status_of no)) (code_of (status_of no))).
Proof.
  intros En Pu Ro Nh Ty X A So Co [c1 W1] Dn Cq Cr.
  destruct (Cq r body c c1 W1) as (q & Rd & Qm & Qt & Qh & Qb). destruct (Dn q) as [q' Dq].
  assert (Ok' : problem_ok url_norm (AboutBlank (reason (status_of no)) (code_of (status_of no)))) by (split; [destruct no; reflexivity | exact So]).
  destruct (refusal_arrives ln url_norm reason q q' (status_of no) (AboutBlank (reason (status_of no)) (code_of (status_of no))) n variants x Dq Ok' eq_refl X A)
    as (s & h & b & hs & v1 & Rf & Dh & Dv & d & Pd & Pb).
  assert (Rp : reply_to explain reason ln ps q = Sends s h b).
  { rewrite <- Rf. unfold reply_to. rewrite Qt, Pu, Qm. unfold registrations in Ro. rewrite Ro. destruct no; reflexivity. }
  rewrite <- Ty in Dv. destruct (exchange p v body connect c r c1 q s h b hs _ Co En W1 Rd Qm Rp Cr Dh Dv) as (c0 & n0 & Dr).
  exists c0, n0, v1, b. split; [|exists d; auto]. intros n' Le. rewrite (Dr n' Le). destruct (pr_method p); congruence.
Qed.
End EndToEnd.

Lemma loop_requests `{floatlib} `{urlenv} `{httpenv} {R} explain reason m (ps : list (hproc place R)) :
  carries_requests (loop_wire explain reason m ps) (loop_link m) (fun s => s) carried m.
Proof.
  intros r b c c1 [= <-]. eexists. split; [reflexivity|]. cbn [q_method q_target q_headers q_conn carried]. split; [reflexivity|]. split; [reflexivity|].
  split; [|reflexivity]. intros hs D. unfold arrived. rewrite D. reflexivity.
Qed.
Lemma loop_responses `{floatlib} `{urlenv} `{httpenv} {R} explain reason m (ps : list (hproc place R)) :
  carries_responses explain reason (loop_wire explain reason m ps) (loop_link m) ps (fun s => s).
Proof.
  intros c1 k h body s a T. pose proof (rounds_dialogue explain reason (loop_link m) ps k (Ready c1)) as D. rewrite T in D.
  inversion D as [| |f c r c' h' b bd l' Sf Sr Rp Bd Dl]; subst. clear D. cbn [w_head loop_wire]. rewrite Sr, Rp.
  eexists. split; [reflexivity|]. cbn [r_code r_headers]. split; [reflexivity|]. split; [intros hs De; unfold arrived; rewrite De; reflexivity|].
  intros b0 E. cbn [w_body loop_wire r_conn answered]. rewrite E. reflexivity.
Qed.
