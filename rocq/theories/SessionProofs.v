(** * Proofs about several calls on one connection (C52). *)
From Verif Require Import Base Utf8 Decimal DepUrl Serde Procedure ScalarSpec PathSpec FieldSpec Status SerHeader SerRequest SerResponse DeHeader DeRequest DeResponse Router RouterSpec RouterProofs DepHttp
  UrlProofs PathProofs PathTrip HeaderProofs RequestSpec RequestProofs RequestArrives ResponseProofs ResponseTrip Json JsonText Problem ProblemSpec ProblemProofs
  Error Client ClientSpec ClientProofs Server ServerSpec ServerProofs EndToEndSpec EndToEnd SessionSpec.
Open Scope N_scope.

Lemma prefix_cons {A} (x : A) l1 l2 : prefix (x :: l1) (x :: l2) <-> prefix l1 l2.
Proof. split; intros [l E]; exists l; [injection E; auto | cbn; congruence]. Qed.
Lemma prefix_head {A} (x : A) l1 l2 : prefix (x :: l1) l2 -> exists l, l2 = x :: l /\ prefix l1 l.
Proof. intros [l ->]. exists (l1 ++ l). split; [reflexivity | exists l; reflexivity]. Qed.
Lemma prefix_app {A} (l1 l2 l3 : list A) : prefix (l1 ++ l2) l3 -> prefix l1 l3.
Proof. intros [l ->]. exists (l2 ++ l). rewrite app_assoc. reflexivity. Qed.
Lemma prefix_nil {A} (l : list A) : prefix [] l.
Proof. exists l. reflexivity. Qed.

Section Proofs.
Context `{F : floatlib} `{U : urlenv} `{W : httpenv} {CConn SConn R : Type}.
Variable explain : request SConn -> ekind -> ustr * option ustr * option (list ustr).
Variable reason : status -> ustr.
Variables (w : wire CConn) (ln : link SConn) (ps : list (hproc SConn R)).
Variables (inbox : CConn -> list replying) (queue : SConn -> list asking) (content : SConn -> bytes).
Notation meant := (meant explain reason ln ps queue content).
Notation conversation := (conversation explain reason ln ps).

Lemma replied_app (l1 l2 : list (sact SConn)) : replied (l1 ++ l2) = replied l1 ++ replied l2.
Proof. apply flat_map_app. Qed.
Lemma asked_app p (l1 l2 : list (act CConn)) : asked_by p (l1 ++ l2) = asked_by p l1 ++ asked_by p l2.
Proof. apply flat_map_app. Qed.

(** Everything the connection can write arrives, if everything it writes does. *)
Lemma conversation_in_order s l : (forall k, prefix (replied (fst (rounds explain reason ln (build (registrations ps)) k (task_new (Ready s))))) l) ->
  forall n, prefix (replied (fst (conversation n (Ready s)))) l.
Proof.
  intros Q n. destruct (conversation_rounds explain reason ln ps n (Ready s)) as (k & a & E & _). specialize (Q k).
  rewrite E, replied_app in Q. exact (prefix_app _ _ _ Q).
Qed.

(** The first poll writes the request. *)
Lemma poll_writes (p : proc) v (b : bytes) c r m : encode_request (pr_entry p) v (N.of_nat (length b)) = Ok r ->
  poll w p (S m) (call_new (v, b) (Ready c)) = (Write r b c :: fst (poll w p m (mkCall None (PhB (w_write w r b c)))), snd (poll w p m (mkCall None (PhB (w_write w r b c))))).
Proof.
  intros E. unfold call_new. cbn [poll phase_poll k_phase k_request fpoll]. unfold on_connected. rewrite E. cbn [bind].
  destruct (poll w p m _) as [t o]. reflexivity.
Qed.
Lemma first_poll (p : proc) v (b : bytes) c r n : encode_request (pr_entry p) v (N.of_nat (length b)) = Ok r ->
  exists t, fst (drive w p (S n) (call_new (v, b) (Ready c))) = Write r b c :: t.
Proof.
  intros E. cbn [drive]. unfold poll_call. rewrite (poll_writes p v b c r 4 E).
  match goal with |- context [snd ?x] => destruct x as [t [[k'|x' y z]|e| |]] end; cbn [fst snd]; try (eexists; reflexivity).
  destruct (drive w p n k') as [t' o]. eexists. reflexivity.
Qed.
Lemma session_asks n e es c r : encode_request (pr_entry (e_proc e)) (e_value e) (N.of_nat (length (e_body e))) = Ok r ->
  exists l, fst (session w (S n) (e :: es) c) = mkAsking (pr_method (e_proc e)) r (e_body e) :: l.
Proof.
  intros E. destruct (first_poll (e_proc e) (e_value e) (e_body e) c r n E) as [t T]. cbn [session].
  match goal with |- context [let '(_, _) := ?d in _] => match type of T with fst ?d' = _ => change d' with d in T end; destruct d as [t' o] end.
  cbn [fst] in T. subst t'.
  destruct o as [[k|v b c']|k| |]; eexists; reflexivity.
Qed.

(** What one call does when the response is there. *)
Lemma call_alone (p : proc) v (body : bytes) c r h b rest hs v1 : client_end w inbox ->
  encode_request (pr_entry p) v (N.of_nat (length body)) = Ok r -> inbox c = (h, match pr_method p with MHead => None | _ => Some b end) :: rest ->
  deliver (pb_headers h) = Some hs -> de_response (code_of (pb_status h)) hs (pr_resp p) = Ok v1 ->
  exists c0 n0, inbox c0 = rest /\ (forall n, (n0 <= n)%nat ->
    exists t, drive w p n (call_new (v, body) (Ready c)) = (t, Ok (Done v1 (match pr_method p with MHead => [] | _ => b end) c0)) /\
      asked_by p t = [mkAsking (pr_method p) r body]) /\
    (forall n, match drive w p n (call_new (v, body) (Ready c)) with
               | (t, Ok (Done v' b' c')) => v' = v1 /\ c' = c0 /\ asked_by p t = [mkAsking (pr_method p) r body]
               | (t, _) => prefix (asked_by p t) [mkAsking (pr_method p) r body]
               end).
Proof.
  intros Ce En In De Dv. destruct (ce_write _ _ Ce r body c) as (c1 & W1 & I1). rewrite In in I1.
  destruct (ce_read _ _ Ce c1 h _ rest I1) as (x & Wh & Xc & Xh & Xb). specialize (Xh hs De).
  assert (Sq : exists c0, inbox c0 = rest /\ snd (sequential w p v body (Ready c)) = Yields v1 (match pr_method p with MHead => [] | _ => b end) c0 /\
    asked_by p (fst (sequential w p v body (Ready c))) = [mkAsking (pr_method p) r body]).
  { unfold sequential. cbn [settle after]. rewrite En. cbn [doing snd fst]. rewrite W1. cbn [after doing snd fst]. rewrite Wh. cbn [after]. unfold decoding.
    destruct (pr_method p) eqn:M;
      try (destruct Xb as (c' & Wb & Ib); exists c'; split; [exact Ib|]; cbn [doing snd fst]; rewrite Wb; cbn [after snd fst r_code r_headers r_conn];
           rewrite Xc, Xh, Dv; split; [reflexivity | cbn [asked_by flat_map app]; rewrite M; reflexivity]).
    exists (r_conn x). split; [exact Xb|]. rewrite Xc, Xh, Dv. split; [reflexivity | cbn [asked_by flat_map app snd fst]; rewrite M; reflexivity]. }
  destruct Sq as (c0 & I0 & Sq & Ask).
  destruct (call_finishes w p v body (Ready c)) as [n0 Fi]; [rewrite Sq; discriminate|].
  exists c0, n0. split; [exact I0|]. split.
  - intros n Le. specialize (Fi n Le). pose proof (call_steps w p v body (Ready c) n) as St.
    match type of Fi with over (snd ?d) => match goal with |- exists t, ?d' = _ /\ _ => change d' with d end; destruct d as [t o] end.
    cbn [snd] in Fi. destruct o as [[k'|v' b' c']|k'| |]; [elim Fi| | | |]; destruct St as [T St]; rewrite Sq in St; cbn [reads_as] in St; try discriminate St.
    exists t. rewrite T, Ask. split; [congruence | reflexivity].
  - intros n. pose proof (call_steps w p v body (Ready c) n) as St.
    match goal with |- match ?d with _ => _ end => match type of St with let '(_, _) := ?d' in _ => change d' with d in St end; destruct d as [t o] end.
    destruct o as [[k'|v' b' c']|k'| |].
    + destruct St as [t' T]. rewrite T, asked_app in Ask. exists (asked_by p t'). symmetry. exact Ask.
    + destruct St as [T St]. rewrite Sq in St. cbn [reads_as] in St. injection St as -> _ ->. rewrite T. auto.
    + destruct St as [T St]. rewrite Sq in St. discriminate St.
    + destruct St as [T St]. rewrite Sq in St. discriminate St.
    + destruct St as [T St]. rewrite Sq in St. discriminate St.
Qed.

(** One exchange of the server. *)
Lemma conversation_step f s q s' h b n : settle f = Comes s -> settle (l_read ln s) = Comes (Got q) -> reply_to explain reason ln ps q = Sends s' h b ->
  replied (fst (conversation (S n) f)) = (h, match q_method q with MHead => None | _ => Some b end)
    :: replied (fst (conversation n (l_write ln h (match q_method q with MHead => None | _ => Some b end) s'))).
Proof.
  intros S Q E. cbn [ServerSpec.conversation]. rewrite S. cbn [then_ performing fst]. rewrite Q. cbn [then_]. rewrite E.
  destruct (q_method q); reflexivity.
Qed.

Lemma answered_from : forall es os c f s n1, server_end ln queue content -> client_end w inbox -> Forall2 meant es os -> settle f = Comes s ->
  (forall n, (n1 <= n)%nat -> prefix (fst (session w n es c)) (queue s)) ->
  (forall n, prefix (replied (fst (conversation n f))) (inbox c)) ->
  exists n0, forall n, (n0 <= n)%nat -> snd (session w n es c) = os /\ length (fst (session w n es c)) = length es.
Proof.
  induction es as [|e es IH]; intros os c f s n1 Se Ce Me Sf Qs Is; inversion Me as [|? o ? os' M1 Me']; subst; [exists O; split; reflexivity|].
  destruct M1 as (r & En & Mq). destruct (session_asks n1 e es c r En) as [l0 A0].
  pose proof (Qs (S n1) ltac:(lia)) as Q0. rewrite A0 in Q0. apply prefix_head in Q0. destruct Q0 as (rest & Hq & _).
  destruct (se_read _ _ _ Se s _ _ Hq) as (q & Rd & Rq & Qq). destruct (Mq q Rq) as (s' & h & b & hs & Rp & Qs' & De & Dv & Ob).
  set (body := match q_method q with MHead => None | _ => Some b end).
  pose proof (fun n => conversation_step f s q s' h b n Sf Rd Rp) as Cs. fold body in Cs.
  pose proof (Is 1%nat) as I1. rewrite Cs in I1. apply prefix_head in I1. destruct I1 as (irest & Hi & _).
  assert (Hb : body = match pr_method (e_proc e) with MHead => None | _ => Some b end) by (unfold body; destruct Rq as (-> & _); reflexivity).
  destruct (call_alone (e_proc e) (e_value e) (e_body e) c r h b irest hs (fst o) Ce En ltac:(rewrite <- Hb; exact Hi) De Dv) as (c0 & n0 & I0 & Dr & _).
  destruct (se_write _ _ _ Se h body s') as (s2 & W2 & Q2).
  assert (Sn : forall n, (n0 <= n)%nat -> session w n (e :: es) c =
    (mkAsking (pr_method (e_proc e)) r (e_body e) :: fst (session w n es c0), o :: snd (session w n es c0))).
  { intros n L. destruct (Dr n L) as (t & D & A). cbn [session]. rewrite D, A, <- Ob, <- surjective_pairing. reflexivity. }
  destruct (IH os' c0 (l_write ln h body s') s2 (Nat.max n0 n1) Se Ce Me' W2) as [n2 Q].
  - intros n L. specialize (Qs n ltac:(lia)). rewrite (Sn n ltac:(lia)), Hq in Qs. cbn [fst] in Qs. apply (proj1 (prefix_cons _ _ _)) in Qs. rewrite Q2, Qs', Qq. exact Qs.
  - intros n. specialize (Is (S n)). rewrite Cs, Hi in Is. apply (proj1 (prefix_cons _ _ _)) in Is. rewrite I0. exact Is.
  - exists (Nat.max n0 n2). intros n L. rewrite (Sn n ltac:(lia)). destruct (Q n ltac:(lia)) as [A B]. cbn [fst snd length]. rewrite A, B. split; reflexivity.
Qed.

Theorem calls_in_turn es os c s : server_end ln queue content -> client_end w inbox -> in_order explain reason w ln ps inbox queue es c s ->
  Forall2 meant es os -> exists n0, forall n, (n0 <= n)%nat -> snd (session w n es c) = os.
Proof.
  intros Se Ce [Qs Is] Me. destruct (answered_from es os c (Ready s) s O Se Ce Me eq_refl (fun n _ => Qs n) (conversation_in_order s _ Is)) as [n0 Q].
  exists n0. intros n L. apply Q. exact L.
Qed.

Lemma reads_unique (a : asking) (q : request SConn) : reads_request content a q -> q_target q = rb_target (a_request a) /\ q_method q = a_method a.
Proof. intros (A & B & _). auto. Qed.

Theorem served_meant e o : served ps queue content e o -> meant e o.
Proof.
  intros [p hp n pa qu hd ss l body mk v1 b1 Pm Pe I Un Pl Ne Ty Pf Ps Fo Qf Pq Hf Sf Hb Hc Su]. unfold SessionSpec.meant. cbn [e_proc e_value e_body].
  destruct (request_arrives _ (registrations ps) (hp_method hp) (hp_entry hp) hp n pa qu hd ss l (N.of_nat (length body)) I Un Pl Ne Pf Ps Fo Qf Pq Hf Sf)
    as (r & x & hs & En & De & Pu & Ro & Dr).
  set (v := SStruct n (value_parts pa qu hd)) in *. exists r. rewrite Pe. split; [exact En|].
  intros q (Qm & Qt & Qh & Qb). cbn [a_method a_request a_body] in *. specialize (Qh hs De).
  destruct (Hb q Qb) as (q' & Hb' & Qq). destruct (suits_arrives _ _ (N.of_nat (length b1)) Su) as (h & hs1 & Er & Dh & Dv).
  exists (q_conn q'), h, b1, hs1. split; [|split; [exact Qq|split; [exact Dh|split; [exact Dv | reflexivity]]]].
  rewrite <- on_request_is. unfold Server.on_request. rewrite Qt, Pu, Qm, Pm, Ro. cbn [bind]. unfold handle. rewrite Qh, Ty, Dr. cbn [reads_reply].
  rewrite settle_bind, Hb', settle_bind, settle_no_error, Hc. cbn [settle once]. unfold serialize. unfold encode_response in Er.
  destruct (ser_response v1 sser_new) as [s|k| |]; cbn [bind] in Er |- *; try discriminate. rewrite Er. reflexivity.
Qed.

(** What a refusal reads as, whatever request it answers. *)
Lemma problem_reads `{J : jsonfloat} url_norm p st n variants x :
  problem_ok url_norm p -> code_of st = problem_status p -> status_from_str x = Ok st -> assoc x variants = Some (VNewtype pr_ty) ->
  exists hs v, deliver [(u "content-type", u "application/problem+json"); content_length (N.of_nat (length (problem_text p)))] = Some hs /\
    de_response (code_of st) hs (TEnum n variants) = Ok (SNewtypeVariant n x v) /\
    exists d, pr_decoded reason v = Some d /\ pr_set_body url_norm d (problem_text p) = mkPresp None p.
Proof.
  intros O C X A. destruct (problem_arrives url_norm reason p p (N.of_nat (length (problem_text p))) n variants x st O C (proj1 O) X A)
    as (r1 & hs & b & v & E & B & S & Dl & Dr & d & Pd & Ps). change (pr_value (set_problem (into_response p) p)) with (pr_value (into_response p)) in E.
  destruct (presp_sent (into_response p) (problem_status p) (N.of_nat (length (problem_text p))) eq_refl (proj1 O)) as [Q _]. rewrite (Q st C) in E. injection E as <-.
  change (pr_body (into_response p)) with (problem_body p) in B. change (pr_body (set_problem (into_response p) p)) with (problem_body p) in B. rewrite problem_body_is in B. injection B as <-.
  exists hs, v. split; [exact Dl|]. split; [exact Dr|]. eauto.
Qed.

(** Calls refused by the router are answered with the problem saying so. *)
Theorem refused_meant `{J : jsonfloat} (p : proc) url_norm v body r segs qs no n variants x : server_end ln queue content ->
  encode_request (pr_entry p) v (N.of_nat (length body)) = Ok r -> parse_url (rb_target r) = Some (mkUrl (Some segs) qs) ->
  route_spec (accepted (registrations ps)) (pr_method p) segs = inr no ->
  pr_method p <> MHead -> pr_resp p = TEnum n variants -> status_from_str x = Ok (status_of no) -> assoc x variants = Some (VNewtype pr_ty) ->
  str_ok (reason (status_of no)) = true ->
  exists v1 b d, meant (mkErrand p v body) (SNewtypeVariant n x v1, b) /\
    pr_decoded reason v1 = Some d /\ pr_set_body url_norm d b = mkPresp None (AboutBlank (reason (status_of no)) (code_of (status_of no))).
Proof.
  intros Se En Pu Ro Nh Ty X A So. set (pb := AboutBlank (reason (status_of no)) (code_of (status_of no))).
  assert (Ok' : problem_ok url_norm pb) by (split; [destruct no; reflexivity | exact So]).
  destruct (problem_reads url_norm pb (status_of no) n variants x Ok' eq_refl X A) as (hs & v1 & De & Dv & d & Pd & Pb).
  exists v1, (problem_text pb), d. split; [|auto]. exists r. split; [exact En|]. cbn [e_proc e_body fst snd].
  intros q (Qm & Qt & Qh & Qb). cbn [a_method a_request a_body] in *. destruct (se_drain _ _ _ Se q) as (q' & Dq & Qq).
  exists (q_conn q'), (mkRespb (status_of no) [(u "content-type", u "application/problem+json"); content_length (N.of_nat (length (problem_text pb)))]), (problem_text pb), hs.
  split; [|split; [exact Qq|split; [|split; [rewrite Ty; exact Dv | destruct (pr_method p); congruence]]]].
  - unfold reply_to. rewrite Qt, Pu, Qm. unfold registrations in Ro. rewrite Ro. destruct no; unfold refusal; rewrite Dq; reflexivity.
  - exact De.
Qed.
(** So are those whose request the server cannot read as the type it expects. *)
Theorem invalid_meant `{J : jsonfloat} (p : proc) url_norm v body r hs segs qs (hp : hproc SConn R) k n variants y t d0 h : server_end ln queue content ->
  encode_request (pr_entry p) v (N.of_nat (length body)) = Ok r -> deliver (rb_headers r) = Some hs -> parse_url (rb_target r) = Some (mkUrl (Some segs) qs) ->
  route_spec (accepted (registrations ps)) (pr_method p) segs = inl hp ->
  de_request (hp_entry hp) (mkUrl (Some segs) qs) hs (hp_req hp) = Err k ->
  (forall q, reads_request content (mkAsking (pr_method p) r body) q -> explain q k = (t, d0, h)) -> problem_ok url_norm (Trackable t 400 d0 None h) ->
  pr_method p <> MHead -> pr_resp p = TEnum n variants -> status_from_str y = Ok StBadRequest -> assoc y variants = Some (VNewtype pr_ty) ->
  exists v1 b d, meant (mkErrand p v body) (SNewtypeVariant n y v1, b) /\
    pr_decoded reason v1 = Some d /\ pr_set_body url_norm d b = mkPresp None (Trackable t 400 d0 None h).
Proof.
  intros Se En De Pu Ro Dr Ex Ok' Nh Ty X A. set (pb := Trackable t 400 d0 None h) in *.
  destruct (problem_reads url_norm pb StBadRequest n variants y Ok' eq_refl X A) as (hs1 & v1 & De1 & Dv & d & Pd & Pb).
  exists v1, (problem_text pb), d. split; [|auto]. exists r. split; [exact En|]. cbn [e_proc e_body fst snd].
  intros q Rq. pose proof Rq as (Qm & Qt & Qh & Qb). cbn [a_method a_request a_body] in *. destruct (se_drain _ _ _ Se q) as (q' & Dq & Qq).
  exists (q_conn q'), (mkRespb StBadRequest [(u "content-type", u "application/problem+json"); content_length (N.of_nat (length (problem_text pb)))]), (problem_text pb), hs1.
  split; [|split; [exact Qq|split; [|split; [rewrite Ty; exact Dv | destruct (pr_method p); congruence]]]].
  - unfold reply_to. rewrite Qt, Pu, Qm. unfold registrations in Ro. rewrite Ro, (Qh hs De), Dr. unfold invalid_request, refusal. rewrite (Ex q Rq), Dq. reflexivity.
  - exact De1.
Qed.
End Proofs.

(** ** The scripted network *)
Section Scripted.
Context `{F : floatlib} `{U : urlenv} `{W : httpenv} {R : Type}.
Variable explain : request sconn -> ekind -> ustr * option ustr * option (list ustr).
Variable reason : status -> ustr.
Variable ps : list (hproc sconn R).
Notation conversation := (conversation explain reason script_link ps).

Lemma script_server : server_end script_link sc_queue sc_content.
Proof.
  split.
  - intros s a rest E. cbn [l_read script_link]. rewrite E. eexists. split; [reflexivity|]. split; [|reflexivity].
    repeat split. cbn [q_headers]. intros hs D. unfold arrived. rewrite D. reflexivity.
  - intros h b s. exists s. split; reflexivity.
  - intros q. exists q. split; reflexivity.
Qed.
Lemma script_client : client_end script_wire (fun c => c).
Proof.
  split.
  - intros r b c. exists c. split; reflexivity.
  - intros c h b rest ->. cbn [w_head script_wire]. destruct b as [b|]; (eexists; split; [reflexivity|]; split; [reflexivity|]);
      (split; [intros hs D; cbn [r_headers]; unfold arrived; rewrite D; reflexivity|]); [eexists; split; reflexivity | reflexivity].
Qed.

Lemma script_exists : forall es os, Forall2 (meant explain reason script_link ps sc_queue sc_content) es os ->
  exists las rs, (forall n, prefix (fst (session script_wire n es rs)) las) /\
    forall x f, settle f = Comes (mkSconn las x) -> forall n, prefix (replied (fst (conversation n f))) rs.
Proof.
  induction es as [|e es IH]; intros os Me; inversion Me as [|? o ? os' M1 Me']; subst.
  - exists [], []. split; [intros n; apply prefix_nil|]. intros x f S [|n]; [apply prefix_nil|]. cbn [ServerSpec.conversation]. rewrite S. apply prefix_nil.
  - destruct (IH os' Me') as (las & rs & Q1 & Q2). destruct M1 as (r & En & Mq).
    set (a := mkAsking (pr_method (e_proc e)) r (e_body e)) in *.
    set (q := mkRequest (a_method a) (rb_target (a_request a)) (arrived (rb_headers (a_request a))) (mkSconn las (a_body a))).
    assert (Rq : reads_request sc_content a q) by (repeat split; intros hs D; unfold q, arrived; cbn [q_headers]; rewrite D; reflexivity).
    destruct (Mq q Rq) as (s & h & b & hs & Rp & Qs & De & Dv & Ob).
    set (body := match pr_method (e_proc e) with MHead => None | _ => Some b end).
    exists (a :: las), ((h, body) :: rs).
    destruct (call_alone script_wire (fun c => c) (e_proc e) (e_value e) (e_body e) ((h, body) :: rs) r h b rs hs (fst o) script_client En eq_refl De Dv)
      as (c0 & n0 & -> & _ & Dr). split.
    + intros n. specialize (Dr n). cbn [session]. destruct (drive _ _ _ _) as [t [[k|v' b' c']|k| |]]; cbn [fst];
        try (destruct Dr as [l E]; destruct (asked_by (e_proc e) t) as [|y [|]]; [apply prefix_nil | injection E as <- _; exists las; reflexivity | discriminate E]).
      destruct Dr as (_ & -> & ->). cbn [app]. apply prefix_cons. apply Q1.
    + intros x f Sf [|n]; [apply prefix_nil|]. rewrite (conversation_step explain reason script_link ps f _ q s h b n Sf eq_refl Rp).
      change (q_method q) with (pr_method (e_proc e)). fold body. apply prefix_cons. apply (Q2 (sc_content s)).
      cbn [l_write script_link settle]. destruct s as [sq sb]. cbn in Qs |- *. rewrite Qs. reflexivity.
Qed.
Theorem script_in_order es os : Forall2 (meant explain reason script_link ps sc_queue sc_content) es os ->
  exists c s, in_order explain reason script_wire script_link ps (fun c => c) sc_queue es c s.
Proof.
  intros M. destruct (script_exists es os M) as (las & rs & Q1 & Q2). exists rs, (mkSconn las []). split; [exact Q1|].
  intros k. specialize (Q2 [] (Ready (mkSconn las [])) eq_refl k). pose proof (rounds_conversation explain reason script_link ps k k (Ready (mkSconn las [])) (le_n k)) as Q.
  match type of Q with let '(_, _) := ?d in _ => change (prefix (replied (fst d)) rs); destruct d as [l s] end. cbn [fst].
  destruct (ended s); [rewrite Q in Q2; exact Q2|]. destruct Q as [l' Q]. rewrite Q, replied_app in Q2. exact (prefix_app _ _ _ Q2).
Qed.
End Scripted.
