(** * Proofs about calls over byte streams (C70). *)
From Verif Require Import Base Utf8 Decimal DepUrl Serde Procedure ScalarSpec PathSpec FieldSpec Status SerHeader SerRequest SerResponse DeHeader DeRequest DeResponse Router RouterSpec RouterProofs DepHttp
  UrlProofs PathProofs PathTrip HeaderProofs RequestSpec RequestProofs RequestArrives ResponseProofs ResponseTrip Json JsonText Problem ProblemSpec ProblemProofs
  Error Client ClientSpec ClientProofs Server ServerSpec ServerProofs EndToEndSpec EndToEnd SessionSpec SessionProofs HttpBytes HttpBytesSpec HttpBytesProofs.
Open Scope N_scope.

Lemma some_inj {A} (x y : A) : Some x = Some y -> x = y.
Proof. congruence. Qed.
Lemma prefix_bytes {A} (x l1 l2 : list A) : prefix (x ++ l1) (x ++ l2) <-> prefix l1 l2.
Proof.
  split; intros [l E]; exists l.
  - rewrite <- app_assoc in E. exact (app_inv_head _ _ _ E).
  - rewrite E, app_assoc. reflexivity.
Qed.
Lemma prefix_split {A} (x l1 l2 : list A) : prefix (x ++ l1) l2 -> exists l, l2 = x ++ l.
Proof. intros [l ->]. exists (l1 ++ l). rewrite app_assoc. reflexivity. Qed.

Section Proofs.
Context `{F : floatlib} `{U : urlenv} {R : Type}.
Variable explain : request bconn -> ekind -> ustr * option ustr * option (list ustr).
Variable reason : status -> ustr.
Variables (trims : bool) (uri_byte : N -> bool) (cl sl : limits).
Variable ps : list (hproc bconn R).
Notation w := (byte_wire trims cl).
Notation ln := (byte_link trims uri_byte sl).
Notation exchanged := (exchanged explain reason trims uri_byte cl sl ps).
Notation conversation := (conversation explain reason ln ps).

(** ** One message *)
Lemma request_read c m r body z : fit_request uri_byte sl m r body -> stream c = request_head m r ++ body ++ z ->
  exists q, settle (l_read ln c) = Comes (Got q) /\ q_method q = m /\ q_target q = rb_target r /\ q_headers q = rb_headers r /\ waiting (q_conn q) body z /\ b_closed (q_conn q) = b_closed c.
Proof.
  intros [[Nt Tt] Sf Lg Lb Lc] E. unfold stream in E. cbn [l_read byte_link]. unfold byte_read. rewrite settle_bind.
  destruct (head_comes (qstep trims uri_byte (most_headers sl)) QStart (most_bytes sl) (b_closed c) (request_head m r) _ (run_request trims uri_byte _ m r Nt Tt Sf Lc) Lb _ _ _ E)
    as (held & coming & -> & Q).
  eexists. split; [reflexivity|]. repeat split. cbn [q_conn b_left]. rewrite (told_length _ _ Lg), Nnat.Nat2N.id. reflexivity.
  exact Q.
Qed.
Lemma request_content_length c m r body z : fit_request uri_byte sl m r body -> stream c = request_head m r ++ body ++ z ->
  exists q, settle (l_read ln c) = Comes (Got q) /\ content_length (q_conn q) = Some (N.of_nat (length body)) /\
    forall b c', settle (read_body (q_conn q)) = Comes (b, c') -> b = body /\ content_length c' = Some 0.
Proof.
  intros Ft E. destruct (request_read c m r body z Ft E) as (q & Eq & _ & _ & _ & W & _). exists q. split; [exact Eq|]. split; [unfold content_length; rewrite (proj1 W); reflexivity|].
  intros b c' Eb. destruct (body_comes _ _ _ W) as (c1 & E1 & _ & _ & L). rewrite E1 in Eb. injection Eb as <- <-. split; [reflexivity|]. unfold content_length. rewrite L. reflexivity.
Qed.
Lemma response_read c h body z : fit_response reason cl h body -> stream c = response_head reason h ++ z ->
  exists x, settle (w_head w c) = Comes x /\ r_code x = code_of (pb_status h) /\ r_headers x = pb_headers h /\ b_left (r_conn x) = Some (length body) /\ stream (r_conn x) = z /\ b_closed (r_conn x) = b_closed c.
Proof.
  intros [V Sf Lg Lb Lc] E. unfold stream in E. cbn [w_head byte_wire]. unfold byte_head. rewrite settle_bind.
  destruct (head_comes (pstep trims (most_headers cl)) (PVersion (u "HTTP/1.1 ")) (most_bytes cl) (b_closed c) (response_head reason h) _ (run_response trims _ reason h V Sf Lc) Lb _ _ _ E)
    as (held & coming & -> & Q).
  eexists. split; [reflexivity|]. repeat split; [|exact Q]. cbn [r_conn b_left]. rewrite (told_length _ _ Lg), Nnat.Nat2N.id. reflexivity.
Qed.
Lemma drained q body z : waiting (q_conn q) body z -> exists q', settle (l_drain ln q) = Comes q' /\ q_method q' = q_method q /\ q_target q' = q_target q /\ q_headers q' = q_headers q /\ stream (q_conn q') = z.
Proof.
  intros W. destruct (body_comes _ _ _ W) as (c' & E & St & _). cbn [l_drain byte_link]. rewrite settle_bind, E. eexists. split; [reflexivity|]. auto.
Qed.
Lemma body_read x body z : waiting (r_conn x) body z -> exists c', settle (w_body w x) = Comes (mkResponse (r_code x) (r_headers x) c', body) /\ stream c' = z.
Proof. intros W. destruct (body_comes _ _ _ W) as (c' & E & St & _). cbn [w_body byte_wire]. rewrite settle_bind, E. eexists. split; [reflexivity | exact St]. Qed.

(** ** One call *)
Lemma call_bytes (p : proc) v (body : bytes) c r h b rest v1 :
  encode_request (pr_entry p) v (N.of_nat (length body)) = Ok r -> fit_response reason cl h b ->
  stream c = replying_bytes reason (h, match pr_method p with MHead => None | _ => Some b end) ++ rest ->
  de_response (code_of (pb_status h)) (pb_headers h) (pr_resp p) = Ok v1 ->
  exists c0 n0, stream c0 = rest /\ (forall n, (n0 <= n)%nat ->
    exists t, drive w p n (call_new (v, body) (Ready c)) = (t, Ok (Done v1 (match pr_method p with MHead => [] | _ => b end) c0)) /\
      asked_by p t = [mkAsking (pr_method p) r body]) /\
    (forall n, match drive w p n (call_new (v, body) (Ready c)) with
               | (t, Ok (Done v' b' c')) => c' = c0 /\ asked_by p t = [mkAsking (pr_method p) r body]
               | (t, _) => prefix (asked_by p t) [mkAsking (pr_method p) r body]
               end).
Proof.
  intros En Ft Sc Dv. unfold replying_bytes in Sc. cbn [fst snd] in Sc. rewrite <- app_assoc in Sc.
  destruct (response_read c h b _ Ft Sc) as (x & Wh & Xc & Xh & Xl & Xs & _).
  assert (Sq : exists c0, stream c0 = rest /\ snd (sequential w p v body (Ready c)) = Yields v1 (match pr_method p with MHead => [] | _ => b end) c0 /\
    asked_by p (fst (sequential w p v body (Ready c))) = [mkAsking (pr_method p) r body]).
  { unfold sequential. cbn [settle after]. rewrite En. cbn [doing snd fst w_write byte_wire settle after]. rewrite Wh. cbn [after]. unfold decoding.
    destruct (pr_method p) eqn:M;
      try (destruct (body_read x b rest (conj Xl Xs)) as (c' & Wb & Ib); exists c'; split; [exact Ib|]; cbn [doing snd fst]; rewrite Wb; cbn [after snd fst r_code r_headers r_conn];
           rewrite Xc, Xh, Dv; split; [reflexivity | cbn [asked_by flat_map app]; rewrite M; reflexivity]).
    exists (r_conn x). split; [exact Xs|]. rewrite Xc, Xh, Dv. split; [reflexivity | cbn [asked_by flat_map app snd fst]; rewrite M; reflexivity]. }
  destruct Sq as (c0 & I0 & Sq & Ask).
  destruct (call_finishes w p v body (Ready c)) as [n0 Fi]; [rewrite Sq; discriminate|].
  exists c0, n0. split; [exact I0|]. split.
  - intros n Le. specialize (Fi n Le). pose proof (call_steps w p v body (Ready c) n) as St.
    match type of Fi with over (snd ?d) => match goal with |- exists t, ?d' = _ /\ _ => change d' with d end; destruct d as [t o] end.
    cbn [snd] in Fi. destruct o as [[k'|v' b' c']|k'| |]; [elim Fi| | | |]; destruct St as [T St]; rewrite Sq in St; cbn [reads_as] in St; try discriminate St.
    exists t. rewrite T, Ask. split; [congruence | reflexivity].
  - intros n. pose proof (call_steps w p v body (Ready c) n) as St.
    match goal with |- match ?d with _ => _ end => match type of St with let '(_, _) := ?d' in _ => change d' with d in St end; destruct d as [t o] end.
    destruct o as [[k'|v' b' c']|k'| |].
    + destruct St as [t' T]. rewrite T, asked_app in Ask. exists (asked_by p t'). symmetry. exact Ask.
    + destruct St as [T St]. rewrite Sq in St. cbn [reads_as] in St. injection St as _ _ ->. rewrite T. auto.
    + destruct St as [T St]. rewrite Sq in St. discriminate St.
    + destruct St as [T St]. rewrite Sq in St. discriminate St.
    + destruct St as [T St]. rewrite Sq in St. discriminate St.
Qed.

(** ** Calls in turn *)
Lemma conversation_bytes s l : (forall k, prefix (flat_map (replying_bytes reason) (replied (fst (rounds explain reason ln (build (registrations ps)) k (task_new (Ready s)))))) l) ->
  forall n, prefix (flat_map (replying_bytes reason) (replied (fst (conversation n (Ready s))))) l.
Proof.
  intros Q n. destruct (conversation_rounds explain reason ln ps n (Ready s)) as (k & a & E & _). specialize (Q k).
  rewrite E, replied_app, flat_map_app in Q. exact (prefix_app _ _ _ Q).
Qed.
Lemma exchanged_from : forall es os c f s n1, Forall2 exchanged es os -> settle f = Comes s ->
  (forall n, (n1 <= n)%nat -> prefix (flat_map asking_bytes (fst (session w n es c))) (stream s)) ->
  (forall n, prefix (flat_map (replying_bytes reason) (replied (fst (conversation n f)))) (stream c)) ->
  exists n0, forall n, (n0 <= n)%nat -> snd (session w n es c) = os /\ length (fst (session w n es c)) = length es.
Proof.
  induction es as [|e es IH]; intros os c f s n1 Me Sf Qs Is; inversion Me as [|? o ? os' M1 Me']; subst; [exists O; split; reflexivity|].
  destruct M1 as (r & En & Fq & Mq). destruct (session_asks w n1 e es c r En) as [l0 A0].
  pose proof (Qs (S n1) ltac:(lia)) as Q0. rewrite A0 in Q0. cbn [flat_map] in Q0. apply prefix_split in Q0. destruct Q0 as (rest & Hq).
  pose proof Hq as Hq'. unfold asking_bytes in Hq'. cbn [a_method a_request a_body] in Hq'. rewrite <- app_assoc in Hq'.
  destruct (request_read s _ _ _ _ Fq Hq') as (q & Rd & Rm & Rt & Rh & Rw & _). destruct (Mq q rest Rm Rt Rh Rw) as (s' & h & b & Rp & Ss & Fp & Dv & Ob).
  set (body := match q_method q with MHead => None | _ => Some b end).
  pose proof (fun n => conversation_step explain reason ln ps f s q s' h b n Sf Rd Rp) as Cs. fold body in Cs.
  pose proof (Is 1%nat) as I1. rewrite Cs in I1. cbn [flat_map] in I1. apply prefix_split in I1. destruct I1 as (irest & Hi).
  assert (Hb : body = match pr_method (e_proc e) with MHead => None | _ => Some b end) by (unfold body; rewrite Rm; reflexivity).
  destruct (call_bytes (e_proc e) (e_value e) (e_body e) c r h b irest (fst o) En Fp ltac:(rewrite <- Hb; exact Hi) Dv) as (c0 & n0 & I0 & Dr & _).
  assert (Sn : forall n, (n0 <= n)%nat -> session w n (e :: es) c =
    (mkAsking (pr_method (e_proc e)) r (e_body e) :: fst (session w n es c0), o :: snd (session w n es c0))).
  { intros n L. destruct (Dr n L) as (t & D & A). cbn [session]. rewrite D, A, <- Ob, <- surjective_pairing. reflexivity. }
  destruct (IH os' c0 (l_write ln h body s') s' (Nat.max n0 n1) Me' eq_refl) as [n2 Q].
  - intros n L. specialize (Qs n ltac:(lia)). rewrite (Sn n ltac:(lia)), Hq in Qs. cbn [fst flat_map] in Qs. apply (proj1 (prefix_bytes _ _ _)) in Qs. rewrite Ss. exact Qs.
  - intros n. specialize (Is (S n)). rewrite Cs, Hi in Is. cbn [flat_map] in Is. apply (proj1 (prefix_bytes _ _ _)) in Is. rewrite I0. exact Is.
  - exists (Nat.max n0 n2). intros n L. rewrite (Sn n ltac:(lia)). destruct (Q n ltac:(lia)) as [A B]. cbn [fst snd length]. rewrite A, B. split; reflexivity.
Qed.
Theorem calls_over_bytes es os c s : same_bytes explain reason trims uri_byte cl sl ps es c s -> Forall2 exchanged es os ->
  exists n0, forall n, (n0 <= n)%nat -> snd (session w n es c) = os.
Proof.
  intros [Qs Is] Me. destruct (exchanged_from es os c (Ready s) s O Me eq_refl (fun n _ => Qs n) (conversation_bytes s _ Is)) as [n0 Q].
  exists n0. intros n L. apply Q. exact L.
Qed.

(** ** Streams on which calls are so answered *)
Lemma empty_head {S A} (g : S -> N -> step S A) s0 room closed : forall coming, concat coming = [] -> forall x a b, settle (read_head (run g s0) room closed [] coming) <> Comes (Came x a b).
Proof.
  induction coming as [|p coming IH]; intros E x a b; cbn [read_head run length].
  - destruct (Nat.leb_spec room 0); [discriminate|]. destruct closed; discriminate.
  - cbn [concat] in E. apply app_eq_nil in E. destruct E as [-> E]. destruct (Nat.leb_spec room 0); [discriminate|].
    cbv zeta. cbn [length app Nat.leb settle]. apply IH. exact E.
Qed.
Lemma empty_conversation f s n : settle f = Comes s -> stream s = [] -> replied (fst (conversation n f)) = [].
Proof.
  intros Sf E. destruct n as [|n]; [reflexivity|]. cbn [ServerSpec.conversation]. rewrite Sf. cbn [then_ performing fst].
  cbn [l_read byte_link]. unfold byte_read. rewrite settle_bind. unfold stream in E. apply app_eq_nil in E. destruct E as [Eh Ec]. rewrite Eh.
  pose proof (empty_head (qstep trims uri_byte (most_headers sl)) QStart (most_bytes sl) (b_closed s) (b_coming s) Ec) as N.
  destruct (settle (read_head _ _ _ _ _)) as [[x a b| |]|e|]; try reflexivity. elim (N x a b eq_refl).
Qed.
Lemma streams_from : forall es os, Forall2 exchanged es os -> exists sent, forall f s, settle f = Comes s -> stream s = sent -> exists back, forall c, stream c = back ->
  (forall n, prefix (flat_map asking_bytes (fst (session w n es c))) sent) /\
  (forall n, prefix (flat_map (replying_bytes reason) (replied (fst (conversation n f)))) back).
Proof.
  induction es as [|e es IH]; intros os Me; inversion Me as [|? o ? os' M1 Me']; subst.
  - exists []. intros f s Sf Ss. exists []. intros c _. split; intros n; [apply prefix_nil|]. rewrite (empty_conversation f s n Sf Ss). apply prefix_nil.
  - destruct (IH os' Me') as [sent Q]. destruct M1 as (r & En & Fq & Mq). set (a := mkAsking (pr_method (e_proc e)) r (e_body e)).
    exists (asking_bytes a ++ sent). intros f s Sf Ss. pose proof Ss as Hq'. unfold asking_bytes in Hq'. cbn [a a_method a_request a_body] in Hq'. rewrite <- app_assoc in Hq'.
    destruct (request_read s _ _ _ _ Fq Hq') as (q & Rd & Rm & Rt & Rh & Rw & _). destruct (Mq q sent Rm Rt Rh Rw) as (s' & h & b & Rp & Ss' & Fp & Dv & Ob).
    set (body := match q_method q with MHead => None | _ => Some b end).
    pose proof (fun n => conversation_step explain reason ln ps f s q s' h b n Sf Rd Rp) as Cs. fold body in Cs.
    assert (Hb : body = match pr_method (e_proc e) with MHead => None | _ => Some b end) by (unfold body; rewrite Rm; reflexivity).
    destruct (Q (l_write ln h body s') s' eq_refl Ss') as [back Qb]. exists (replying_bytes reason (h, body) ++ back). intros c Sc.
    destruct (call_bytes (e_proc e) (e_value e) (e_body e) c r h b back (fst o) En Fp ltac:(rewrite <- Hb; exact Sc) Dv) as (c0 & n0 & I0 & _ & Dr).
    destruct (Qb c0 I0) as [Q1 Q2]. split.
    + intros n. specialize (Dr n). cbn [session]. destruct (drive _ _ _ _) as [t [[k|v' b' c']|k| |]]; cbn [fst];
        try (destruct Dr as [l E]; destruct (asked_by (e_proc e) t) as [|y [|]]; [apply prefix_nil | injection E as <- _; cbn [flat_map]; rewrite app_nil_r; eexists; reflexivity | discriminate E]).
      destruct Dr as (-> & ->). cbn [app flat_map]. apply prefix_bytes. apply Q1.
    + intros [|n]; [apply prefix_nil|]. rewrite Cs. cbn [flat_map]. apply prefix_bytes. apply Q2.
Qed.
Theorem streams_exist es os : Forall2 exchanged es os -> exists sent, forall s, stream s = sent -> exists back, forall c, stream c = back ->
  same_bytes explain reason trims uri_byte cl sl ps es c s.
Proof.
  intros M. destruct (streams_from es os M) as [sent Q]. exists sent. intros s Ss. destruct (Q (Ready s) s eq_refl Ss) as [back Qb]. exists back. intros c Sc.
  destruct (Qb c Sc) as [Q1 Q2]. split; [rewrite Ss; exact Q1|]. rewrite Sc. intros k. specialize (Q2 k).
  pose proof (rounds_conversation explain reason ln ps k k (Ready s) (le_n k)) as Qr.
  match type of Qr with let '(_, _) := ?d in _ => change (prefix (flat_map (replying_bytes reason) (replied (fst d))) back); destruct d as [l st] end. cbn [fst].
  destruct (ended st); [rewrite Qr in Q2; exact Q2|]. destruct Qr as [l' Qr]. rewrite Qr, replied_app, flat_map_app in Q2. exact (prefix_app _ _ _ Q2).
Qed.

(** ** Which calls those are *)
Theorem handled_exchanged e o : handled reason uri_byte cl sl ps e o -> exchanged e o.
Proof.
  intros [p hp n pa qu hd ss l body mk v1 b1 Pm Pe I Un Pl Ne Ty Pf Ps Fo Qf Pq Hf Sf Fq Hb Hc Su Fp]. unfold HttpBytesSpec.exchanged. cbn [e_proc e_value e_body].
  destruct (@request_arrives _ _ (byte_http trims) _ (registrations ps) (hp_method hp) (hp_entry hp) hp n pa qu hd ss l (N.of_nat (length body)) I Un Pl Ne Pf Ps Fo Qf Pq Hf Sf)
    as (r & x & hs & En & De & Pu & Ro & Dr).
  set (v := SStruct n (value_parts pa qu hd)) in *. specialize (Fq r En). exists r. rewrite Pe. split; [exact En|]. rewrite Pm. split; [exact Fq|].
  assert (hs = rb_headers r) as ->. { pose proof (@deliver_safe (byte_http trims) _ (fq_headers _ _ _ _ _ Fq)) as D. rewrite D in De. injection De as <-. reflexivity. }
  intros q z Qm Qt Qh Qw. destruct (Hb q z Qw) as (q' & Hb' & Qs).
  destruct (@suits_arrives F (byte_http trims) _ _ (N.of_nat (length b1)) Su) as (h & hs1 & Er & Dh & Dv). specialize (Fp h Er).
  assert (hs1 = pb_headers h) as ->. { pose proof (@deliver_safe (byte_http trims) _ (fp_headers _ _ _ _ Fp)) as D. rewrite D in Dh. injection Dh as <-. reflexivity. }
  exists (q_conn q'), h, b1. split; [|split; [exact Qs|split; [exact Fp|split; [exact Dv | rewrite <- Pm; reflexivity]]]].
  rewrite <- on_request_is. unfold Server.on_request. rewrite Qt, Pu, Qm, Ro. cbn [bind]. unfold handle. rewrite Qh, Ty, Dr. cbn [reads_reply].
  rewrite settle_bind, Hb', settle_bind, settle_no_error, Hc. cbn [settle once]. unfold serialize. unfold encode_response in Er.
  destruct (ser_response v1 sser_new) as [s|k| |]; cbn [bind] in Er |- *; try discriminate. rewrite Er. reflexivity.
Qed.

(** Problems. *)
Lemma problem_fit st text : forallb value_byte (reason st) = true -> (2 <= most_headers cl)%nat ->
  (length (response_head reason (mkRespb st [(u "content-type", u "application/problem+json"); length_header (N.of_nat (length text))])) <= most_bytes cl)%nat ->
  fit_response reason cl (mkRespb st [(u "content-type", u "application/problem+json"); length_header (N.of_nat (length text))]) text.
Proof.
  intros V C B. split; cbn [pb_status pb_headers]; [exact V| | |exact B|exact C].
  - set (n := N.of_nat (length text)). cbn [forallb]. change (safe_header (u "content-type", u "application/problem+json")) with true.
    destruct (show_N_digits n) as (Nn & _ & D). unfold safe_header, length_header. cbn [fst snd].
    replace (forallb value_byte (show_N n)) with true
      by (symmetry; revert D; apply forallb_impl; intros c; cbv beta; unfold is_digit, value_byte; lia).
    replace (edge_blank (show_N n)) with false; [reflexivity|].
    assert (Dg : forall c, In c (show_N n) -> blank c = false) by (intros c Ic; rewrite forallb_forall in D; specialize (D c Ic); unfold is_digit, blank in *; lia).
    unfold edge_blank. destruct (show_N n) as [|c l] eqn:E; [reflexivity|]. rewrite (Dg c (or_introl eq_refl)).
    symmetry. apply Dg. destruct (exists_last Nn) as (l0 & y & Ey). rewrite Ey, last_last. apply in_or_app. right. left. reflexivity.
  - exists [(u "content-type", u "application/problem+json")], (u "Content-Length"), []. split; [reflexivity|]. split; [reflexivity|].
    intros x [<-|[]]. discriminate.
Qed.
Theorem refused_exchanged `{J : jsonfloat} (p : proc) url_norm v body r segs qs no n variants x :
  encode_request (pr_entry p) v (N.of_nat (length body)) = Ok r -> fit_request uri_byte sl (pr_method p) r body ->
  parse_url (rb_target r) = Some (mkUrl (Some segs) qs) ->
  route_spec (accepted (registrations ps)) (pr_method p) segs = inr no ->
  pr_method p <> MHead -> pr_resp p = TEnum n variants -> status_from_str x = Ok (status_of no) -> assoc x variants = Some (VNewtype pr_ty) ->
  str_ok (reason (status_of no)) = true -> forallb value_byte (reason (status_of no)) = true -> (2 <= most_headers cl)%nat ->
  (let text := problem_text (AboutBlank (reason (status_of no)) (code_of (status_of no))) in
   length (response_head reason (mkRespb (status_of no) [(u "content-type", u "application/problem+json"); length_header (N.of_nat (length text))])) <= most_bytes cl)%nat ->
  exists v1 b d, exchanged (mkErrand p v body) (SNewtypeVariant n x v1, b) /\
    pr_decoded reason v1 = Some d /\ pr_set_body url_norm d b = mkPresp None (AboutBlank (reason (status_of no)) (code_of (status_of no))).
Proof.
  intros En Fq Pu Ro Nh Ty X A So Vb Mh Mb. set (pb := AboutBlank (reason (status_of no)) (code_of (status_of no))).
  assert (Ok' : problem_ok url_norm pb) by (split; [destruct no; reflexivity | exact So]). cbv zeta in Mb. fold pb in Mb.
  pose proof (problem_fit (status_of no) (problem_text pb) Vb Mh Mb) as Fp.
  destruct (@problem_reads F (byte_http trims) reason J url_norm pb (status_of no) n variants x Ok' eq_refl X A) as (hs & v1 & De & Dv & d & Pd & Pb).
  pose proof (@deliver_safe (byte_http trims) _ (fp_headers _ _ _ _ Fp)) as D. pose proof (some_inj _ _ (eq_trans (eq_sym De) D)) as ED. clear De D. subst hs.
  exists v1, (problem_text pb), d. split; [|auto]. exists r. cbn [e_proc e_body e_value fst snd]. split; [exact En|]. split; [exact Fq|].
  intros q z Qm Qt Qh Qw. destruct (drained q body z Qw) as (q' & Dq & _ & _ & _ & Sq).
  exists (q_conn q'). eexists. exists (problem_text pb).
  split; [|split; [exact Sq|split; [exact Fp|split; [rewrite Ty; exact Dv | destruct (pr_method p); congruence]]]].
  unfold reply_to. rewrite Qt, Pu, Qm. unfold registrations in Ro. rewrite Ro. destruct no; unfold refusal; rewrite Dq; reflexivity.
Qed.
Theorem invalid_exchanged `{J : jsonfloat} (p : proc) url_norm v body r segs qs (hp : hproc bconn R) k n variants y t d0 h :
  encode_request (pr_entry p) v (N.of_nat (length body)) = Ok r -> fit_request uri_byte sl (pr_method p) r body -> parse_url (rb_target r) = Some (mkUrl (Some segs) qs) ->
  route_spec (accepted (registrations ps)) (pr_method p) segs = inl hp ->
  de_request (hp_entry hp) (mkUrl (Some segs) qs) (rb_headers r) (hp_req hp) = Err k ->
  (forall q, q_method q = pr_method p -> q_target q = rb_target r -> q_headers q = rb_headers r -> explain q k = (t, d0, h)) -> problem_ok url_norm (Trackable t 400 d0 None h) ->
  pr_method p <> MHead -> pr_resp p = TEnum n variants -> status_from_str y = Ok StBadRequest -> assoc y variants = Some (VNewtype pr_ty) ->
  forallb value_byte (reason StBadRequest) = true -> (2 <= most_headers cl)%nat ->
  (let text := problem_text (Trackable t 400 d0 None h) in
   length (response_head reason (mkRespb StBadRequest [(u "content-type", u "application/problem+json"); length_header (N.of_nat (length text))])) <= most_bytes cl)%nat ->
  exists v1 b d, exchanged (mkErrand p v body) (SNewtypeVariant n y v1, b) /\
    pr_decoded reason v1 = Some d /\ pr_set_body url_norm d b = mkPresp None (Trackable t 400 d0 None h).
Proof.
  intros En Fq Pu Ro Dr Ex Ok' Nh Ty X A Vb Mh Mb. set (pb := Trackable t 400 d0 None h) in *. cbv zeta in Mb.
  pose proof (problem_fit StBadRequest (problem_text pb) Vb Mh Mb) as Fp.
  destruct (@problem_reads F (byte_http trims) reason J url_norm pb StBadRequest n variants y Ok' eq_refl X A) as (hs1 & v1 & De1 & Dv & d & Pd & Pb).
  pose proof (@deliver_safe (byte_http trims) _ (fp_headers _ _ _ _ Fp)) as D. pose proof (some_inj _ _ (eq_trans (eq_sym De1) D)) as ED. clear De1 D. subst hs1.
  exists v1, (problem_text pb), d. split; [|auto]. exists r. cbn [e_proc e_body e_value fst snd]. split; [exact En|]. split; [exact Fq|].
  intros q z Qm Qt Qh Qw. destruct (drained q body z Qw) as (q' & Dq & _ & _ & _ & Sq).
  exists (q_conn q'). eexists. exists (problem_text pb).
  split; [|split; [exact Sq|split; [exact Fp|split; [rewrite Ty; exact Dv | destruct (pr_method p); congruence]]]].
  unfold reply_to. rewrite Qt, Pu, Qm. unfold registrations in Ro. rewrite Ro, Qh, Dr. unfold invalid_request, refusal. rewrite (Ex q Qm Qt Qh), Dq. reflexivity.
Qed.
End Proofs.
