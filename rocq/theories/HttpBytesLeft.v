(** * Proofs about bodies that are not read (C74). *)
From Verif Require Import Base Utf8 Decimal DepUrl Serde Procedure FieldSpec Status SerHeader SerRequest SerResponse DeHeader DeRequest DeResponse Router RouterSpec DepHttp
  Error Client ClientSpec Server ServerSpec ServerProofs EndToEndSpec SessionSpec SessionProofs Pool PoolSystem PoolSystemSpec PoolAnswerSpec PoolCauseSpec HttpBytes HttpBytesSpec HttpBytesProofs HttpBytesSession
  PoolBytesSpec PoolBytes HttpBytesLeftSpec.
Open Scope N_scope.

Section Proofs.
Context {F : floatlib} {U : urlenv} {R : Type}.
Variable explain : request bconn -> ekind -> ustr * option ustr * option (list ustr).
Variable reason : status -> ustr.
Variables (trims : bool) (uri_byte : N -> bool) (sl : limits) (ps : list (hproc bconn R)).
Notation ln := (byte_link trims uri_byte sl).
Notation reply_to := (reply_to explain reason ln ps).
Notation rounds := (rounds explain reason ln (build (registrations ps))).
Notation conversation := (conversation explain reason ln ps).

(** A reply leaves the connection where the handler left it. *)
Lemma left_reply q segs qs hp v s' h b : leaves_body hp -> parse_url (q_target q) = Some (mkUrl (Some segs) qs) -> route_spec (accepted (registrations ps)) (q_method q) segs = inl hp ->
  de_request (hp_entry hp) (mkUrl (Some segs) qs) (q_headers q) (hp_req hp) = Ok v -> reply_to q = Sends s' h b -> stream s' = stream (q_conn q).
Proof.
  intros Lv P Rt Dr. unfold ServerSpec.reply_to. rewrite P. change (map (fun p => (hp_method p, hp_entry p, p)) ps) with (registrations ps). rewrite Rt, Dr.
  destruct (settle (hp_body hp v q)) as [[q' x]|e|] eqn:Eb; cbn [once]; try discriminate.
  destruct (nsettle (hp_call hp x)) as [[v' b']|e|]; cbn [once]; try discriminate.
  destruct (encode_response v' (N.of_nat (length b'))); try discriminate. intros [= <- _ _]. exact (Lv _ _ _ _ Eb).
Qed.

Lemma left_body s m r m2 r2 body2 z segs qs hp v :
  leaves_body hp -> fit_request uri_byte sl m r (request_head m2 r2 ++ body2) -> fit_request uri_byte sl m2 r2 body2 ->
  stream s = request_head m r ++ (request_head m2 r2 ++ body2) ++ z ->
  parse_url (rb_target r) = Some (mkUrl (Some segs) qs) -> route_spec (accepted (registrations ps)) m segs = inl hp ->
  de_request (hp_entry hp) (mkUrl (Some segs) qs) (rb_headers r) (hp_req hp) = Ok v ->
  exists q1, arrives_as (mkAsking m r (request_head m2 r2 ++ body2)) q1 /\ forall s1 h1 b1, reply_to q1 = Sends s1 h1 b1 ->
  exists q2, arrives_as (mkAsking m2 r2 body2) q2 /\ forall s2 h2 b2, reply_to q2 = Sends s2 h2 b2 ->
  exists k rest, replied (fst (rounds k (task_new (Ready s)))) = (h1, sent_body m b1) :: (h2, sent_body m2 b2) :: rest.
Proof.
  intros Lv F1 F2 E P Rt Dr. destruct (request_read trims uri_byte sl s m r _ z F1 E) as (q1 & Rd & Qm & Qt & Qh & Qw & _). exists q1.
  split; [split; [exact Qm|]; split; [exact Qt|]; split; [exact Qh | exists z; exact Qw]|]. intros s1 h1 b1 R1.
  assert (E1 : stream s1 = request_head m2 r2 ++ body2 ++ z).
  { rewrite (left_reply q1 segs qs hp v s1 h1 b1 Lv); [destruct Qw as [_ ->]; rewrite <- app_assoc; reflexivity | congruence | congruence | congruence | exact R1]. }
  destruct (request_read trims uri_byte sl s1 m2 r2 body2 z F2 E1) as (q2 & Rd2 & Qm2 & Qt2 & Qh2 & Qw2 & _). exists q2.
  split; [split; [exact Qm2|]; split; [exact Qt2|]; split; [exact Qh2 | exists z; exact Qw2]|]. intros s2 h2 b2 R2.
  destruct (conversation_rounds explain reason ln ps 2 (Ready s)) as (k & a & Ek & _). exists k, (replied a). rewrite Ek, replied_app.
  rewrite (conversation_step explain reason ln ps (Ready s) s q1 s1 h1 b1 1 eq_refl Rd R1), Qm.
  rewrite (conversation_step explain reason ln ps (l_write ln h1 (match m with MHead => None | _ => Some b1 end) s1) s1 q2 s2 h2 b2 0 eq_refl Rd2 R2), Qm2. reflexivity.
Qed.

Lemma one_reply_each asks s k n h b y : (forall hp, In hp ps -> takes_body hp) -> agreeing (stream s) (flat_map asking_bytes asks) ->
  (forall x, In x asks -> fit_request uri_byte sl (a_method x) (a_request x) (a_body x)) ->
  nth_error (replied (fst (rounds k (task_new (Ready s))))) n = Some (h, b) -> nth_error asks n = Some y ->
  exists q s' b0, arrives_as y q /\ reply_to q = Sends s' h b0 /\ b = sent_body (a_method y) b0.
Proof. intros Tk Ag Fi En Ey. exact (dialogue_bytes explain reason trims uri_byte sl ps Tk _ _ (rounds_dialogue explain reason ln ps k (Ready s)) s n h b asks y eq_refl Ag Fi En Ey). Qed.
End Proofs.

(** A handler that begins by reading the whole body takes it. *)
Lemma takes_read {R} (f : value -> request bconn -> bytes -> bconn -> request bconn * R) (hp : hproc bconn R) :
  (forall v q, hp_body hp v q = fbind (read_body (q_conn q)) (fun '(b, c) => Ready (f v q b c))) -> (forall v q b c, q_conn (fst (f v q b c)) = c) -> takes_body hp.
Proof.
  intros Eb Ef v q q' x n E L. rewrite Eb, settle_bind in E. destruct (settle (read_body (q_conn q))) as [[b c]|e|] eqn:Er; try discriminate E.
  cbn [settle] in E. destruct (body_comes_only _ _ _ _ Er L) as [E1 E2]. exists b. split; [exact E1|]. pose proof (Ef v q b c) as Q. destruct (f v q b c) as [q1 x1]. injection E as <- <-. cbn [fst] in Q. congruence.
Qed.
