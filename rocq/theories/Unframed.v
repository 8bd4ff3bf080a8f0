(** * Messages that do not say how long their body is: proofs (C84). *)
From Verif Require Import Base Utf8 Decimal DepUrl Serde SerHeader SerRequest SerResponse DeHeader DeRequest DeResponse DepHttp Procedure Status Router RouterSpec RouterProofs Error Client ClientSpec ClientProofs Server ServerSpec ServerProofs ServerFair
  EndToEndSpec SessionSpec TypeProofs HttpBytes HttpBytesSpec HttpBytesProofs HttpBytesLeftSpec CutsSpec CutsProofs UnframedSpec.
Open Scope N_scope.

Lemma unframed_length hs : unframed hs -> body_length hs = None.
Proof.
  intros Un. unfold body_length. replace (filter is_length hs) with (@nil rheader); [reflexivity|]. symmetry. induction hs as [|[n v] hs IH]; [reflexivity|]. cbn [filter].
  unfold is_length at 1. cbn [fst]. destruct (ustr_eqb (lowercase n) (u "content-length")) eqn:E.
  - apply ustr_eqb_eq in E. elim (proj1 (Un n v (or_introl eq_refl)) E).
  - apply IH. intros n' v' I. apply (Un n' v'). right. exact I.
Qed.

(** The end of a connection that is closed. *)
Definition spent : bconn := mkBconn [] [] true (Some 0%nat).

Lemma body_unframed c : b_left c = None -> settle (read_body c) = if b_closed c then Comes (stream c, spent) else Hangs.
Proof. intros E. unfold read_body. rewrite E, rest_comes. unfold stream, spent. destruct (b_closed c); reflexivity. Qed.

Section Head.
Context {S A : Type}.
Variables (f : S -> N -> step S A) (s0 : S).
Lemma head_room room closed s x : head_in (run f s0) room closed s = Comes (Some (Some x)) -> (0 < room)%nat.
Proof. unfold head_in. destruct room as [|room]; [|lia]. cbn [firstn]. cbn. destruct s; discriminate. Qed.
End Head.

Section Server.
Context `{floatlib} `{urlenv} {R : Type}.
Variable explain : request bconn -> ekind -> ustr * option ustr * option (list ustr).
Variable reason : status -> ustr.
Variables (trims : bool) (uri_byte : N -> bool) (sl : limits).
Variable ps : list (hproc bconn R).
Notation ln := (byte_link trims uri_byte sl).
Notation reply_to := (reply_to explain reason ln ps).
Notation rounds := (rounds explain reason ln (build (registrations ps))).
Notation conversation := (conversation explain reason ln ps).
Notation parse := (run (qstep trims uri_byte (most_headers sl)) QStart).

Lemma drain_unframed q : b_left (q_conn q) = None -> settle (l_drain ln q) = if b_closed (q_conn q) then Comes (mkRequest (q_method q) (q_target q) (q_headers q) spent) else Hangs.
Proof. intros E. cbn [l_drain byte_link]. rewrite settle_bind, (body_unframed _ E). destruct (b_closed (q_conn q)); reflexivity. Qed.

(** No reply while the connection is open; a reply leaves nothing to read. *)
Lemma refusal_unframed q st p : b_left (q_conn q) = None -> refusal ln q st p = Hesitates \/ b_closed (q_conn q) = true /\ forall c h b, refusal ln q st p = Sends c h b -> c = spent.
Proof.
  intros E. unfold refusal. rewrite (drain_unframed q E). destruct (b_closed (q_conn q)); cbn [once]; [|left; reflexivity]. right. split; [reflexivity|]. intros c h b [= <- _ _]. reflexivity.
Qed.
Lemma reply_unframed q : (forall hp, In hp ps -> exists mk, reads_to_end hp mk) -> b_left (q_conn q) = None ->
  reply_to q = Crashes \/ reply_to q = Hesitates \/ b_closed (q_conn q) = true /\ forall c h b, reply_to q = Sends c h b -> c = spent.
Proof.
  intros Hp E. unfold ServerSpec.reply_to, invalid_request. destruct (parse_url (q_target q)) as [[[segs|] qs]|]; [|left; reflexivity|right; apply refusal_unframed, E].
  destruct (route_spec _ (q_method q) segs) as [hp|[]] eqn:Rt; [|right; apply refusal_unframed, E|right; apply refusal_unframed, E].
  destruct (de_request _ _ _ _) as [v|k| |]; [|right; apply refusal_unframed, E|left; reflexivity|left; reflexivity]. right.
  assert (I : In hp ps).
  { apply route_in in Rt. apply in_map_iff in Rt. destruct Rt as [g [<- I]]. apply accepted_spec in I. destruct I as (l1 & l2 & I & _).
    assert (J : In g (map (fun p => (hp_method p, hp_entry p, p)) ps)) by (rewrite I; apply in_app_iff; right; left; reflexivity).
    apply in_map_iff in J. destruct J as [x [<- J]]. exact J. }
  destruct (Hp hp I) as [mk M].
  assert (X : settle (hp_body hp v q) = if b_closed (q_conn q) then Comes (mkRequest (q_method q) (q_target q) (q_headers q) spent, mk v (q_method q) (q_target q) (q_headers q) (stream (q_conn q))) else Hangs).
  { rewrite M, settle_bind, (body_unframed _ E). destruct (b_closed (q_conn q)); reflexivity. }
  rewrite X. destruct (b_closed (q_conn q)); cbn [once]; [|left; reflexivity]. right. split; [reflexivity|].
  intros c h b. destruct (nsettle (hp_call hp (mk v (q_method q) (q_target q) (q_headers q) (stream (q_conn q))))) as [[w b']|e|]; cbn [once]; try discriminate.
  destruct (encode_response w (N.of_nat (length b'))); try discriminate. intros [= <- _ _]. reflexivity.
Qed.

Lemma never_replied c m t hs rest k : (forall hp, In hp ps -> exists mk, reads_to_end hp mk) -> (length (b_held c) <= most_bytes sl)%nat -> b_closed c = false ->
  head_in parse (most_bytes sl) false (stream c) = Comes (Some (Some ((m, t, hs), rest))) -> unframed hs ->
  replied (fst (rounds k (task_new (Ready c)))) = [] /\ (ended (snd (rounds k (task_new (Ready c)))) = None \/ ended (snd (rounds k (task_new (Ready c)))) = Some Crashed).
Proof.
  intros Hp L Cl Hd Un. pose proof (request_read trims uri_byte sl c L) as Rd. rewrite Cl, Hd in Rd. destruct Rd as (c' & Rd & St & Lf). rewrite (unframed_length hs Un) in Lf.
  assert (Cl' : b_closed c' = false).
  { clear -Rd Cl. cbn [l_read byte_link] in Rd. unfold byte_read in Rd. rewrite settle_bind in Rd. destruct (settle (read_head _ _ _ _ _)) as [[[[m' t'] hs'] h k| |]|e|]; cbn [settle] in Rd; try discriminate. injection Rd as _ _ _ <-. exact Cl. }
  set (q := mkRequest m t hs c') in *. assert (Q : reply_to q = Crashes \/ reply_to q = Hesitates).
  { destruct (reply_unframed q Hp Lf) as [Q|[Q|[Q _]]]; auto. cbn [q q_conn] in Q. congruence. }
  assert (Y : conversation (Datatypes.S k) (Ready c) = ([ARead c], Crashed) \/ conversation (Datatypes.S k) (Ready c) = ([ARead c], Unfinished)).
  { cbn [ServerSpec.conversation settle then_]. rewrite Rd. cbn [then_]. fold q. destruct Q as [-> | ->]; [left | right]; reflexivity. }
  pose proof (rounds_conversation explain reason ln ps k (Datatypes.S k) (Ready c) ltac:(lia)) as Z. 
  destruct (rounds k (task_new (Ready c))) as [a s] eqn:Er. cbn [fst snd]. destruct (ended s) as [e|] eqn:Es.
  - destruct Y as [Y|Y]; rewrite Y in Z; injection Z as <- <-; [split; [reflexivity | right; reflexivity]|]. destruct s; discriminate.
  - destruct Z as [a' Z]. split; [|left; reflexivity]. destruct Y as [Y|Y]; rewrite Y in Z; cbn [fst] in Z; destruct a as [|x [|y a]]; try discriminate Z; try reflexivity; injection Z as <- _; reflexivity.
Qed.

(** On a closed connection everything after the head is the body, and nothing is read after it. *)
Lemma spent_read : (0 < most_bytes sl)%nat -> settle (l_read ln spent) = Comes (IoError UnexpectedEof).
Proof.
  intros L. cbn [l_read byte_link]. unfold byte_read, spent. cbn [b_held b_coming b_closed read_head run]. destruct (most_bytes sl) as [|n] eqn:E; [lia|]. reflexivity.
Qed.
Lemma read_unframed c m t hs rest : (length (b_held c) <= most_bytes sl)%nat -> head_in parse (most_bytes sl) (b_closed c) (stream c) = Comes (Some (Some ((m, t, hs), rest))) -> unframed hs ->
  exists c', settle (l_read ln c) = Comes (Got (mkRequest m t hs c')) /\ stream c' = rest /\ b_left c' = None /\ b_closed c' = b_closed c.
Proof.
  intros L Hd Un. pose proof (request_read trims uri_byte sl c L) as Rd. rewrite Hd in Rd. destruct Rd as (c' & Rd & St & Lf). rewrite (unframed_length hs Un) in Lf.
  exists c'. split; [exact Rd|]. split; [exact St|]. split; [exact Lf|].
  clear -Rd. cbn [l_read byte_link] in Rd. unfold byte_read in Rd. rewrite settle_bind in Rd. destruct (settle (read_head _ _ _ _ _)) as [[[[m' t'] hs'] h k| |]|e|]; cbn [settle] in Rd; try discriminate. injection Rd as _ _ _ <-. reflexivity.
Qed.
Lemma spent_conversation k : (0 < most_bytes sl)%nat -> conversation (Datatypes.S k) (Later (Ready spent)) = ([ARead spent], Closed).
Proof. intros L. cbn [ServerSpec.conversation settle then_]. rewrite (spent_read L). reflexivity. Qed.

Lemma at_most_one c m t hs rest k : (forall hp, In hp ps -> exists mk, reads_to_end hp mk) -> (length (b_held c) <= most_bytes sl)%nat -> b_closed c = true ->
  head_in parse (most_bytes sl) true (stream c) = Comes (Some (Some ((m, t, hs), rest))) -> unframed hs -> (length (replied (fst (rounds k (task_new (Ready c))))) <= 1)%nat.
Proof.
  intros Hp L Cl Hd Un. pose proof (head_room _ _ _ _ _ _ Hd) as Rm. rewrite <- Cl in Hd. destruct (read_unframed c m t hs rest L Hd Un) as (c' & Rd & St & Lf & Cl'). rewrite Cl in Cl'.
  assert (X : (length (replied (fst (conversation (2 + k) (Ready c)))) <= 1)%nat).
  { cbn [Nat.add]. remember (Datatypes.S k) as k'. cbn [ServerSpec.conversation settle then_]. rewrite Rd. cbn [then_]. destruct (reply_to (mkRequest m t hs c')) as [s h b|e| |] eqn:Q; try (cbn; lia).
    destruct (reply_unframed (mkRequest m t hs c') Hp Lf) as [Q'|[Q'|[_ Q']]]; try congruence. specialize (Q' s h b Q). subst s k'. cbn [q_method l_write byte_link]. rewrite (spent_conversation k Rm). cbn. lia. }
  pose proof (rounds_conversation explain reason ln ps k (2 + k) (Ready c) ltac:(lia)) as Z. destruct (rounds k (task_new (Ready c))) as [a s]. cbn [fst]. destruct (ended s) as [e|].
  - rewrite Z in X. exact X.
  - destruct Z as [a' Z]. rewrite Z, replied_app, app_length in X. lia.
Qed.

Lemma answered_at_end c m t hs rest segs qs hp mk v w b h : (length (b_held c) <= most_bytes sl)%nat -> b_closed c = true ->
  head_in parse (most_bytes sl) true (stream c) = Comes (Some (Some ((m, t, hs), rest))) -> unframed hs ->
  parse_url t = Some (mkUrl (Some segs) qs) -> route_spec (accepted (registrations ps)) m segs = inl hp -> de_request (hp_entry hp) (mkUrl (Some segs) qs) hs (hp_req hp) = Ok v ->
  reads_to_end hp mk -> nsettle (hp_call hp (mk v m t hs rest)) = Comes (w, b) -> encode_response w (N.of_nat (length b)) = Ok h ->
  exists k0, forall k, (k0 <= k)%nat -> replied (fst (rounds k (task_new (Ready c)))) = [(h, sent_body m b)] /\ ended (snd (rounds k (task_new (Ready c)))) = Some Closed.
Proof.
  intros L Cl Hd Un Pu Rt Dq Rd' Cb Er. pose proof (head_room _ _ _ _ _ _ Hd) as Rm. rewrite <- Cl in Hd. destruct (read_unframed c m t hs rest L Hd Un) as (c' & Rd & St & Lf & Cl'). rewrite Cl in Cl'.
  assert (Q : reply_to (mkRequest m t hs c') = Sends spent h b).
  { unfold ServerSpec.reply_to. cbn [q_target q_method q_headers]. rewrite Pu. unfold registrations in Rt. rewrite Rt, Dq, Rd', settle_bind. cbn [q_conn q_method q_target q_headers].
    rewrite (body_unframed c' Lf), Cl'. cbn [settle once]. rewrite St, Cb. cbn [once]. rewrite Er. reflexivity. }
  assert (X : conversation 2 (Ready c) = ([ARead c; AWrite h (sent_body m b) spent; ARead spent], Closed)).
  { remember 1%nat as one eqn:E1. cbn [ServerSpec.conversation settle then_]. rewrite Rd. cbn [then_]. rewrite Q. cbn [q_method l_write byte_link]. subst one. rewrite (spent_conversation 0 Rm). reflexivity. }
  destruct (conversation_rounds explain reason ln ps 2 (Ready c)) as (k0 & a' & Ek & En). rewrite X in Ek, En. cbn [fst snd] in Ek, En. destruct (En ltac:(discriminate)) as [-> Ed].
  exists k0. intros k Lk. replace k with ((k - k0) + k0)%nat by lia. rewrite rounds_over by (rewrite Ed; discriminate). rewrite Ek, Ed. split; reflexivity.
Qed.
End Server.

Section Client.
Context `{floatlib} `{urlenv}.
Variables (trims : bool) (cl : limits) (p : proc).
Notation w := (byte_wire trims cl).
Notation parse := (run (pstep trims (most_headers cl)) (PVersion (u "HTTP/1.1 "))).

(** What reading a response comes to. *)
Lemma response_read c n hs rest : (length (b_held c) <= most_bytes cl)%nat -> head_in parse (most_bytes cl) (b_closed c) (stream c) = Comes (Some (Some ((n, hs), rest))) ->
  exists c', settle (w_head w c) = Comes (mkResponse n hs c') /\ stream c' = rest /\ b_left c' = body_length hs /\ b_closed c' = b_closed c.
Proof.
  intros L Hd. pose proof (head_exact (pstep trims (most_headers cl)) (PVersion (u "HTTP/1.1 ")) (most_bytes cl) (b_closed c) (b_coming c) (b_held c) L) as X. fold (stream c) in X. rewrite Hd in X.
  cbn [w_head byte_wire]. unfold byte_head. rewrite settle_bind. destruct (settle (read_head _ _ _ _ _)) as [[[n' hs'] h k| |]|e|] eqn:E; cbn in X; try discriminate. injection X as -> -> <-.
  eexists. cbn [settle]. split; [reflexivity|]. auto.
Qed.
Lemma call_unframed v body rq c n hs rest : pr_method p <> MHead -> encode_request (pr_entry p) v (N.of_nat (length body)) = Ok rq -> (length (b_held c) <= most_bytes cl)%nat ->
  head_in parse (most_bytes cl) (b_closed c) (stream c) = Comes (Some (Some ((n, hs), rest))) -> unframed hs ->
  snd (sequential w p v body (Ready c)) = if b_closed c then snd (decoding p (mkResponse n hs spent) rest) else Waits.
Proof.
  intros M Er L Hd Un. destruct (response_read c n hs rest L Hd) as (c' & Rd & St & Lf & Cl). rewrite (unframed_length hs Un) in Lf.
  unfold sequential. cbn [settle after]. rewrite Er. unfold doing. cbn [snd]. cbn [w_write byte_wire settle after]. cbn [snd]. rewrite Rd. cbn [after].
  assert (B : settle (w_body w (mkResponse n hs c')) = if b_closed c then Comes (mkResponse n hs spent, rest) else Hangs).
  { cbn [w_body byte_wire r_conn]. rewrite settle_bind, (body_unframed c' Lf), Cl, St. destruct (b_closed c); reflexivity. }
  destruct (pr_method p); try (elim M; reflexivity); cbn [snd]; rewrite B; destruct (b_closed c); reflexivity.
Qed.

Lemma call_never_over v body rq c n hs rest k : pr_method p <> MHead -> encode_request (pr_entry p) v (N.of_nat (length body)) = Ok rq -> (length (b_held c) <= most_bytes cl)%nat -> b_closed c = false ->
  head_in parse (most_bytes cl) false (stream c) = Comes (Some (Some ((n, hs), rest))) -> unframed hs -> ~ over (snd (drive w p k (call_new (v, body) (Ready c)))).
Proof. intros M Er L Cl Hd Un. apply call_waits. rewrite (call_unframed v body rq c n hs rest M Er L); [rewrite Cl; reflexivity | rewrite Cl; exact Hd | exact Un]. Qed.

Lemma call_result v body c r : snd (sequential w p v body (Ready c)) = r -> r <> Waits -> exists k0, forall k, (k0 <= k)%nat -> reads_as (snd (drive w p k (call_new (v, body) (Ready c)))) = r.
Proof.
  intros S W. destruct (call_finishes w p v body (Ready c) (fun Q => W (eq_trans (eq_sym S) Q))) as [k0 F]. exists k0. intros k L. specialize (F k L). pose proof (call_steps w p v body (Ready c) k) as Q.
  destruct (drive w p k _) as [t o]. cbn [snd] in *. destruct o as [[?|? ? ?]| | |]; cbn in F; try contradiction; destruct Q as [_ Q]; rewrite <- S; exact Q.
Qed.
Lemma call_takes_all v body rq c n hs rest : pr_method p <> MHead -> encode_request (pr_entry p) v (N.of_nat (length body)) = Ok rq -> (length (b_held c) <= most_bytes cl)%nat -> b_closed c = true ->
  head_in parse (most_bytes cl) true (stream c) = Comes (Some (Some ((n, hs), rest))) -> unframed hs ->
  exists k0, forall k, (k0 <= k)%nat -> reads_as (snd (drive w p k (call_new (v, body) (Ready c)))) =
    match de_response n hs (pr_resp p) with Ok x => Yields x rest (mkBconn [] [] true (Some 0%nat)) | Err e => Fails e | _ => Panics end.
Proof.
  intros M Er L Cl Hd Un. apply call_result; [|destruct (de_response _ _ _); discriminate].
  rewrite (call_unframed v body rq c n hs rest M Er L); [|rewrite Cl; exact Hd|exact Un]. rewrite Cl. unfold decoding. cbn [r_code r_headers r_conn]. destruct (de_response _ _ _); reflexivity.
Qed.
(** A call on what is left of such a connection. *)
Lemma call_spent v body rq : encode_request (pr_entry p) v (N.of_nat (length body)) = Ok rq ->
  exists k0, forall k, (k0 <= k)%nat -> reads_as (snd (drive w p k (call_new (v, body) (Ready (mkBconn [] [] true (Some 0%nat)))))) = Fails Other.
Proof.
  intros Er. apply call_result; [|discriminate]. unfold sequential. cbn [settle after]. rewrite Er. unfold doing. cbn [snd]. cbn [w_write byte_wire settle after]. cbn [snd].
  cbn [w_head byte_wire]. unfold byte_head. cbn [b_held b_coming b_closed read_head run]. destruct (most_bytes cl <=? _)%nat; reflexivity.
Qed.
End Client.
