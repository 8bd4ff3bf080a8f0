(** * A server's end of a connection as a function of the bytes that come on it, and so a call: proofs (C87). *)
From Verif Require Import Base FieldSpec Utf8 Decimal DepUrl Serde Json Procedure Router RouterSpec RouterProofs Status SerHeader SerRequest SerResponse DeHeader DeRequest DeResponse JsonText Problem ProblemSpec Error Client ClientSpec ClientProofs
  Server ServerSpec ServerProofs ServerFair SessionSpec HttpBytes HttpBytesSpec HttpBytesProofs TypeProofs CutsSpec CutsProofs WholeSpec.
Open Scope nat_scope.

Lemma length_given_ok hs : length_given hs = body_length hs.
Proof.
  unfold length_given, body_length. change (filter (fun h => ustr_eqb (lowercase (fst h)) (u "content-length")) hs) with (filter is_length hs).
  destruct (filter is_length hs) as [|[a b] [|]]; reflexivity.
Qed.

(** A connection with these bytes to come. *)
Definition holds (room : nat) (closed : bool) (s : bytes) (c : bconn) : Prop := b_closed c = closed /\ stream c = s /\ length (b_held c) <= room.

Lemma body_exact room closed hs s c : holds room closed s c -> b_left c = body_length hs ->
  match body_in closed hs s with
  | Comes (b, rest) => exists c', settle (read_body c) = Comes (b, c') /\ holds room closed rest c'
  | Breaks e => settle (read_body c) = Breaks e
  | Hangs => settle (read_body c) = Hangs
  end.
Proof.
  intros (Hc & Hs & Hl) E. unfold body_in, read_body. rewrite length_given_ok, E, Hc. destruct (body_length hs) as [n|].
  - destruct (Nat.leb_spec n (length s)) as [L|L].
    + destruct (length_comes (firstn n s) closed (b_coming c) (b_held c) (skipn n s)) as (c' & S1 & S2 & S3 & _).
      { rewrite firstn_skipn. exact Hs. }
      rewrite firstn_length, (Nat.min_l _ _ L) in S1. exists c'. split; [exact S1|]. split; [exact S3|]. split; [exact S2|]. apply length_held in S1. lia.
    + rewrite length_waits by (fold (stream c); rewrite Hs; exact L). destruct closed; reflexivity.
  - rewrite rest_comes. fold (stream c). rewrite Hs. destruct closed; [|reflexivity]. eexists. split; [reflexivity|]. split; [reflexivity|]. split; [reflexivity | cbn; lia].
Qed.

Section Head.
Context {S A : Type}.
Variables (f : S -> N -> step S A) (s0 : S).
Lemma head_short room closed s x rest : head_in (run f s0) room closed s = Comes (Some (Some (x, rest))) -> length rest < length s.
Proof.
  assert (D : forall l t x r, run f t l = PDone x r -> length r < length l).
  { induction l as [|a l IH]; intros t y r E; cbn in E; [discriminate|]. destruct (f t a); [apply IH in E; cbn; lia | injection E as _ <-; cbn; lia | discriminate]. }
  unfold head_in. destruct (run f s0 (firstn room s)) as [| |y r] eqn:P.
  - destruct (_ <=? _); [discriminate|]. destruct closed; discriminate.
  - discriminate.
  - intros [= _ <-]. apply D in P. rewrite firstn_length in P. rewrite app_length, skipn_length. lia.
Qed.
Lemma head_never_breaks room closed s e : head_in (run f s0) room closed s <> Breaks e.
Proof. unfold head_in. destruct (run _ _ _); [destruct (_ <=? _); [discriminate|]; destruct closed; discriminate | discriminate | discriminate]. Qed.
End Head.
Lemma body_short closed hs s b rest : body_in closed hs s = Comes (b, rest) -> length rest <= length s.
Proof.
  unfold body_in. destruct (length_given hs) as [n|].
  - destruct (n <=? length s); [|destruct closed; discriminate]. intros [= _ <-]. rewrite skipn_length. lia.
  - destruct closed; [|discriminate]. intros [= _ <-]. cbn. lia.
Qed.

Section Server.
Context `{floatlib} `{urlenv} {R : Type}.
Variable explain : request bconn -> ekind -> ustr * option ustr * option (list ustr).
Variable explained : method -> ustr -> list rheader -> ekind -> ustr * option ustr * option (list ustr).
Variable reason : status -> ustr.
Variables (trims : bool) (uri_byte : N -> bool) (sl : limits).
Variable ps : list (hproc bconn R).
Variable manners : hproc bconn R -> manner R.
Hypothesis Ex : forall q k, explain q k = explained (q_method q) (q_target q) (q_headers q) k.
Hypothesis Hm : forall hp, In hp ps -> behaves hp (manners hp).
Notation ln := (byte_link trims uri_byte sl).
Notation room := (most_bytes sl).
Notation parse := (run (qstep trims uri_byte (most_headers sl)) QStart).
Notation reply_to := (reply_to explain reason ln ps).
Notation conversation := (conversation explain reason ln ps).
Notation retort_to := (retort_to explained reason ps manners).
Notation exchange := (exchange explained reason parse room ps manners).
Notation whole := (whole explained reason parse room ps manners).

(** A reply of the server and one by the bytes. *)
Definition accords (closed : bool) (x : reply (Conn := bconn)) (y : retort) : Prop :=
  match y with
  | Replies h b rest => exists c, x = Sends c h b /\ holds room closed rest c
  | NoReply (Failing k) => x = Refuses k
  | NoReply Crashed => x = Crashes
  | NoReply Unfinished => x = Hesitates
  | NoReply Closed => False
  end.
Lemma refusal_accords closed m t hs s c st p : holds room closed s c -> b_left c = body_length hs ->
  accords closed (refusal ln (mkRequest m t hs c) st p) (problem_reply closed hs st p s).
Proof.
  intros Hc Hl. unfold refusal, problem_reply. cbn [l_drain byte_link q_conn q_method q_target q_headers]. rewrite settle_bind.
  pose proof (body_exact room closed hs s c Hc Hl) as B. unfold body_in in *. destruct (length_given hs) as [n|].
  - destruct (n <=? length s).
    + destruct B as (c' & -> & B). cbn. eauto.
    + destruct closed; rewrite B; reflexivity.
  - destruct closed; [destruct B as (c' & -> & B); cbn; eauto | rewrite B; reflexivity].
Qed.
Lemma invalid_accords closed m t hs s c k : holds room closed s c -> b_left c = body_length hs ->
  accords closed (invalid_request explain ln (mkRequest m t hs c) k) (invalid explained closed m t hs k s).
Proof.
  intros Hc Hl. unfold invalid_request, invalid. rewrite Ex. cbn [q_method q_target q_headers]. destruct (explained m t hs k) as [[a b] d]. apply refusal_accords; assumption.
Qed.
Lemma reply_accords closed m t hs s c : holds room closed s c -> b_left c = body_length hs ->
  accords closed (reply_to (mkRequest m t hs c)) (retort_to closed m t hs s).
Proof.
  intros Hc Hl. unfold ServerSpec.reply_to, WholeSpec.retort_to. cbn [q_method q_target q_headers].
  destruct (parse_url t) as [[[segs|] qs]|]; [|reflexivity|apply invalid_accords; assumption].
  destruct (route_spec _ m segs) as [hp|[]] eqn:Rt; [|apply refusal_accords; assumption|apply refusal_accords; assumption].
  assert (I : In hp ps).
  { apply route_in in Rt. apply in_map_iff in Rt. destruct Rt as [g [<- I]]. apply accepted_spec in I. destruct I as (l1 & l2 & I & _).
    assert (J : In g (map (fun p => (hp_method p, hp_entry p, p)) ps)) by (rewrite I; apply in_app_iff; right; left; reflexivity).
    apply in_map_iff in J. destruct J as [x [<- J]]. exact J. }
  destruct (de_request _ _ _ _) as [v|k| |]; [|apply invalid_accords; assumption|reflexivity|reflexivity].
  assert (G : forall x c' rest, holds room closed rest c' -> accords closed
    (once (nsettle (hp_call hp x)) (fun '(v, b) => match encode_response v (N.of_nat (length b)) with Ok h => Sends c' h b | Err k => Refuses k | Panic | Diverge => Crashes end))
    (match nsettle (hp_call hp x) with Comes (w, b) => match encode_response w (N.of_nat (length b)) with Ok h => Replies h b rest | Err k => NoReply (Failing k) | Panic | Diverge => NoReply Crashed end | _ => NoReply Unfinished end)).
  { intros x c' rest Hc'. assert (N : forall e, nsettle (hp_call hp x) <> Breaks e) by (intros e; induction (hp_call hp x); cbn; [discriminate | assumption | discriminate]).
    destruct (nsettle (hp_call hp x)) as [[w b]|e|]; [|elim (N e eq_refl)|reflexivity]. cbn [once]. destruct (encode_response w _); cbn; eauto. }
  pose proof (Hm hp I) as M. unfold handed. destruct (manners hp) as [mk|mk]; cbn in M.
  - rewrite M, settle_bind. cbn [q_conn q_method q_target q_headers]. pose proof (body_exact room closed hs s c Hc Hl) as B. destruct (body_in closed hs s) as [[b rest]|e|] eqn:Bi.
    + destruct B as (c' & -> & B). cbn [settle once with_body]. apply G, B.
    + rewrite B. cbn. replace (error_of e) with Other; [reflexivity|]. unfold body_in in Bi. destruct (length_given hs) as [n|]; [destruct (n <=? _); [discriminate|]|]; destruct closed; try discriminate. injection Bi as <-. reflexivity.
    + rewrite B. reflexivity.
  - rewrite M. cbn [once with_body q_method q_target q_headers q_conn]. apply G, Hc.
Qed.

Lemma request_exact closed s c : holds room closed s c ->
  match head_in parse room closed s with
  | Comes (Some (Some ((m, t, hs), rest))) => exists c', settle (l_read ln c) = Comes (Got (mkRequest m t hs c')) /\ holds room closed rest c' /\ b_left c' = body_length hs
  | Comes (Some None) => settle (l_read ln c) = Comes HttpError
  | Comes None => settle (l_read ln c) = Comes (IoError UnexpectedEof)
  | Breaks _ => False
  | Hangs => settle (l_read ln c) = Hangs
  end.
Proof.
  intros (Hc & Hs & Hl). pose proof (head_exact (qstep trims uri_byte (most_headers sl)) QStart room (b_closed c) (b_coming c) (b_held c) Hl) as X. fold (stream c) in X. rewrite Hs, Hc in X.
  pose proof (head_never_breaks (qstep trims uri_byte (most_headers sl)) QStart room closed s) as Nb.
  cbn [l_read byte_link]. unfold byte_read. rewrite settle_bind, Hc. destruct (head_in _ _ _ _) as [[[[[[m t] hs] rest]|]|]|e|]; [| | |elim (Nb e eq_refl)|];
    destruct (settle (read_head _ _ _ _ _)) as [[[[m' t'] hs'] h k| |]|e|] eqn:E; cbn in X; try discriminate; try reflexivity.
  injection X as -> -> -> <-. eexists. split; [reflexivity|]. split; [|reflexivity]. split; [reflexivity|]. split; [reflexivity|]. cbn. exact (head_held _ _ _ _ _ _ _ _ _ Hl E).
Qed.
Lemma conversation_exact : forall n closed s c, holds room closed s c ->
  replied (fst (conversation n (Ready c))) = fst (exchange n closed s) /\ snd (conversation n (Ready c)) = snd (exchange n closed s).
Proof.
  induction n as [|n IH]; intros closed s c Hc; [split; reflexivity|]. cbn [ServerSpec.conversation WholeSpec.exchange settle then_].
  pose proof (request_exact closed s c Hc) as Q. destruct (head_in _ _ _ _) as [[[[[[m t] hs] rest]|]|]|e|]; [| | |contradiction|].
  - destruct Q as (c' & -> & Hc' & Hl'). cbn [then_ performing fst snd q_method]. pose proof (reply_accords closed m t hs rest c' Hc' Hl') as A.
    destruct (retort_to closed m t hs rest) as [h b rest'|e].
    + destruct A as (d & -> & Hd). cbv zeta. unfold performing. cbn [fst snd].
      assert (W : forall body, conversation n (l_write ln h body d) = conversation n (Ready d)) by (intros body; destruct n; reflexivity).
      rewrite W. destruct (IH closed rest' d Hd) as [E1 E2]. split; [|exact E2]. cbn [replied flat_map app]. fold (replied (fst (conversation n (Ready d)))). rewrite E1. reflexivity.
    + destruct e; cbn in A; [rewrite A|contradiction|rewrite A|rewrite A]; split; reflexivity.
  - rewrite Q. split; reflexivity.
  - rewrite Q. split; reflexivity.
  - rewrite Q. split; reflexivity.
Qed.

(** Every request takes a byte. *)
Lemma retort_short closed m t hs s h b rest : retort_to closed m t hs s = Replies h b rest -> length rest <= length s.
Proof.
  assert (P : forall st p, problem_reply closed hs st p s = Replies h b rest -> length rest <= length s).
  { intros st p. unfold problem_reply. destruct (body_in closed hs s) as [[x y]|e|] eqn:B; cbn; try discriminate. intros [= _ _ <-]. exact (body_short _ _ _ _ _ B). }
  unfold WholeSpec.retort_to, invalid. destruct (parse_url t) as [[[segs|] qs]|]; [|discriminate|destruct (explained m t hs Invalid) as [[? ?] ?]; apply P].
  destruct (route_spec _ m segs) as [hp|[]]; [|apply P|apply P]. destruct (de_request _ _ _ _) as [v|k| |]; [|destruct (explained m t hs k) as [[? ?] ?]; apply P|discriminate|discriminate].
  destruct (handed closed m t hs v (manners hp) s) as [[x y]|e|] eqn:Q; cbn [with_body]; try discriminate. intros E.
  assert (y = rest) as -> by (destruct (nsettle (hp_call hp x)) as [[w b']|e|]; try discriminate; destruct (encode_response w _); try discriminate; injection E as _ _ ->; reflexivity).
  unfold handed in Q. destruct (manners hp) as [mk|mk]; [|injection Q as _ <-; lia]. destruct (body_in closed hs s) as [[b' r']|e|] eqn:B; try discriminate. injection Q as _ <-. exact (body_short _ _ _ _ _ B).
Qed.
Lemma exchange_all : forall n closed s, length s < n -> exchange n closed s = whole closed s.
Proof.
  assert (G : forall n m closed s, length s < n -> length s < m -> exchange n closed s = exchange m closed s).
  { induction n as [|n IH]; intros m closed s L M; [lia|]. destruct m as [|m]; [lia|]. cbn [WholeSpec.exchange].
    destruct (head_in _ _ _ _) as [[[[[[m' t] hs] rest]|]|]|e|] eqn:Hd; try reflexivity. apply head_short in Hd.
    destruct (retort_to closed m' t hs rest) as [h b rest'|e] eqn:Rt; [|reflexivity]. apply retort_short in Rt. rewrite (IH m closed rest') by lia. reflexivity. }
  intros n closed s L. apply G; lia.
Qed.

Notation rnds := (rounds explain reason ln (build (registrations ps))).
Theorem server_whole c : length (b_held c) <= room ->
  (forall k, prefix (replied (fst (rnds k (task_new (Ready c))))) (fst (whole (b_closed c) (stream c))) /\
    forall e, ended (snd (rnds k (task_new (Ready c)))) = Some e -> (replied (fst (rnds k (task_new (Ready c)))), e) = whole (b_closed c) (stream c)) /\
  exists k0, forall k, k0 <= k -> replied (fst (rnds k (task_new (Ready c)))) = fst (whole (b_closed c) (stream c)) /\
    ended (snd (rnds k (task_new (Ready c)))) = match snd (whole (b_closed c) (stream c)) with Unfinished => None | e => Some e end.
Proof.
  intros Hl. set (W := whole (b_closed c) (stream c)).
  assert (C : forall n, length (stream c) < n -> replied (fst (conversation n (Ready c))) = fst W /\ snd (conversation n (Ready c)) = snd W).
  { intros n L. unfold W. rewrite <- (exchange_all n) by exact L. apply conversation_exact. split; [reflexivity|]. split; [reflexivity | exact Hl]. }
  assert (A : forall k, prefix (replied (fst (rnds k (task_new (Ready c))))) (fst W) /\
    forall e, ended (snd (rnds k (task_new (Ready c)))) = Some e -> (replied (fst (rnds k (task_new (Ready c)))), e) = W).
  { intros k. pose proof (rounds_conversation explain reason ln ps k (k + Datatypes.S (length (stream c))) (Ready c) ltac:(lia)) as Q.
    destruct (C (k + Datatypes.S (length (stream c))) ltac:(lia)) as [C1 C2]. destruct (rnds k (task_new (Ready c))) as [a s]. cbn [fst snd]. destruct (ended s) as [e|] eqn:Ee.
    - rewrite Q in C1, C2. cbn [fst snd] in C1, C2. rewrite C1. split; [exists []; rewrite app_nil_r; reflexivity|]. intros e' [= <-]. rewrite C2. symmetry. apply surjective_pairing.
    - destruct Q as [a' Q]. rewrite Q, replied_app in C1. split; [exists (replied a'); symmetry; exact C1 | discriminate]. }
  split; [exact A|].
  destruct (conversation_rounds explain reason ln ps (Datatypes.S (length (stream c))) (Ready c)) as (k0 & a' & E & Nk). destruct (C _ (Nat.lt_succ_diag_r _)) as [C1 C2]. exists k0. intros k L.
  destruct (rounds_more explain reason ln ps (k - k0) k0 (task_new (Ready c))) as [z Ez]. replace (k - k0 + k0) with k in Ez by lia.
  destruct (A k) as [[x P] Fin].
  assert (Rp : replied (fst (rnds k (task_new (Ready c)))) = fst W).
  { rewrite Ez, E, !replied_app, C1 in *. rewrite <- !app_assoc in P. rewrite <- (app_nil_r (fst W)) in P at 1. apply app_inv_head in P. symmetry in P. apply app_eq_nil in P. destruct P as [P1 P]. apply app_eq_nil in P. destruct P as [P2 _].
    rewrite P1, P2, !app_nil_r. reflexivity. }
  split; [exact Rp|].
  assert (U : forall s : sstep bconn, ended s <> Some Unfinished) by (intros []; discriminate).
  destruct (snd W) eqn:Ew.
  - destruct (ended (snd (rnds k (task_new (Ready c))))) as [e|] eqn:Ee; [|reflexivity]. specialize (Fin e eq_refl). rewrite <- Fin in Ew. cbn in Ew. subst e. elim (U _ Ee).
  - rewrite C2 in Nk. destruct (Nk ltac:(discriminate)) as [_ Ed]. assert (O : rnds k (task_new (Ready c)) = rnds k0 (task_new (Ready c))) by (replace k with (k - k0 + k0) by lia; apply rounds_over; rewrite Ed; discriminate). rewrite O. exact Ed.
  - rewrite C2 in Nk. destruct (Nk ltac:(discriminate)) as [_ Ed]. assert (O : rnds k (task_new (Ready c)) = rnds k0 (task_new (Ready c))) by (replace k with (k - k0 + k0) by lia; apply rounds_over; rewrite Ed; discriminate). rewrite O. exact Ed.
  - rewrite C2 in Nk. destruct (Nk ltac:(discriminate)) as [_ Ed]. assert (O : rnds k (task_new (Ready c)) = rnds k0 (task_new (Ready c))) by (replace k with (k - k0 + k0) by lia; apply rounds_over; rewrite Ed; discriminate). rewrite O. exact Ed.
Qed.
End Server.

Section Client.
Context `{floatlib} `{urlenv}.
Variables (trims : bool) (cl : limits).
Notation w := (byte_wire trims cl).
Notation room := (most_bytes cl).
Notation parse := (run (pstep trims (most_headers cl)) (PVersion (u "HTTP/1.1 "))).
Notation found_in := (found_in room parse).
Notation found_all := (found_all room parse).

Lemma response_exact closed s c : holds room closed s c ->
  match head_in parse room closed s with
  | Comes (Some (Some ((n, hs), rest))) => exists c', settle (w_head w c) = Comes (mkResponse n hs c') /\ holds room closed rest c' /\ b_left c' = body_length hs
  | Comes _ => settle (w_head w c) = Breaks FromMiasht
  | Breaks _ => False
  | Hangs => settle (w_head w c) = Hangs
  end.
Proof.
  intros (Hc & Hs & Hl). pose proof (head_exact (pstep trims (most_headers cl)) (PVersion (u "HTTP/1.1 ")) room (b_closed c) (b_coming c) (b_held c) Hl) as X. fold (stream c) in X. rewrite Hs, Hc in X.
  pose proof (head_never_breaks (pstep trims (most_headers cl)) (PVersion (u "HTTP/1.1 ")) room closed s) as Nb.
  cbn [w_head byte_wire]. unfold byte_head. rewrite settle_bind, Hc. destruct (head_in _ _ _ _) as [[[[[n hs] rest]|]|]|e|]; [| | |elim (Nb e eq_refl)|];
    destruct (settle (read_head _ _ _ _ _)) as [[[n' hs'] h k| |]|e|] eqn:E; cbn in X; try discriminate; try reflexivity.
  injection X as -> -> <-. eexists. split; [reflexivity|]. split; [|reflexivity]. split; [reflexivity|]. split; [reflexivity|]. cbn. exact (head_held _ _ _ _ _ _ _ _ _ Hl E).
Qed.
(** As [stands], with the connection that is given back. *)
Definition stays (closed : bool) (x : result (Conn := bconn)) (y : finding) : Prop :=
  match y with
  | Finds v b rest => exists c, x = Yields v b c /\ holds room closed rest c
  | NoFind k => x = Fails k
  | Bursts => x = Panics
  | StillWaits => x = Waits
  end.
Lemma decoding_exact p closed n hs c rest b : holds room closed rest c ->
  stays closed (snd (decoding p (mkResponse n hs c) b)) (match de_response n hs (pr_resp p) with Ok x => Finds x b rest | Err k => NoFind k | Panic | Diverge => Bursts end).
Proof. intros Hc. unfold decoding. cbn [r_code r_headers r_conn]. destruct (de_response _ _ _); cbn; eauto. Qed.
Lemma sequential_exact p v body closed s c : holds room closed s c -> stays closed (snd (sequential w p v body (Ready c))) (found_in p v body closed s).
Proof.
  intros Hc. unfold sequential, WholeSpec.found_in. cbn [settle after]. destruct (encode_request _ _ _) as [rq|k| |]; try reflexivity. unfold doing. cbn [fst snd].
  assert (W : settle (w_write w rq body c) = Comes c) by reflexivity. rewrite W. cbn [after fst snd].
  pose proof (response_exact closed s c Hc) as Q. destruct (head_in _ _ _ _) as [[[[[n hs] rest]|]|]|e|]; [| | |contradiction|]; try (rewrite Q; reflexivity).
  destruct Q as (c' & -> & Hc' & Hl'). cbn [after].
  assert (B : stays closed (snd (after (settle (w_body w (mkResponse n hs c'))) (fun '(r, b) => decoding p r b)))
    (match body_in closed hs rest with Comes (b, rest) => match de_response n hs (pr_resp p) with Ok x => Finds x b rest | Err k => NoFind k | Panic | Diverge => Bursts end | Breaks _ => NoFind Other | Hangs => StillWaits end)).
  { cbn [w_body byte_wire r_conn r_code r_headers]. rewrite settle_bind. pose proof (body_exact room closed hs rest c' Hc' Hl') as B. destruct (body_in closed hs rest) as [[b rest']|e|] eqn:Bi.
    - destruct B as (d & -> & Hd). cbn [settle after]. apply decoding_exact, Hd.
    - rewrite B. unfold body_in in Bi. destruct (length_given hs) as [k|]; [destruct (k <=? _); [discriminate|]|]; destruct closed; try discriminate. injection Bi as <-. reflexivity.
    - rewrite B. reflexivity. }
  destruct (pr_method p); try exact B. apply decoding_exact, Hc'.
Qed.
Lemma call_stays p v body closed s c : holds room closed s c ->
  (forall k, reads_as (snd (drive w p k (call_new (v, body) (Ready c)))) = Waits \/ stays closed (reads_as (snd (drive w p k (call_new (v, body) (Ready c))))) (found_in p v body closed s)) /\
  exists k0, forall k, k0 <= k -> stays closed (reads_as (snd (drive w p k (call_new (v, body) (Ready c))))) (found_in p v body closed s).
Proof.
  intros Hc. pose proof (sequential_exact p v body closed s c Hc) as Q.
  assert (A : forall k, reads_as (snd (drive w p k (call_new (v, body) (Ready c)))) = Waits \/ reads_as (snd (drive w p k (call_new (v, body) (Ready c)))) = snd (sequential w p v body (Ready c))).
  { intros k. pose proof (call_steps w p v body (Ready c) k) as X. destruct (drive w p k _) as [t o]. cbn [snd]. destruct o as [[?|? ? ?]| | |]; [left; reflexivity| | | |]; right; apply X. }
  split; [intros k; destruct (A k) as [->| ->]; [left; reflexivity | right; exact Q]|].
  destruct (snd (sequential w p v body (Ready c))) as [|e| |v' b' c'] eqn:Es.
  - exists 0. intros k _. destruct (A k) as [->| ->]; exact Q.
  - destruct (call_finishes w p v body (Ready c)) as [k0 F]; [rewrite Es; discriminate|]. exists k0. intros k L. specialize (F k L). destruct (A k) as [X| ->]; [|exact Q].
    destruct (snd (drive w p k _)) as [[?|? ? ?]| | |]; try discriminate X. contradiction.
  - destruct (call_finishes w p v body (Ready c)) as [k0 F]; [rewrite Es; discriminate|]. exists k0. intros k L. specialize (F k L). destruct (A k) as [X| ->]; [|exact Q].
    destruct (snd (drive w p k _)) as [[?|? ? ?]| | |]; try discriminate X. contradiction.
  - destruct (call_finishes w p v body (Ready c)) as [k0 F]; [rewrite Es; discriminate|]. exists k0. intros k L. specialize (F k L). destruct (A k) as [X| ->]; [|exact Q].
    destruct (snd (drive w p k _)) as [[?|? ? ?]| | |]; try discriminate X. contradiction.
Qed.
Lemma stays_stands closed x y : stays closed x y -> stands x y.
Proof. destruct y; cbn; try exact (fun h => h). intros (c & -> & _ & E & _). eauto. Qed.
Theorem call_whole p v body c : length (b_held c) <= room ->
  (forall k, reads_as (snd (drive w p k (call_new (v, body) (Ready c)))) = Waits \/ stands (reads_as (snd (drive w p k (call_new (v, body) (Ready c))))) (found_in p v body (b_closed c) (stream c))) /\
  exists k0, forall k, k0 <= k -> stands (reads_as (snd (drive w p k (call_new (v, body) (Ready c))))) (found_in p v body (b_closed c) (stream c)).
Proof.
  intros L. destruct (call_stays p v body (b_closed c) (stream c) c) as [A [k0 B]]; [split; [reflexivity|]; split; [reflexivity | exact L]|]. split.
  - intros k. destruct (A k) as [X|X]; [left; exact X | right; exact (stays_stands _ _ _ X)].
  - exists k0. intros k Lk. exact (stays_stands _ _ _ (B k Lk)).
Qed.

Lemma session_step n e es c : snd (session w n (e :: es) c) =
  match reads_as (snd (drive w (e_proc e) n (call_new (e_value e, e_body e) (Ready c)))) with Yields v b c => (v, b) :: snd (session w n es c) | _ => [] end.
Proof. cbn [session]. destruct (drive _ _ _ _) as [t o]. cbn [snd]. destruct o as [[?|? ? ?]| | |]; reflexivity. Qed.
Lemma session_exact : forall es closed s c, holds room closed s c ->
  (forall n, prefix (snd (session w n es c)) (found_all es closed s)) /\ exists n0, forall n, n0 <= n -> snd (session w n es c) = found_all es closed s.
Proof.
  induction es as [|e es IH]; intros closed s c Hc; [split; [intros n; exists []; reflexivity | exists 0; reflexivity]|].
  destruct (call_stays (e_proc e) (e_value e) (e_body e) closed s c Hc) as [A [k0 B]]. cbn [WholeSpec.found_all].
  destruct (found_in (e_proc e) (e_value e) (e_body e) closed s) as [v b rest|k| |] eqn:Fo.
  - split.
    + intros n. rewrite session_step. destruct (A n) as [->|(c' & -> & Hc')]; [eexists; reflexivity|]. destruct (IH closed rest c' Hc') as [P _]. destruct (P n) as [x X]. exists x. rewrite X. reflexivity.
    + destruct (B k0 (Nat.le_refl k0)) as (c' & E & Hc'). destruct (IH closed rest c' Hc') as [_ [n0 Q]]. exists (Nat.max k0 n0). intros n L. rewrite session_step.
      assert (Es : reads_as (snd (drive w (e_proc e) n (call_new (e_value e, e_body e) (Ready c)))) = Yields v b c').
      { pose proof (call_steps w (e_proc e) (e_value e) (e_body e) (Ready c) n) as X1. pose proof (call_steps w (e_proc e) (e_value e) (e_body e) (Ready c) k0) as X0.
        destruct (B n ltac:(lia)) as (c2 & E2 & _). destruct (drive w (e_proc e) n _) as [t1 o1]. destruct (drive w (e_proc e) k0 _) as [t0 o0]. cbn [snd] in *.
        destruct o1 as [[?|? ? ?]| | |]; try discriminate E2. destruct o0 as [[?|? ? ?]| | |]; try discriminate E. destruct X0 as [_ X0], X1 as [_ X1]. rewrite X1, <- X0. exact E. }
      rewrite Es, Q by lia. reflexivity.
  - split.
    + intros n. rewrite session_step. destruct (A n) as [->| ->]; eexists; reflexivity.
    + exists k0. intros n L. rewrite session_step, (B n L). reflexivity.
  - split.
    + intros n. rewrite session_step. destruct (A n) as [->| ->]; eexists; reflexivity.
    + exists k0. intros n L. rewrite session_step, (B n L). reflexivity.
  - split.
    + intros n. rewrite session_step. destruct (A n) as [->| ->]; eexists; reflexivity.
    + exists k0. intros n L. rewrite session_step, (B n L). reflexivity.
Qed.
Theorem session_whole es c : length (b_held c) <= room ->
  (forall n, prefix (snd (session w n es c)) (found_all es (b_closed c) (stream c))) /\ exists n0, forall n, n0 <= n -> snd (session w n es c) = found_all es (b_closed c) (stream c).
Proof. intros L. apply session_exact. split; [reflexivity|]. split; [reflexivity | exact L]. Qed.
End Client.
