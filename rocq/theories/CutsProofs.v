(** * Only the bytes of a connection matter (C76). *)
From Verif Require Import Base Utf8 Decimal DepUrl Serde SerHeader SerRequest SerResponse DeHeader DeRequest DeResponse DepHttp Procedure Status Router RouterSpec Error Client ClientSpec ClientProofs Server ServerSpec ServerProofs ServerFair
  EndToEndSpec SessionSpec TypeProofs HttpBytes HttpBytesSpec HttpBytesProofs CutsSpec.
Open Scope nat_scope.

Definition mapped {A B} (f : A -> B) (x : settled A) : settled B := match x with Comes a => Comes (f a) | Breaks e => Breaks e | Hangs => Hangs end.
Lemma firstn_all' {A} n (l : list A) : length l <= n -> firstn n l = l.
Proof. apply firstn_all2. Qed.

Section Head.
Context {S A : Type}.
Variables (f : S -> N -> step S A) (s0 : S) (room : nat) (closed : bool).
Notation parse := (run f s0).
Lemma head_exact : forall coming held, length held <= room ->
  mapped head_came (settle (read_head parse room closed held coming)) = head_in parse room closed (held ++ concat coming).
Proof.
  induction coming as [|p coming IH]; intros held L; unfold head_in; cbn [read_head concat].
  - rewrite app_nil_r. rewrite (firstn_all' room held L), (skipn_all2 held L). destruct (parse held) as [| |x r] eqn:P; [|reflexivity|cbn; rewrite ?app_nil_r; reflexivity].
    destruct (Nat.leb_spec room (length held)); [reflexivity|]. destruct closed; reflexivity.
  - assert (Fs : firstn room (held ++ p ++ concat coming) = held ++ firstn (room - length held) (p ++ concat coming)) by (rewrite firstn_app, (firstn_all' room held L); reflexivity).
    assert (Ss : skipn room (held ++ p ++ concat coming) = skipn (room - length held) (p ++ concat coming)) by (rewrite skipn_app, (skipn_all2 held L); reflexivity).
    rewrite Fs, Ss. destruct (parse held) as [| |x r] eqn:P.
    + destruct (Nat.leb_spec room (length held)) as [Q|Q].
      * replace (room - length held) with 0 by lia. cbn [firstn]. rewrite app_nil_r, P. cbn. rewrite app_length. destruct (Nat.leb_spec room (length held + length (p ++ concat coming))); [reflexivity | lia].
      * cbv zeta. destruct (Nat.leb_spec (length p) (room - length held)) as [Q'|Q']; cbn [settle].
        -- rewrite IH by (rewrite app_length; lia). unfold head_in. rewrite <- app_assoc, Fs, Ss. reflexivity.
        -- rewrite firstn_app. replace (room - length held - length p) with 0 by lia. cbn [firstn]. rewrite app_nil_r, skipn_app. replace (room - length held - length p) with 0 by lia. cbn [skipn].
           destruct (parse (held ++ firstn (room - length held) p)) as [| |x r] eqn:P'; [|reflexivity|reflexivity].
           rewrite !app_length. destruct (Nat.leb_spec room (length held + (length p + length (concat coming)))); [reflexivity | lia].
    + rewrite (run_bad_app f held s0 _ P). reflexivity.
    + rewrite (run_done_app f _ _ _ _ _ P). cbn. rewrite <- app_assoc, firstn_skipn. reflexivity.
Qed.
Lemma head_held : forall coming held x h' c', length held <= room -> settle (read_head parse room closed held coming) = Comes (Came x h' c') -> length h' <= room.
Proof.
  assert (D : forall l x r, parse l = PDone x r -> length r <= length l).
  { intros l. generalize s0. induction l as [|a l IH]; intros s x r E; cbn in E; [discriminate|]. destruct (f s a); [apply IH in E; cbn; lia | injection E as _ <-; cbn; lia | discriminate]. }
  induction coming as [|p coming IH]; intros held x h' c' L E; cbn [read_head] in E.
  - destruct (parse held) eqn:P; cbn in E; try discriminate; [destruct (room <=? length held); [discriminate|]; destruct closed; discriminate|]. injection E as _ -> _. apply D in P. lia.
  - destruct (parse held) eqn:P; cbn in E; try discriminate; [|injection E as _ -> _; apply D in P; lia].
    destruct (Nat.leb_spec room (length held)); [discriminate|]. destruct (Nat.leb_spec (length p) (room - length held)); cbn [settle] in E.
    + apply IH in E; [exact E | rewrite app_length; lia].
    + destruct (parse (held ++ firstn (room - length held) p)) eqn:P'; try discriminate. injection E as -> -> _. apply D in P'. rewrite app_length, firstn_length in P'. lia.
Qed.
(** A head once read stays read. *)
Lemma head_later s more : head_in parse room closed s <> Hangs -> (closed = true -> more = []) ->
  head_in parse room closed (s ++ more) = mapped (option_map (option_map (fun x => (fst x, snd x ++ more)))) (head_in parse room closed s).
Proof.
  intros N C. unfold head_in in *. rewrite firstn_app, skipn_app. destruct (Nat.leb_spec room (length s)) as [L|L].
  - replace (room - length s) with 0 by lia. cbn [firstn skipn]. rewrite app_nil_r. destruct (parse (firstn room s)) as [| |x r]; cbn; rewrite ?app_assoc; try reflexivity.
    rewrite app_length. destruct (Nat.leb_spec room (length s + length more)); [reflexivity | lia].
  - rewrite (firstn_all' room s) in * by lia. rewrite (skipn_all2 s) in * by lia. destruct (parse s) as [| |x r] eqn:P.
    + destruct closed; [|contradiction N; reflexivity]. rewrite (C eq_refl). rewrite firstn_nil, !app_nil_r, P. destruct (Nat.leb_spec room (length s)); [lia | reflexivity].
    + rewrite (run_bad_app f _ _ _ P). reflexivity.
    + rewrite (run_done_app f _ _ _ _ _ P). cbn. rewrite <- app_assoc, firstn_skipn, app_nil_r. reflexivity.
Qed.
End Head.

Lemma leads_stream room c c' : leads room c c' -> exists more, stream c' = stream c ++ more /\ (b_closed c = true -> more = [] /\ b_closed c' = true).
Proof.
  intros (_ & _ & _ & Q). destruct (b_closed c); [destruct Q as [E K]; exists []; rewrite app_nil_r; auto | destruct Q as [m E]; exists m; split; [exact E | discriminate]].
Qed.
Lemma leads_made room c c' more : b_left c = b_left c' -> length (b_held c) <= room -> length (b_held c') <= room -> stream c' = stream c ++ more -> (b_closed c = true -> more = [] /\ b_closed c' = true) -> leads room c c'.
Proof. intros L H1 H2 E K. split; [exact L|]. split; [exact H1|]. split; [exact H2|]. destruct (b_closed c); [destruct (K eq_refl) as [-> K']; rewrite app_nil_r in E; auto | eauto]. Qed.

(** Heads *)
Lemma head_follows {S A} (f : S -> N -> step S A) s0 room c c' : leads room c c' ->
  follows (fun x y => match x, y with
    | Came a h k, Came b h' k' => a = b /\ forall l, leads room (mkBconn h k (b_closed c) l) (mkBconn h' k' (b_closed c') l)
    | Eof, Eof => True | Garbled, Garbled => True | _, _ => False end)
    (settle (read_head (run f s0) room (b_closed c) (b_held c) (b_coming c))) (settle (read_head (run f s0) room (b_closed c') (b_held c') (b_coming c'))).
Proof.
  intros L. destruct (leads_stream _ _ _ L) as (more & E & K). destruct L as (_ & H1 & H2 & _).
  pose proof (head_exact f s0 room (b_closed c) (b_coming c) (b_held c) H1) as X. pose proof (head_exact f s0 room (b_closed c') (b_coming c') (b_held c') H2) as X'.
  fold (stream c) in X. fold (stream c') in X'. rewrite E in X'.
  destruct (settle (read_head (run f s0) room (b_closed c) (b_held c) (b_coming c))) as [x|e|] eqn:Q; [| |exact I].
  2:{ unfold head_in in X. destruct (run f s0 _); [|discriminate|discriminate]. destruct (room <=? _); [discriminate|]. destruct (b_closed c); discriminate. }
  assert (N : head_in (run f s0) room (b_closed c) (stream c) <> Hangs) by (rewrite <- X; discriminate).
  assert (X2 : head_in (run f s0) room (b_closed c') (stream c ++ more) = mapped (option_map (option_map (fun x => (fst x, snd x ++ more)))) (head_in (run f s0) room (b_closed c) (stream c))).
  { destruct (b_closed c) eqn:B.
    - destruct (K eq_refl) as [-> ->]. apply head_later; auto.
    - destruct (b_closed c'); [|apply head_later; [exact N | discriminate]].
      rewrite <- (head_later f s0 room false (stream c) more N ltac:(discriminate)). unfold head_in. destruct (run f s0 (firstn room (stream c ++ more))) eqn:P; try reflexivity.
      destruct (Nat.leb_spec room (length (stream c ++ more))) as [|Lr]; [reflexivity|]. exfalso. apply N. unfold head_in. rewrite app_length in Lr. rewrite firstn_all' in P by (rewrite app_length; lia). rewrite firstn_all' by lia.
      destruct (run f s0 (stream c)) eqn:P'; [|rewrite (run_bad_app f _ _ more P') in P; discriminate | rewrite (run_done_app f _ _ _ _ more P') in P; discriminate].
      destruct (Nat.leb_spec room (length (stream c))); [lia | reflexivity]. }
  rewrite X2, <- X in X'. cbn [mapped] in X'.
  destruct (settle (read_head (run f s0) room (b_closed c') (b_held c') (b_coming c'))) as [y|e|] eqn:Q'; cbn [mapped] in X'; try discriminate.
  exists y. split; [reflexivity|]. injection X' as X'. destruct x as [a h k| |]; cbn in X'; destruct y as [b h' k'| |]; cbn in X'; try discriminate; try exact I.
  injection X' as -> X'. split; [reflexivity|]. intros l. apply (leads_made room _ _ more); [reflexivity | exact (head_held f s0 room _ _ _ _ _ _ H1 Q) | exact (head_held f s0 room _ _ _ _ _ _ H2 Q') | exact X' | exact K].
Qed.

(** Bodies *)
Lemma length_held n closed : forall coming held b c', settle (read_length n closed held coming) = Comes (b, c') -> length (b_held c') <= length held.
Proof.
  induction coming as [|p coming IH]; intros held b c' E; cbn [read_length] in E; destruct (Nat.leb_spec n (length held)); cbn [settle] in E.
  - injection E as _ <-. cbn. rewrite skipn_length. lia.
  - destruct closed; discriminate.
  - injection E as _ <-. cbn. rewrite skipn_length. lia.
  - cbv zeta in E. destruct (Nat.leb_spec (length p) (n - length held)).
    + cbn [settle] in E. pose proof E as E2. apply IH in E.
      (* once more than is held is wanted, nothing is held afterwards *)
      assert (Z : forall coming held b c', length held <= n -> settle (read_length n closed held coming) = Comes (b, c') -> b_held c' = []).
      { clear. induction coming as [|q coming IH]; intros held b c' L E; cbn [read_length] in E; destruct (Nat.leb_spec n (length held)); cbn [settle] in E; try (injection E as _ <-; cbn; rewrite skipn_all2 by lia; reflexivity).
        - destruct closed; discriminate.
        - cbv zeta in E. destruct (Nat.leb_spec (length q) (n - length held)); cbn [settle] in E; [apply IH in E; [exact E | rewrite app_length; lia] | injection E as _ <-; reflexivity]. }
      apply Z in E2; [rewrite E2; cbn; lia | rewrite app_length; lia].
    + cbn [settle] in E. injection E as _ <-. cbn. lia.
Qed.
Lemma rest_comes closed : forall coming held, settle (read_rest closed held coming) = if closed then Comes (held ++ concat coming, mkBconn [] [] closed (Some 0)) else Hangs.
Proof.
  induction coming as [|p coming IH]; intros held; cbn [read_rest]; [destruct closed; cbn; rewrite ?app_nil_r; reflexivity|]. cbn [settle concat]. rewrite IH, app_assoc. reflexivity.
Qed.
Lemma body_follows room c c' : leads room c c' -> follows (fun x y => fst x = fst y /\ leads room (snd x) (snd y)) (settle (read_body c)) (settle (read_body c')).
Proof.
  intros L. destruct (leads_stream _ _ _ L) as (more & E & K). destruct L as (Lf & H1 & H2 & _). unfold read_body. rewrite <- Lf. destruct (b_left c) as [n|].
  - destruct (Nat.leb_spec n (length (stream c))) as [Q|Q].
    + assert (L1 : n = length (firstn n (stream c))) by (rewrite firstn_length; lia).
      destruct (length_comes (firstn n (stream c)) (b_closed c) (b_coming c) (b_held c) (skipn n (stream c)) ltac:(rewrite firstn_skipn; reflexivity)) as (d & D & Sd & Cd & Ld).
      destruct (length_comes (firstn n (stream c)) (b_closed c') (b_coming c') (b_held c') (skipn n (stream c) ++ more) ltac:(rewrite app_assoc, firstn_skipn; exact E)) as (d' & D' & Sd' & Cd' & Ld').
      rewrite <- L1 in *. rewrite D, D'. eexists. split; [reflexivity|]. split; [reflexivity|]. cbn [snd].
      apply (leads_made room _ _ more); [congruence | apply length_held in D; lia | apply length_held in D'; lia | congruence | rewrite Cd, Cd'; exact K].
    + rewrite (length_waits n (b_closed c) (b_coming c) (b_held c) Q). destruct (b_closed c) eqn:B; [|exact I]. destruct (K eq_refl) as [-> B']. cbn.
      rewrite (length_waits n (b_closed c') (b_coming c') (b_held c')); [rewrite B'; reflexivity|]. fold (stream c'). rewrite E, app_nil_r. exact Q.
  - rewrite !rest_comes. destruct (b_closed c) eqn:B; [|exact I]. destruct (K eq_refl) as [-> ->]. fold (stream c) (stream c'). rewrite E, app_nil_r. eexists. split; [reflexivity|]. split; [reflexivity|].
    apply (leads_made room _ _ []); cbn; try reflexivity; try lia. auto.
Qed.

Lemma follows_bind {A B} (R : A -> A -> Prop) (Q : B -> B -> Prop) f f' (g g' : A -> fut B) : follows R (settle f) (settle f') ->
  (forall x y, R x y -> follows Q (settle (g x)) (settle (g' y))) -> follows Q (settle (fbind f g)) (settle (fbind f' g')).
Proof.
  intros F G. rewrite !settle_bind. destruct (settle f) as [x|e|]; cbn in F; [|rewrite F; reflexivity|exact I]. destruct F as (y & -> & X). apply G, X.
Qed.

Section Server.
Context `{floatlib} `{urlenv} {R : Type}.
Variable explain : request bconn -> ekind -> ustr * option ustr * option (list ustr).
Variable reason : status -> ustr.
Variables (trims : bool) (uri_byte : N -> bool) (sl : limits).
Variable ps : list (hproc bconn R).
Notation ln := (byte_link trims uri_byte sl).
Notation room := (most_bytes sl).
Hypothesis Ex : forall q q' k, like room q q' -> explain q k = explain q' k.
Hypothesis Hp : forall hp, In hp ps -> by_bytes room hp.

Lemma read_follows c c' : leads room c c' -> follows (fun x y => match x, y with Got q, Got q' => like room q q' | x, y => x = y end) (settle (l_read ln c)) (settle (l_read ln c')).
Proof.
  intros L. unfold l_read, byte_link, byte_read. eapply follows_bind; [apply (head_follows _ _ room c c' L)|]. intros x y Q. cbn [settle].
  destruct x as [[[m t] hs] h k| |], y as [[[m' t'] hs'] h' k'| |]; try contradiction; cbn; eexists; split; try reflexivity. destruct Q as [Q1 Q2]. injection Q1 as <- <- <-. do 3 (split; [reflexivity|]). apply Q2.
Qed.
Lemma drain_follows q q' : like room q q' -> follows (like room) (settle (l_drain ln q)) (settle (l_drain ln q')).
Proof.
  intros (A & B & C & L). unfold l_drain, byte_link. eapply follows_bind; [apply (body_follows room _ _ L)|]. intros [b d] [b' d'] [_ Q]. cbn. eexists. split; [reflexivity|]. do 3 (split; [assumption|]). exact Q.
Qed.

(** Replies *)
Definition rlike (x y : reply (Conn := bconn)) : Prop :=
  match x with Hesitates => True | Sends c h b => exists c', y = Sends c' h b /\ leads room c c' | x => y = x end.
Lemma once_follows {A} (P : A -> A -> Prop) s s' (g g' : A -> reply) : follows P s s' -> (forall x y, P x y -> rlike (g x) (g' y)) -> rlike (once s g) (once s' g').
Proof. intros F G. destruct s as [x|e|]; cbn in F |- *; [destruct F as (y & -> & Q); apply G, Q | rewrite F; reflexivity | exact I]. Qed.
Lemma refusal_follows q q' st p : like room q q' -> rlike (refusal ln q st p) (refusal ln q' st p).
Proof. intros L. apply (once_follows (like room) _ _ _ _ (drain_follows _ _ L)). intros x y (_ & _ & _ & Q). cbn. eauto. Qed.
Lemma reply_follows q q' : like room q q' -> rlike (reply_to explain reason ln ps q) (reply_to explain reason ln ps q').
Proof.
  intros L. pose proof L as (Em & Et & Eh & Ec). unfold reply_to, invalid_request. rewrite <- Em, <- Et, <- Eh. destruct (parse_url (q_target q)) as [[[segs|] qs]|].
  - destruct (route_spec (accepted (map (fun p => (hp_method p, hp_entry p, p)) ps)) (q_method q) segs) as [hp|n] eqn:Ro.
    + assert (I : In hp ps) by (apply route_in in Ro; apply in_map_iff in Ro; destruct Ro as (g & <- & I); apply accepted_incl in I; apply in_map_iff in I; destruct I as (p' & <- & I); exact I).
      destruct (de_request (hp_entry hp) (mkUrl (Some segs) qs) (q_headers q) (hp_req hp)) as [v|k| |]; [| |reflexivity|reflexivity].
      * eapply once_follows; [apply (Hp hp I v q q' L)|]. intros [r x] [r' x'] [Lr Ex']. cbn in Lr, Ex'. subst x'.
        destruct (nsettle (hp_call hp x)) as [[w b]|e|]; cbn; [|reflexivity|exact Logic.I]. destruct (encode_response w (N.of_nat (length b))); cbn; eauto.
      * rewrite <- (Ex q q' k L). apply refusal_follows, L.
    + destruct n; apply refusal_follows, L.
  - reflexivity.
  - rewrite <- (Ex q q' Invalid L). apply refusal_follows, L.
Qed.

(** Conversations *)
Definition goes_with (x y : list (sact bconn) * ending) : Prop :=
  exists more, replied (fst y) = replied (fst x) ++ more /\ (snd x <> Unfinished -> more = [] /\ snd y = snd x).
Lemma goes_unfinished y : goes_with ([], Unfinished) y.
Proof. exists (replied (fst y)). split; [reflexivity | intros N; contradiction N; reflexivity]. Qed.
Lemma goes_over e : goes_with ([], e) ([], e).
Proof. exists []. split; [reflexivity | auto]. Qed.
Lemma goes_read c c' x y : goes_with x y -> goes_with (performing (ARead c) x) (performing (ARead c') y).
Proof. intros Q. exact Q. Qed.
Lemma goes_write h b c c' x y : goes_with x y -> goes_with (performing (AWrite h b c) x) (performing (AWrite h b c') y).
Proof. intros (more & E & N). exists more. split; [|exact N]. unfold performing. cbn [fst]. unfold replied in *. cbn [flat_map app]. rewrite E. reflexivity. Qed.
Lemma goes_then {A} (P : A -> A -> Prop) s s' (g g' : A -> list (sact bconn) * ending) : follows P s s' -> (forall x y, P x y -> goes_with (g x) (g' y)) -> goes_with (then_ s g) (then_ s' g').
Proof. intros F G. destruct s as [x|e|]; cbn in F |- *; [destruct F as (y & -> & Q); apply G, Q | rewrite F; apply goes_over | apply goes_unfinished]. Qed.
Lemma conversation_follows : forall n f f', follows (leads room) (settle f) (settle f') -> goes_with (conversation explain reason ln ps n f) (conversation explain reason ln ps n f').
Proof.
  induction n as [|n IH]; intros f f' F; [apply goes_unfinished|]. cbn [conversation].
  eapply goes_then; [exact F|]. intros c c' L. apply goes_read. eapply goes_then; [apply (read_follows c c' L)|]. intros x y Q.
  destruct x as [q|k|], y as [q'|k'|]; try contradiction; try discriminate Q; [|injection Q as <-; destruct k; apply goes_over | apply goes_over].
  pose proof (reply_follows q q' Q) as Rr. destruct Q as (Em & _). rewrite <- Em. destruct (reply_to explain reason ln ps q) as [d h b|k| |]; cbn in Rr; [|rewrite Rr; apply goes_over|rewrite Rr; apply goes_over|apply goes_unfinished].
  destruct Rr as (d' & -> & Ld). cbv zeta. apply goes_write, IH. cbn. eauto.
Qed.

Notation rnds := (rounds explain reason ln (build (registrations ps))).
Lemma replied_app (a b : list (sact bconn)) : replied (a ++ b) = replied a ++ replied b.
Proof. apply flat_map_app. Qed.
Theorem server_follows c c' k : leads room c c' ->
  exists k', forall j, k' <= j -> exists more, replied (fst (rnds j (task_new (Ready c')))) = replied (fst (rnds k (task_new (Ready c)))) ++ more /\
    forall e, ended (snd (rnds k (task_new (Ready c)))) = Some e -> more = [] /\ ended (snd (rnds j (task_new (Ready c')))) = Some e.
Proof.
  intros L. destruct (conversation_follows k (Ready c) (Ready c')) as (more & E & N); [cbn; eauto|].
  destruct (conversation_rounds explain reason ln ps k (Ready c')) as (k' & a' & Ek & Nk). exists k'. intros j Lj.
  pose proof (rounds_conversation explain reason ln ps k k (Ready c) (Nat.le_refl k)) as Rc. destruct (rnds k (task_new (Ready c))) as [a s] eqn:Er. cbn [fst snd].
  destruct (rounds_more explain reason ln ps (j - k') k' (task_new (Ready c'))) as [z Ez]. replace (j - k' + k') with j in Ez by lia.
  destruct (ended s) as [e|] eqn:Ee.
  - rewrite Rc in E, N. cbn [fst snd] in E, N. assert (Ne : e <> Unfinished) by (destruct s; try discriminate Ee; injection Ee as <-; discriminate).
    destruct (N Ne) as [-> Ec]. rewrite Ec in Nk. destruct (Nk Ne) as [-> Ed].
    assert (O : rnds j (task_new (Ready c')) = rnds k' (task_new (Ready c'))).
    { replace j with (j - k' + k') by lia. apply rounds_over. rewrite Ed. discriminate. }
    exists []. rewrite O, Ek, app_nil_r, E. split; [reflexivity|]. intros e' [= <-]. split; [reflexivity | exact Ed].
  - destruct Rc as [r Rc]. rewrite Rc, replied_app in E. exists (replied r ++ more ++ replied a' ++ replied z). split; [|discriminate].
    rewrite Ez, Ek, !replied_app, E, <- !app_assoc. reflexivity.
Qed.
End Server.

(** Calls *)
Section Client.
Context `{floatlib} `{urlenv}.
Variables (trims : bool) (cl : limits) (p : proc).
Notation w := (byte_wire trims cl).
Notation room := (most_bytes cl).
Lemma decoding_follows r r' b : r_code r = r_code r' -> r_headers r = r_headers r' -> leads room (r_conn r) (r_conn r') -> alike room (snd (decoding p r b)) (snd (decoding p r' b)).
Proof. intros E1 E2 L. unfold decoding. rewrite <- E1, <- E2. destruct (de_response _ _ _); cbn; eauto. Qed.
Lemma after_follows {A} (P : A -> A -> Prop) s s' (g g' : A -> list (act bconn) * result) : follows P s s' -> (forall x y, P x y -> alike room (snd (g x)) (snd (g' y))) -> alike room (snd (after s g)) (snd (after s' g')).
Proof. intros F G. destruct s as [x|e|]; cbn in F |- *; [destruct F as (y & -> & Q); apply G, Q | rewrite F; reflexivity | exact I]. Qed.
Lemma wire_head_follows c c' : leads room c c' -> follows (fun r r' => r_code r = r_code r' /\ r_headers r = r_headers r' /\ leads room (r_conn r) (r_conn r')) (settle (w_head w c)) (settle (w_head w c')).
Proof.
  intros L. unfold w_head, byte_wire, byte_head. eapply follows_bind; [apply (head_follows _ _ room c c' L)|]. intros x y Q.
  destruct x as [[n hs] h k| |], y as [[n' hs'] h' k'| |]; try contradiction; cbn; try reflexivity. destruct Q as [Q1 Q2]. injection Q1 as <- <-. eexists. split; [reflexivity|]. do 2 (split; [reflexivity|]). apply Q2.
Qed.
Lemma wire_body_follows r r' : r_code r = r_code r' -> r_headers r = r_headers r' -> leads room (r_conn r) (r_conn r') ->
  follows (fun x y => snd x = snd y /\ r_code (fst x) = r_code (fst y) /\ r_headers (fst x) = r_headers (fst y) /\ leads room (r_conn (fst x)) (r_conn (fst y))) (settle (w_body w r)) (settle (w_body w r')).
Proof.
  intros E1 E2 L. unfold w_body, byte_wire. eapply follows_bind; [apply (body_follows room _ _ L)|]. intros [b d] [b' d'] [Q1 Q2]. cbn in Q1, Q2. subst b'. cbn. eexists. split; [reflexivity|]. cbn. auto.
Qed.
Lemma sequential_follows v body c c' : leads room c c' -> alike room (snd (sequential w p v body (Ready c))) (snd (sequential w p v body (Ready c'))).
Proof.
  intros L. unfold sequential. cbn [settle after]. destruct (encode_request _ _ _) as [r|k| |]; try reflexivity. unfold doing. cbn [fst snd].
  assert (W : settle (w_write w r body c) = Comes c /\ settle (w_write w r body c') = Comes c') by (split; reflexivity). destruct W as [-> ->]. cbn [after fst snd].
  eapply after_follows; [apply wire_head_follows, L|]. intros x y (Q1 & Q2 & Q3).
  assert (B : alike room (snd (doing (ReadBody x) (after (settle (w_body w x)) (fun '(r, b) => decoding p r b)))) (snd (doing (ReadBody y) (after (settle (w_body w y)) (fun '(r, b) => decoding p r b))))).
  { unfold doing. cbn [fst snd]. eapply after_follows; [apply (wire_body_follows x y Q1 Q2 Q3)|]. intros [r1 b1] [r2 b2] (Eb & A & B & C). cbn [fst snd] in *. subst b2. apply decoding_follows; assumption. }
  destruct (pr_method p); try exact B. apply decoding_follows; assumption.
Qed.
Theorem client_follows v body c c' n : leads room c c' -> over (snd (drive w p n (call_new (v, body) (Ready c)))) ->
  exists n0, forall j, n0 <= j -> alike room (reads_as (snd (drive w p n (call_new (v, body) (Ready c))))) (reads_as (snd (drive w p j (call_new (v, body) (Ready c'))))) /\
    over (snd (drive w p j (call_new (v, body) (Ready c')))).
Proof.
  intros L O. pose proof (call_steps w p v body (Ready c) n) as Q. destruct (drive w p n (call_new (v, body) (Ready c))) as [t o]. cbn [snd] in *.
  assert (R : reads_as o = snd (sequential w p v body (Ready c))) by (destruct o as [[?|? ? ?]| | |]; cbn in O; try contradiction; apply Q).
  pose proof (sequential_follows v body c c' L) as A. rewrite <- R in A.
  assert (Nw : reads_as o <> Waits) by (destruct o as [[?|? ? ?]| | |]; cbn in O |- *; try contradiction; discriminate).
  assert (Nw' : snd (sequential w p v body (Ready c')) <> Waits).
  { intros W. rewrite W in A. destruct (reads_as o); cbn [alike] in A; [contradiction Nw; reflexivity | discriminate A | discriminate A |]. destruct A as (z & Z & _). discriminate Z. }
  destruct (call_finishes w p v body (Ready c') Nw') as [n0 F]. exists n0. intros j Lj. specialize (F j Lj).
  pose proof (call_steps w p v body (Ready c') j) as Q'. destruct (drive w p j (call_new (v, body) (Ready c'))) as [t' o']. cbn [snd] in *. split; [|exact F].
  destruct o' as [[?|? ? ?]| | |]; cbn in F; try contradiction; destruct Q' as [_ ->]; exact A.
Qed.
End Client.

(** Which handlers go by the bytes: those that read the body to its end, those that leave it, and those that refuse. *)
Lemma by_bytes_reads {R} room (hp : hproc bconn R) (mk : value -> method -> ustr -> list rheader -> bytes -> R) :
  (forall v q, hp_body hp v q = fbind (read_body (q_conn q)) (fun '(b, c) => Ready (mkRequest (q_method q) (q_target q) (q_headers q) c, mk v (q_method q) (q_target q) (q_headers q) b))) -> by_bytes room hp.
Proof.
  intros E v q q' (Em & Et & Eh & L). rewrite !E. eapply follows_bind; [apply (body_follows room _ _ L)|]. intros [b d] [b' d'] [Q1 Q2]. cbn in Q1, Q2. subst b'. cbn. eexists. split; [reflexivity|]. cbn. rewrite Em, Et, Eh. auto.
Qed.
Lemma by_bytes_leaves {R} room (hp : hproc bconn R) (mk : value -> method -> ustr -> list rheader -> R) :
  (forall v q, settle (hp_body hp v q) = Comes (q, mk v (q_method q) (q_target q) (q_headers q))) -> by_bytes room hp.
Proof. intros E v q q' (Em & Et & Eh & L). rewrite !E. cbn. eexists. split; [reflexivity|]. cbn. rewrite Em, Et, Eh. auto. Qed.

(** What reading a request comes to. *)
Lemma request_read (trims : bool) (uri_byte : N -> bool) (sl : limits) (c : bconn) : length (b_held c) <= most_bytes sl ->
  match head_in (run (qstep trims uri_byte (most_headers sl)) QStart) (most_bytes sl) (b_closed c) (stream c) with
  | Comes (Some (Some ((m, t, hs), rest))) => exists c', settle (l_read (byte_link trims uri_byte sl) c) = Comes (Got (mkRequest m t hs c')) /\ stream c' = rest /\ b_left c' = body_length hs
  | Comes (Some None) => settle (l_read (byte_link trims uri_byte sl) c) = Comes HttpError
  | Comes None => settle (l_read (byte_link trims uri_byte sl) c) = Comes (IoError UnexpectedEof)
  | Breaks _ => False
  | Hangs => settle (l_read (byte_link trims uri_byte sl) c) = Hangs
  end.
Proof.
  intros L. pose proof (head_exact (qstep trims uri_byte (most_headers sl)) QStart (most_bytes sl) (b_closed c) (b_coming c) (b_held c) L) as X. fold (stream c) in X. rewrite <- X.
  cbn [l_read byte_link]. unfold byte_read. rewrite settle_bind. destruct (settle (read_head _ _ _ _ _)) as [[[[m t] hs] h k| |]|e|] eqn:E; cbn; try reflexivity.
  - eexists. split; [reflexivity|]. split; reflexivity.
  - cbn in X. unfold head_in in X. destruct (run _ _ (firstn _ _)); [|discriminate|discriminate]. destruct (_ <=? _); [discriminate|]. destruct (b_closed c); discriminate.
Qed.
