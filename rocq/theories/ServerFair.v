(** * Proofs about executors that go on for ever. *)
From Verif Require Import Base Decimal DepUrl Serde Json Procedure Router RouterSpec RouterProofs Status SerResponse DeHeader DeRequest JsonText Problem Error Client ClientSpec Server ServerSpec ServerProofs TypeProofs ServerPoll ServerFairSpec.
Open Scope nat_scope.

Lemma doings_acts {Conn} i (ev : list (event Conn)) : doings i ev = acts_of i ev.
Proof. induction ev as [|[j|j a] ev IH]; cbn; auto. unfold acts_of in IH. destruct (Nat.eqb i j); cbn; rewrite IH; reflexivity. Qed.

Section Proofs.
Context `{floatlib} `{urlenv} {Conn R L : Type}.
Variable explain : request Conn -> ekind -> ustr * option ustr * option (list ustr).
Variable reason : status -> ustr.
Variable ln : link Conn.
Variable ps : list (hproc Conn R).
Variable incoming : L -> fut (option (fut Conn) * L).
Notation tr := (build (registrations ps)).
Notation turn := (turn explain reason ln tr).
Notation rounds := (rounds explain reason ln tr).
Notation reply_to := (reply_to explain reason ln ps).
Notation conversation := (conversation explain reason ln ps).
Notation serve_step := (serve_step explain reason ln incoming tr).
Notation serve_run := (serve_run explain reason ln incoming tr).
Notation serve_poll := (serve_poll explain reason ln incoming tr).
Notation serve_polls := (serve_polls explain reason ln incoming tr).
Notation poll_task := (poll_task explain reason ln tr).

(** ** More rounds *)
Lemma rounds_more j k t : exists a, fst (rounds (j + k) t) = fst (rounds k t) ++ a.
Proof.
  induction j as [|j [a IH]]; [exists []; symmetry; apply app_nil_r|]. cbn [Nat.add]. rewrite (rounds_snoc explain reason ln ps).
  destruct (rounds (j + k) t) as [b [t'|t'| |e|]]; cbn [fst] in *; try (exists a; exact IH); destruct (turn t') as [b' s']; cbn [fst]; exists (a ++ b'); rewrite IH, app_assoc; reflexivity.
Qed.
Lemma arounds_more j k a : exists ts, fst (arounds incoming (j + k) a) = fst (arounds incoming k a) ++ ts.
Proof.
  induction j as [|j [ts IH]]; [exists []; symmetry; apply app_nil_r|]. cbn [Nat.add]. rewrite (arounds_snoc incoming).
  destruct (arounds incoming (j + k) a) as [b [t'|t'|e]]; cbn [fst] in *; try (exists ts; exact IH); destruct (accept_turn incoming t') as [b' s']; cbn [fst]; exists (ts ++ b'); rewrite IH, app_assoc; reflexivity.
Qed.
Lemma ended_tview s : ended (tview s) = @ended Conn s.
Proof. destruct s; reflexivity. Qed.

(** Enough rounds have performed the conversation, and so have more. *)
Lemma conversation_by n f : exists K, forall k, K <= k -> exists a', fst (rounds k (task_new f)) = fst (conversation n f) ++ a' /\
  (snd (conversation n f) <> Unfinished -> a' = [] /\ ended (snd (rounds k (task_new f))) = Some (snd (conversation n f))).
Proof.
  destruct (conversation_rounds explain reason ln ps n f) as (K & a & A & B). exists K. intros k Lk. replace k with ((k - K) + K) by lia.
  destruct (rounds_more (k - K) K (task_new f)) as [b Eb]. exists (a ++ b). split; [rewrite Eb, A, app_assoc; reflexivity|].
  intros X. destruct (B X) as [-> Ee]. assert (O : rounds (k - K + K) (task_new f) = rounds K (task_new f)) by (apply rounds_over; rewrite Ee; discriminate).
  rewrite O in *. split; [|exact Ee]. apply (app_inv_head (fst (rounds K (task_new f)))). cbn [app]. rewrite app_nil_r. symmetry. exact Eb.
Qed.

Lemma serve_run_app l : forall l' s, serve_run (l ++ l') s =
  let '(e, s1) := serve_run l s in let '(e', s2) := serve_run l' s1 in (e ++ e', s2).
Proof.
  induction l as [|w l IH]; intros l' s; cbn [Server.serve_run app].
  - destruct (serve_run l' s). reflexivity.
  - destruct (serve_step w s) as [e s1]. rewrite IH. destruct (serve_run l s1) as [e1 s2]. destruct (serve_run l' s2) as [e2 s3]. rewrite app_assoc. reflexivity.
Qed.

(** ** Clients are served *)
Definition serves (i m : nat) (c : fut Conn) (ev : list (event Conn)) (s : server Conn L) : Prop :=
  exists a', acts_of i ev = fst (conversation m c) ++ a' /\
    (snd (conversation m c) <> Unfinished -> a' = [] /\ outcome i s = Some (snd (conversation m c))).

Lemma served bind k i c m : nth_error (fst (accepting incoming k bind)) i = Some c ->
  exists na nc, forall s1 s2, na <= turns is_acceptor s1 -> nc <= turns (is_conn i) s2 ->
    let '(ev, s) := serve_run (s1 ++ s2) (server_new bind) in serves i m c ev s.
Proof.
  intros Ni. destruct (accepting_reached incoming k bind) as (na & ts' & A & _). destruct (conversation_by m c) as (nc & C). exists na, nc.
  intros s1 s2 L1 L2. rewrite serve_run_app. pose proof (all_apart explain reason ln ps incoming bind s1) as P.
  destruct (serve_run s1 (server_new bind)) as [e1 v1]. destruct P as (ts & Ar & _ & _ & _ & T).
  assert (Nt : nth_error ts i = Some (task_new c)).
  { destruct (arounds_more (turns is_acceptor s1 - na) na (AcA bind)) as [b Eb]. replace (turns is_acceptor s1 - na + na) with (turns is_acceptor s1) in Eb by lia.
    rewrite Ar, A in Eb. cbn [fst] in Eb. rewrite Eb. assert (X : i < length (fst (accepting incoming k bind))) by (apply nth_error_Some; congruence).
    rewrite <- app_assoc, nth_error_app1 by (rewrite map_length; exact X). rewrite nth_error_map, Ni. reflexivity. }
  destruct (T i _ Nt) as (st & n & N1 & R1). pose proof (task_from explain reason ln ps incoming s2 v1 i _ _ _ _ N1 R1) as Q.
  destruct (serve_run s2 v1) as [e2 v2]. destruct Q as (st' & N2 & R2). destruct (C (turns (is_conn i) s2 + n) ltac:(lia)) as (a' & Ea & Ee).
  rewrite R2 in Ea, Ee. cbn [fst snd] in Ea, Ee. exists a'. rewrite acts_of_app. split; [exact Ea|]. intros X. destruct (Ee X) as [-> Y]. split; [reflexivity|].
  unfold outcome. rewrite N2, <- ended_tview. exact Y.
Qed.

(** ** Requests are answered *)
Lemma conversation_at n : forall f a c l e, conversation n f = (a ++ ARead c :: l, e) -> exists n',
  (l, e) = then_ (settle (l_read ln c)) (fun x =>
    match x with
    | Got r => replied explain reason ln ps n' (q_method r) (reply_to r)
    | IoError UnexpectedEof | IoError ConnectionReset => ([], Closed)
    | IoError OtherIo | HttpError => ([], Failing Other)
    end).
Proof.
  induction n as [|n IH]; intros f a c l e E; [destruct a; discriminate|]. cbn [ServerSpec.conversation] in E.
  destruct (settle f) as [c0|e0|]; cbn [then_] in E; [|destruct a; discriminate..].
  destruct a as [|x a].
  - injection E as -> El Ee. exists n. rewrite <- El, <- Ee. rewrite <- surjective_pairing. reflexivity.
  - injection E as <- El Ee. destruct (settle (l_read ln c0)) as [y|e0|]; cbn [then_ fst snd] in El, Ee; [|destruct a; discriminate..].
    destruct y as [r|[| |]|]; try (destruct a; discriminate). destruct (reply_to r) as [c' h b|k| |]; try (destruct a; discriminate).
    destruct a as [|y a]; [discriminate|]. unfold performing in El, Ee. cbn [fst snd] in El, Ee. injection El as <- El. apply (IH (l_write ln h (match q_method r with MHead => None | _ => Some b end) c') a).
    rewrite <- El, <- Ee. apply surjective_pairing.
Qed.

Definition replies (i : nat) (a : list (sact Conn)) (c : Conn) (r : request Conn) (ev : list (event Conn)) (s : server Conn L) : Prop :=
  match reply_to r with
  | Sends c' h b => exists l, acts_of i ev = a ++ ARead c :: AWrite h (match q_method r with MHead => None | _ => Some b end) c' :: l
  | Refuses k => acts_of i ev = a ++ [ARead c] /\ outcome i s = Some (Failing k)
  | Crashes => acts_of i ev = a ++ [ARead c] /\ outcome i s = Some Crashed
  | Hesitates => True
  end.
Lemma replies_doings i a c r ev s : replies i a c r ev s ->
  match reply_to r with
  | Sends c' h b => exists l, doings i ev = a ++ ARead c :: AWrite h (match q_method r with MHead => None | _ => Some b end) c' :: l
  | Refuses k => doings i ev = a ++ [ARead c] /\ outcome i s = Some (Failing k)
  | Crashes => doings i ev = a ++ [ARead c] /\ outcome i s = Some Crashed
  | Hesitates => True
  end.
Proof. unfold replies. destruct (reply_to r); rewrite ?doings_acts; auto. Qed.
Lemma replied_by bind s1 ev s i a c r : serve_run s1 (server_new bind) = (ev, s) -> acts_of i ev = a ++ [ARead c] -> settle (l_read ln c) = Comes (Got r) ->
  exists nc, forall s2, nc <= turns (is_conn i) s2 -> let '(ev', s') := serve_run (s1 ++ s2) (server_new bind) in replies i a c r ev' s'.
Proof.
  intros E Ea Er. pose proof (all_apart explain reason ln ps incoming bind s1) as P. rewrite E in P. destruct P as (ts & Ar & _ & _ & Z & T).
  assert (Li : i < length ts). { destruct (Nat.lt_ge_cases i (length ts)) as [X|X]; [exact X|]. rewrite (Z i X) in Ea. destruct a; discriminate. }
  pose proof (arounds_left incoming _ _ (AcA bind) (Nat.le_refl (turns is_acceptor s1))) as Q. rewrite Ar in Q. destruct Q as (cs & -> & _). rewrite map_length in Li.
  destruct (nth_error cs i) as [c0|] eqn:Nc; [|apply nth_error_None in Nc; lia].
  destruct (T i (task_new c0)) as (st & n & N1 & R1); [rewrite nth_error_map, Nc; reflexivity|]. rewrite Ea in R1.
  pose proof (rounds_conversation explain reason ln ps n n c0 (Nat.le_refl n)) as V. rewrite R1 in V.
  assert (W : exists l e, conversation n c0 = (a ++ ARead c :: l, e)).
  { destruct (ended (tview st)) as [e|].
    - exists [], e. exact V.
    - destruct V as [l V]. exists l, (snd (conversation n c0)). rewrite <- app_assoc in V. cbn [app] in V. rewrite <- V. apply surjective_pairing. }
  destruct W as (l & e & W). destruct (conversation_at n c0 a c l e W) as (n' & G). rewrite Er in G. cbn [then_] in G.
  destruct (conversation_by n c0) as (K & C). exists K. intros s2 L2. rewrite serve_run_app, E. 
  pose proof (task_from explain reason ln ps incoming s2 s i _ _ _ _ N1 R1) as Q. destruct (serve_run s2 s) as [e2 v2]. destruct Q as (st' & N2 & R2).
  destruct (C (turns (is_conn i) s2 + n) ltac:(lia)) as (a' & Fa & Fe). rewrite R2, W in Fa, Fe. cbn [fst snd] in Fa, Fe.
  assert (Y : acts_of i (ev ++ e2) = (a ++ ARead c :: l) ++ a') by (rewrite acts_of_app, Ea; exact Fa). clear Fa.
  unfold replies. destruct (reply_to r) as [c' h b|k| |]; cbn [replied] in G; try exact I.
  - injection G as -> _. exists (fst (conversation n' (l_write ln h (body_for (q_method r) b) c')) ++ a'). rewrite Y, <- app_assoc. reflexivity.
  - injection G as -> ->. destruct (Fe ltac:(discriminate)) as [-> Ee]. rewrite app_nil_r in Y. split; [exact Y|]. unfold outcome. rewrite N2, <- ended_tview. exact Ee.
  - injection G as -> ->. destruct (Fe ltac:(discriminate)) as [-> Ee]. rewrite app_nil_r in Y. split; [exact Y|]. unfold outcome. rewrite N2, <- ended_tview. exact Ee.
Qed.

Lemma obliging_replies r : obliging ln ps -> reply_to r <> Hesitates.
Proof.
  intros [D P]. unfold ServerSpec.reply_to. assert (Rf : forall st p, refusal ln r st p <> Hesitates).
  { intros st p. unfold refusal. specialize (D r). unfold ends in D. destruct (settle (l_drain ln r)); cbn [once]; congruence. }
  destruct (parse_url (q_target r)) as [[[segs|] q]|]; [|discriminate | apply Rf].
  destruct (route_spec _ _ _) as [p|[|]] eqn:Er; [|apply Rf | apply Rf].
  assert (Ip : In p ps).
  { destruct (route_spec_sound _ _ _ _ Er) as (ep & I & _). apply accepted_incl, in_map_iff in I. destruct I as (p' & E & I). congruence. }
  destruct (P p Ip) as [B C]. destruct (de_request _ _ _ _) as [v|k| |]; [|apply Rf | discriminate | discriminate].
  specialize (B v r). unfold ends in B. destruct (settle (hp_body p v r)) as [[r' y]|e|]; cbn [once]; [|discriminate | congruence].
  specialize (C y). destruct (nsettle (hp_call p y)) as [[w b]|e|]; cbn [once]; [|discriminate | congruence].
  destruct (encode_response w _); discriminate.
Qed.

(** ** Schedules without end *)
Lemma turns_app f a b : turns f (a ++ b) = turns f a + turns f b.
Proof. unfold turns. rewrite filter_app, app_length. reflexivity. Qed.
Lemma seq_split m n : m <= n -> seq 0 n = seq 0 m ++ seq m (n - m).
Proof. intros X. change (seq m (n - m)) with (seq (0 + m) (n - m)). rewrite <- seq_app. f_equal. lia. Qed.
Lemma count_often {A} (g : A -> bool) (sched : nat -> A) : often (fun x => g x = true) sched -> forall n from, exists len, forall len', len <= len' ->
  n <= length (filter g (map sched (seq from len'))).
Proof.
  intros O n. induction n as [|n IH]; intros from; [exists 0; intros; apply Nat.le_0_l|].
  destruct (O from) as (m & Lm & E). destruct (IH (S m)) as (len & Q). exists (m - from + S len). intros len' Ll.
  replace len' with ((m - from) + S (len' - (m - from) - 1)) by lia. rewrite seq_app, map_app, filter_app, app_length. cbn [seq map filter]. replace (from + (m - from)) with m by lia. rewrite E.
  cbn [length]. specialize (Q (len' - (m - from) - 1) ltac:(lia)). lia.
Qed.
Lemma often_acceptor (sched : nat -> who) : often (fun w => w = Acceptor) sched -> often (fun w => is_acceptor w = true) sched.
Proof. intros O n. destruct (O n) as (m & Lm & E). exists m. rewrite E. auto. Qed.
Lemma often_conn i (sched : nat -> who) : often (fun w => w = Connection i) sched -> often (fun w => is_conn i w = true) sched.
Proof. intros O n. destruct (O n) as (m & Lm & E). exists m. rewrite E. cbn. rewrite Nat.eqb_refl. auto. Qed.

Theorem served_rounds bind sched k i c m :
  often (fun w => w = Acceptor) sched -> often (fun w => w = Connection i) sched -> nth_error (fst (accepting incoming k bind)) i = Some c ->
  finally (fun n => let '(ev, s) := after_rounds explain reason ln ps incoming sched n bind in exists a', doings i ev = fst (conversation m c) ++ a' /\
    (snd (conversation m c) <> Unfinished -> a' = [] /\ outcome i s = Some (snd (conversation m c)))).
Proof.
  intros Oa Oc Ni. destruct (served bind k i c m Ni) as (na & nc & Q). destruct (count_often _ _ (often_acceptor _ Oa) na 0) as (l1 & Q1).
  destruct (count_often _ _ (often_conn i _ Oc) nc l1) as (l2 & Q2). exists (l1 + l2). intros n Ln. unfold after_rounds. rewrite (seq_split l1 n), map_app by lia.
  specialize (Q (map sched (seq 0 l1)) (map sched (seq l1 (n - l1))) (Q1 l1 (Nat.le_refl _)) (Q2 (n - l1) ltac:(lia))).
  destruct (serve_run _ _) as [ev s]. rewrite doings_acts. exact Q.
Qed.
Theorem answered_rounds bind sched t i a c r :
  often (fun w => w = Connection i) sched -> doings i (fst (after_rounds explain reason ln ps incoming sched t bind)) = a ++ [ARead c] -> settle (l_read ln c) = Comes (Got r) ->
  finally (fun n => let '(ev, s) := after_rounds explain reason ln ps incoming sched n bind in
    match reply_to r with
    | Sends c' h b => exists l, doings i ev = a ++ ARead c :: AWrite h (match q_method r with MHead => None | _ => Some b end) c' :: l
    | Refuses k => doings i ev = a ++ [ARead c] /\ outcome i s = Some (Failing k)
    | Crashes => doings i ev = a ++ [ARead c] /\ outcome i s = Some Crashed
    | Hesitates => True
    end).
Proof.
  intros Oc Ea Er. unfold after_rounds in Ea. destruct (serve_run (map sched (seq 0 t)) (server_new bind)) as [ev0 s0] eqn:E. cbn [fst] in Ea. rewrite doings_acts in Ea.
  destruct (replied_by bind _ _ _ i a c r E Ea Er) as (nc & Q). destruct (count_often _ _ (often_conn i _ Oc) nc t) as (l2 & Q2).
  exists (t + l2). intros n Ln. unfold after_rounds. rewrite (seq_split t n), map_app by lia. specialize (Q (map sched (seq t (n - t))) (Q2 (n - t) ltac:(lia))).
  clear E. destruct (serve_run _ _) as [ev s]. exact (replies_doings _ _ _ _ _ _ Q).
Qed.

(** ** Polls are rounds *)
Lemma update_update {A} (x y : A) : forall l i, update i x (update i y l) = update i x l.
Proof. induction l as [|z l IH]; intros [|i]; cbn; auto. f_equal. apply IH. Qed.
Lemma update_same {A} (x : A) : forall l i, nth_error l i = Some x -> update i x l = l.
Proof. induction l as [|z l IH]; intros [|i] E; cbn in *; try discriminate; [congruence|]. f_equal. apply IH, E. Qed.
Lemma poll_conn i : forall fuel s st t a st', nth_error (v_tasks s) i = Some st -> tview st = Goes t -> poll_task fuel t = (a, Ok st') ->
  exists n, serve_run (repeat (Connection i) (S n)) s = (map (EAct i) a, mkServer (v_accept s) (update i st' (v_tasks s))).
Proof.
  induction fuel as [|fuel IH]; intros s st t a st' N V P; cbn [Server.poll_task] in P; [discriminate|].
  assert (St : serve_step (Connection i) s = let '(a, st) := turn t in (map (EAct i) a, mkServer (v_accept s) (update i st (v_tasks s)))).
  { cbn [Server.serve_step]. rewrite N. destruct st; cbn [tview] in V; try discriminate; injection V as ->; reflexivity. }
  destruct (turn t) as [a1 st1] eqn:Et.
  assert (Last : Ok st1 = Ok st' -> a1 = a -> exists n, serve_run (repeat (Connection i) (S n)) s = (map (EAct i) a, mkServer (v_accept s) (update i st' (v_tasks s)))).
  { intros [= <-] <-. exists 0. cbn [repeat Server.serve_run]. rewrite St. rewrite app_nil_r. reflexivity. }
  destruct st1 as [t1|t1| |e|]; try (injection P as E1 E2; apply Last; congruence).
  destruct (poll_task fuel t1) as [a2 st2] eqn:Ep. injection P as <- ->.
  destruct (IH (mkServer (v_accept s) (update i (Goes t1) (v_tasks s))) (Goes t1) t1 a2 st') as (n & Q); [cbn [v_tasks]; rewrite nth_update, Nat.eqb_refl, N; reflexivity | reflexivity | exact Ep |].
  exists (S n). cbn [repeat]. cbn [Server.serve_run]. rewrite St. change (repeat (Connection i) (S n)) with (Connection i :: repeat (Connection i) n) in Q. cbn [v_accept v_tasks] in Q.
  cbn [Server.serve_run] in Q. rewrite Q. rewrite map_app, update_update. reflexivity.
Qed.
Definition spawning (m n : nat) : list (event Conn) := map (fun i => ESpawn (m + i)) (seq 0 n).
Lemma spawning_app m n k : spawning m n ++ spawning (m + n) k = spawning m (n + k).
Proof.
  unfold spawning. rewrite seq_app, map_app. f_equal. cbn [Nat.add]. assert (G : forall o p, map (fun i => @ESpawn Conn (m + p + i)) (seq o k) = map (fun i => ESpawn (m + i)) (seq (p + o) k)).
  { induction k as [|k' IHk]; intros o p; [reflexivity|]. cbn [seq map]. rewrite IHk. f_equal; [f_equal; lia|]. f_equal. f_equal. lia. }
  rewrite G. f_equal. f_equal. lia.
Qed.
Lemma poll_acc : forall fuel s a ts st', aview (v_accept s) = AGoes a -> poll_accept incoming fuel a = (ts, Ok st') ->
  exists n, serve_run (repeat Acceptor (S n)) s = (spawning (length (v_tasks s)) (length ts), mkServer st' (v_tasks s ++ map Goes ts)).
Proof.
  induction fuel as [|fuel IH]; intros s a ts st' V P; cbn [poll_accept] in P; [discriminate|].
  assert (St : serve_step Acceptor s = let '(ts, st) := accept_turn incoming a in (spawning (length (v_tasks s)) (length ts), mkServer st (v_tasks s ++ map Goes ts))).
  { cbn [Server.serve_step]. destruct (v_accept s); cbn [aview] in V; try discriminate; injection V as ->; reflexivity. }
  destruct (accept_turn incoming a) as [t1 st1] eqn:Et.
  assert (Last : Ok st1 = Ok st' -> t1 = ts -> exists n, serve_run (repeat Acceptor (S n)) s = (spawning (length (v_tasks s)) (length ts), mkServer st' (v_tasks s ++ map Goes ts))).
  { intros [= <-] <-. exists 0. cbn [repeat Server.serve_run]. rewrite St. rewrite app_nil_r. reflexivity. }
  destruct st1 as [a1|a1|e]; try (injection P as E1 E2; apply Last; congruence).
  destruct (poll_accept incoming fuel a1) as [t2 st2] eqn:Ep. injection P as <- ->.
  destruct (IH (mkServer (AGoes a1) (v_tasks s ++ map Goes t1)) a1 t2 st' eq_refl Ep) as (n & Q).
  exists (S n). cbn [repeat]. cbn [Server.serve_run]. rewrite St. change (repeat Acceptor (S n)) with (Acceptor :: repeat Acceptor n) in Q. cbn [v_accept v_tasks] in Q.
  cbn [Server.serve_run] in Q. rewrite Q. rewrite !app_length, !map_length, map_app, spawning_app, app_assoc. reflexivity.
Qed.
Lemma poll_run w fuel s ev s' : serve_poll w fuel s = (ev, Ok s') -> exists n, serve_run (repeat w (S n)) s = (ev, s').
Proof.
  destruct w as [|i]; cbn [ServerPoll.serve_poll]; intros P.
  - destruct (v_accept s) as [a|a|k] eqn:Ea; [| |injection P as <- <-; exists 0; cbn; rewrite Ea; reflexivity];
      destruct (poll_accept incoming fuel a) as [ts [st| | |]] eqn:Ep; try discriminate; injection P as <- <-; (eapply poll_acc; [rewrite Ea; reflexivity | exact Ep]).
  - destruct (nth_error (v_tasks s) i) as [[t|t| |k|]|] eqn:N; try (injection P as <- <-; exists 0; cbn; rewrite N; reflexivity);
      destruct (poll_task fuel t) as [a [st| | |]] eqn:Ep; try discriminate; injection P as <- <-; (eapply poll_conn; [exact N | reflexivity | exact Ep]).
Qed.
Definition polls_of (f : who -> bool) (polls : list (who * nat)) : nat := length (filter (fun p => f (fst p)) polls).
Lemma turns_repeat f w n : turns f (repeat w n) = if f w then n else 0.
Proof. unfold turns. induction n as [|n IH]; cbn [repeat filter]; [destruct (f w); reflexivity|]. destruct (f w); cbn [length]; congruence. Qed.
Lemma polls_run : forall polls s ev s', serve_polls polls s = (ev, Ok s') ->
  exists sched, serve_run sched s = (ev, s') /\ forall f, polls_of f polls <= turns f sched.
Proof.
  induction polls as [|[w fuel] polls IH]; intros s ev s' P; cbn [ServerPoll.serve_polls] in P.
  - injection P as <- <-. exists []. split; [reflexivity | intros f; apply Nat.le_0_l].
  - destruct (serve_poll w fuel s) as [e1 [s1| | |]] eqn:E1; try discriminate. destruct (serve_polls polls s1) as [e2 x] eqn:E2. injection P as <- ->.
    destruct (poll_run _ _ _ _ _ E1) as (n & Q). destruct (IH _ _ _ E2) as (sched & Q' & T). exists (repeat w (S n) ++ sched). rewrite serve_run_app, Q, Q'. split; [reflexivity|].
    intros f. rewrite turns_app, turns_repeat. unfold polls_of. cbn [filter fst]. specialize (T f). unfold polls_of in T. destruct (f w); cbn [length]; lia.
Qed.
Lemma serve_polls_app : forall a b s, serve_polls (a ++ b) s =
  match serve_polls a s with (e, Ok s1) => let '(e', x) := serve_polls b s1 in (e ++ e', x) | (e, x) => (e, x) end.
Proof.
  induction a as [|[w fuel] a IH]; intros b s; cbn [ServerPoll.serve_polls app].
  - destruct (serve_polls b s). reflexivity.
  - destruct (serve_poll w fuel s) as [e [s1|k| |]]; try reflexivity. rewrite IH. destruct (serve_polls a s1) as [e1 [s2|k| |]]; try reflexivity.
    destruct (serve_polls b s2) as [e2 x]. rewrite app_assoc. reflexivity.
Qed.
Lemma after_split sched bind t n ev s : t <= n -> after_polls explain reason ln ps incoming sched n bind = (ev, Ok s) ->
  exists s1 s2 ev1 v1, after_polls explain reason ln ps incoming sched t bind = (ev1, Ok v1) /\ serve_run s1 (server_new bind) = (ev1, v1) /\ serve_run (s1 ++ s2) (server_new bind) = (ev, s) /\
    (forall f, polls_of f (map sched (seq 0 t)) <= turns f s1) /\ forall f, polls_of f (map sched (seq t (n - t))) <= turns f s2.
Proof.
  intros Lt P. unfold after_polls in *. rewrite (seq_split t n), map_app, serve_polls_app in P by exact Lt.
  destruct (serve_polls (map sched (seq 0 t)) (server_new bind)) as [e1 [v1|k| |]] eqn:E1; try discriminate.
  destruct (serve_polls (map sched (seq t (n - t))) v1) as [e2 x] eqn:E2. injection P as <- ->.
  destruct (polls_run _ _ _ _ E1) as (s1 & Q1 & T1). destruct (polls_run _ _ _ _ E2) as (s2 & Q2 & T2). exists s1, s2, e1, v1.
  split; [reflexivity|]. split; [exact Q1|]. split; [rewrite serve_run_app, Q1, Q2; reflexivity|]. split; assumption.
Qed.
Lemma often_fst (P : who -> Prop) (g : who -> bool) (sched : nat -> who * nat) : (forall w, P w -> g w = true) -> often (fun p => P (fst p)) sched -> often (fun p => g (fst p) = true) sched.
Proof. intros X O n. destruct (O n) as (m & Lm & E). exists m. auto. Qed.
Lemma conn_eqb i w : w = Connection i -> is_conn i w = true.
Proof. intros ->. apply Nat.eqb_refl. Qed.
Lemma acc_eqb w : w = Acceptor -> is_acceptor w = true.
Proof. intros ->. reflexivity. Qed.

Theorem served_polls bind sched k i c m :
  (forall n, exists s, snd (after_polls explain reason ln ps incoming sched n bind) = Ok s) ->
  often (fun p => fst p = Acceptor) sched -> often (fun p => fst p = Connection i) sched -> nth_error (fst (accepting incoming k bind)) i = Some c ->
  finally (fun n => exists ev s, after_polls explain reason ln ps incoming sched n bind = (ev, Ok s) /\ exists a', doings i ev = fst (conversation m c) ++ a' /\
    (snd (conversation m c) <> Unfinished -> a' = [] /\ outcome i s = Some (snd (conversation m c)))).
Proof.
  intros Ret Oa Oc Ni. destruct (served bind k i c m Ni) as (na & nc & Q).
  destruct (count_often _ _ (often_fst _ _ _ acc_eqb Oa) na 0) as (l1 & Q1). destruct (count_often _ _ (often_fst _ _ _ (conn_eqb i) Oc) nc l1) as (l2 & Q2).
  exists (l1 + l2). intros n Ln. destruct (after_polls explain reason ln ps incoming sched n bind) as [ev x] eqn:E. destruct (Ret n) as [s Es]. rewrite E in Es. cbn [snd] in Es. subst x.
  exists ev, s. split; [reflexivity|]. destruct (after_split sched bind l1 n ev s ltac:(lia) E) as (s1 & s2 & e1 & v1 & _ & _ & F & T1 & T2).
  specialize (Q s1 s2). rewrite F in Q. rewrite doings_acts. apply Q.
  - eapply Nat.le_trans; [|apply T1]. apply Q1. lia.
  - eapply Nat.le_trans; [|apply T2]. apply Q2. lia.
Qed.
Theorem answered_polls bind sched t i a c r :
  (forall n, exists s, snd (after_polls explain reason ln ps incoming sched n bind) = Ok s) ->
  often (fun p => fst p = Connection i) sched -> doings i (fst (after_polls explain reason ln ps incoming sched t bind)) = a ++ [ARead c] -> settle (l_read ln c) = Comes (Got r) ->
  finally (fun n => exists ev s, after_polls explain reason ln ps incoming sched n bind = (ev, Ok s) /\
    match reply_to r with
    | Sends c' h b => exists l, doings i ev = a ++ ARead c :: AWrite h (match q_method r with MHead => None | _ => Some b end) c' :: l
    | Refuses k => doings i ev = a ++ [ARead c] /\ outcome i s = Some (Failing k)
    | Crashes => doings i ev = a ++ [ARead c] /\ outcome i s = Some Crashed
    | Hesitates => True
    end).
Proof.
  intros Ret Oc Ea Er. destruct (Ret t) as [s0 E0]. destruct (after_polls explain reason ln ps incoming sched t bind) as [ev0 x0] eqn:Et. cbn [fst snd] in Ea, E0. subst x0. rewrite doings_acts in Ea.
  assert (W : exists s1, serve_run s1 (server_new bind) = (ev0, s0)) by (destruct (polls_run _ _ _ _ Et) as (s1 & X & _); eauto).
  (* the rounds performed by the first [t] polls are the same in all longer runs *)
  assert (X : forall n, t <= n -> exists s2 ev s, after_polls explain reason ln ps incoming sched n bind = (ev, Ok s) /\
              (let '(e2, v2) := serve_run s2 s0 in ev = ev0 ++ e2 /\ s = v2) /\ forall f, polls_of f (map sched (seq t (n - t))) <= turns f s2).
  { intros n Ln. destruct (Ret n) as [s Es]. destruct (after_polls explain reason ln ps incoming sched n bind) as [ev x] eqn:E. cbn [snd] in Es. subst x.
    unfold after_polls in *. rewrite (seq_split t n), map_app, serve_polls_app, Et in E by exact Ln.
    destruct (serve_polls (map sched (seq t (n - t))) s0) as [e2 x] eqn:E2. injection E as <- ->.
    destruct (polls_run _ _ _ _ E2) as (s2 & Q2 & T2). exists s2, (ev0 ++ e2), s. rewrite Q2. auto. }
  destruct W as [s1 W]. destruct (replied_by bind s1 ev0 s0 i a c r W Ea Er) as (nc & Q). destruct (count_often _ _ (often_fst _ _ _ (conn_eqb i) Oc) nc t) as (l2 & Q2).
  exists (t + l2). intros n Ln. destruct (X n ltac:(lia)) as (s2 & ev & s & E & F & T2). exists ev, s. split; [exact E|]. specialize (Q s2). rewrite serve_run_app, W in Q.
  destruct (serve_run s2 s0) as [e2 v2]. destruct F as [-> ->]. apply replies_doings, Q. eapply Nat.le_trans; [|apply T2]. apply Q2. lia.
Qed.

(** ** When a poll comes back *)
Notation on_request := (on_request explain reason ln tr).
Lemma ready_bind {A B} (f : fut A) (g : A -> fut B) x : fbind f g = Ready x <-> exists y, f = Ready y /\ g y = Ready x.
Proof. destruct f; cbn [fbind]; split; try discriminate; eauto; intros (y & E & G); try discriminate. injection E as <-. exact G. Qed.
Lemma ready_refuse r p : (exists x, refuse ln r p = Ready x) <-> exists r', l_drain ln r = Ready r'.
Proof.
  unfold refuse. split.
  - intros [x E]. apply ready_bind in E. destruct E as (y & E & _). eauto.
  - intros [r' ->]. eexists. reflexivity.
Qed.
Lemma prompt_iff r : promptly ln ps r <-> exists x, on_request r = Ok (Ready x).
Proof.
  unfold promptly, Server.on_request. destruct (parse_url (q_target r)) as [[[segs|] q]|].
  - cbn [u_path]. rewrite routing_refines. unfold registrations. cbn [bind]. destruct (route_spec _ _ _) as [p|n].
    + unfold handle. destruct (de_request _ _ _ _) as [v|k| |].
      * split.
        -- intros (r' & y & E & x & E'). rewrite E. cbn [fbind]. rewrite E'. cbn [no_error fbind]. destruct x. eauto.
        -- intros (x & E). injection E as E. apply ready_bind in E. destruct E as ([r' y] & E & G). apply ready_bind in G. destruct G as (z & G & _). exists r', y. split; [exact E|]. exists z.
           destruct (hp_call p y); cbn in G; congruence.
      * rewrite <- ready_refuse. split; intros [x E]; exists x; [rewrite E; reflexivity | injection E as E; exact E].
      * split; [contradiction | intros [x E]; discriminate].
      * split; [contradiction | intros [x E]; discriminate].
    + rewrite <- ready_refuse. split; intros [x E]; exists x; [rewrite E; reflexivity | injection E as E; exact E].
  - cbn [u_path]. split; [contradiction | intros [x E]; discriminate].
  - rewrite <- ready_refuse. split; intros [x E]; exists x; [rewrite E; reflexivity | injection E as E; exact E].
Qed.
Lemma poll_S fuel t : poll_task (S fuel) t = match turn t with (a, Goes t) => let '(a', s) := poll_task fuel t in (a ++ a', s) | (a, s) => (a, Ok s) end.
Proof. reflexivity. Qed.
Definition comes_back (t : task Conn) : Prop := exists fuel a st, poll_task fuel t = (a, Ok st).
Lemma back_goes t a t' : turn t = (a, Goes t') -> comes_back t <-> comes_back t'.
Proof.
  intros E. split.
  - intros (fuel & b & st & P). destruct fuel as [|fuel]; [discriminate|]. rewrite poll_S, E in P. destruct (poll_task fuel t') as [b' s] eqn:Q. injection P as _ ->. exists fuel, b', st. exact Q.
  - intros (fuel & b & st & P). exists (S fuel), (a ++ b), st. rewrite poll_S, E, P. reflexivity.
Qed.
Lemma back_stop t a st : turn t = (a, st) -> (forall t', st <> Goes t') -> comes_back t.
Proof. intros E N. exists 1, a, st. rewrite poll_S, E. destruct st; try reflexivity. elim (N t0). reflexivity. Qed.
Lemma back_read m c : comes_back (mkTask m (SpA (Ready c))) <-> comes_back (mkTask m (SpB (fbind (l_read ln c) (or_else (Conn := Conn))))).
Proof. apply (back_goes _ [ARead c]). reflexivity. Qed.
Lemma back_request m c r f : l_read ln c = Ready (Got r) -> on_request r = Ok f -> comes_back (mkTask m (SpA (Ready c))) <-> comes_back (mkTask (q_method r) (SpC f)).
Proof. intros E E'. rewrite back_read, E. apply (back_goes _ []). cbn. rewrite E'. reflexivity. Qed.
Lemma back_reply m c' h b : comes_back (mkTask m (SpC (Ready (Ok (c', h, b))))) <-> comes_back (mkTask m (SpA (l_write ln h (body_for m b) c'))).
Proof. apply (back_goes _ [AWrite h (body_for m b) c']). cbn. rewrite body_for_is. reflexivity. Qed.
Lemma reply_ready r x : on_request r = Ok (Ready x) -> reply_to r = of_answer x.
Proof. intros E. rewrite <- (on_request_is explain reason ln ps). rewrite E. reflexivity. Qed.

Lemma poll_goes fuel t a t' b st : poll_task fuel t = (b, Ok st) -> turn t = (a, Goes t') -> exists fuel' b', fuel = S fuel' /\ poll_task fuel' t' = (b', Ok st).
Proof.
  intros P E. destruct fuel as [|fuel]; [discriminate|]. rewrite poll_S, E in P. destruct (poll_task fuel t') as [b' s] eqn:Q. injection P as _ ->. exists fuel, b'. auto.
Qed.
Lemma pauses_back f : pauses explain reason ln ps f -> forall m, comes_back (mkTask m (SpA f)).
Proof.
  induction 1 as [f N|c N|c r E N|c r E N|c r c' h b E Er P IH]; intros m.
  - destruct f as [c|e|f|]; [elim (N c); reflexivity|eapply back_stop; [reflexivity|discriminate]..].
  - apply back_read. destruct (l_read ln c) as [[r|[| |]|]|e|f|]; [elim (N r); reflexivity|eapply back_stop; [reflexivity|discriminate]..].
  - destruct (on_request r) as [f|k| |] eqn:Eo.
    + rewrite (back_request m c r f E Eo). destruct f as [x|e|f|]; [|eapply back_stop; [reflexivity|discriminate]..]. elim N. apply prompt_iff. eauto.
    + apply back_read. rewrite E. eapply back_stop; [cbn; rewrite Eo; reflexivity | discriminate].
    + apply back_read. rewrite E. eapply back_stop; [cbn; rewrite Eo; reflexivity | discriminate].
    + apply back_read. rewrite E. eapply back_stop; [cbn; rewrite Eo; reflexivity | discriminate].
  - destruct (on_request r) as [f|k| |] eqn:Eo.
    + rewrite (back_request m c r f E Eo). destruct f as [x|e|f|]; [|eapply back_stop; [reflexivity|discriminate]..]. apply reply_ready in Eo.
      destruct x as [[[c' h] b]|k| |]; [elim (N c' h b); exact Eo|eapply back_stop; [reflexivity|discriminate]..].
    + apply back_read. rewrite E. eapply back_stop; [cbn; rewrite Eo; reflexivity | discriminate].
    + apply back_read. rewrite E. eapply back_stop; [cbn; rewrite Eo; reflexivity | discriminate].
    + apply back_read. rewrite E. eapply back_stop; [cbn; rewrite Eo; reflexivity | discriminate].
  - destruct (on_request r) as [f|k| |] eqn:Eo; try (rewrite <- (on_request_is explain reason ln ps), Eo in Er; discriminate).
    rewrite (back_request m c r f E Eo). destruct f as [x|e|f|]; [|eapply back_stop; [reflexivity|discriminate]..]. apply reply_ready in Eo. rewrite Er in Eo.
    destruct x as [[[c1 h1] b1]|k| |]; try discriminate. injection Eo as <- <- <-. apply back_reply. apply IH.
Qed.
Lemma back_pauses : forall fuel f m a st, poll_task fuel (mkTask m (SpA f)) = (a, Ok st) -> pauses explain reason ln ps f.
Proof.
  induction fuel as [fuel IH] using lt_wf_ind. intros f m a st P. destruct f as [c|e|f|]; [|apply PConnect; discriminate..].
  destruct (l_read ln c) as [[r|k|]|e|f|] eqn:E; [|apply PRead; rewrite E; discriminate..].
  destruct (on_request r) as [[x|e|f|]|k| |] eqn:Eo.
  - pose proof (reply_ready r x Eo) as Er. destruct x as [[[c' h] b]|k| |]; [|apply (PNone _ _ _ _ c r E); rewrite Er; discriminate..].
    eapply PNext; [exact E | exact Er|]. 
    destruct (poll_goes _ _ _ _ _ _ P eq_refl) as (f1 & a1 & -> & P1). rewrite E in P1. cbn [fbind or_else t_method] in P1.
    destruct (poll_goes f1 _ [] (mkTask (q_method r) (SpC (Ready (Ok (c', h, b))))) a1 st P1) as (f2 & a2 & -> & P2); [cbn; rewrite Eo; reflexivity|].
    destruct (poll_goes f2 _ [AWrite h (body_for (q_method r) b) c'] (mkTask (q_method r) (SpA (l_write ln h (body_for (q_method r) b) c'))) a2 st P2) as (f3 & a3 & -> & P3); [cbn; rewrite body_for_is; reflexivity|].
    apply (IH f3 ltac:(lia) _ _ _ _ P3).
  - eapply PReply; [exact E|]. rewrite prompt_iff. intros [x X]. congruence.
  - eapply PReply; [exact E|]. rewrite prompt_iff. intros [x X]. congruence.
  - eapply PReply; [exact E|]. rewrite prompt_iff. intros [x X]. congruence.
  - apply (PNone _ _ _ _ c r E). rewrite <- (on_request_is explain reason ln ps), Eo. discriminate.
  - apply (PNone _ _ _ _ c r E). rewrite <- (on_request_is explain reason ln ps), Eo. discriminate.
  - apply (PNone _ _ _ _ c r E). rewrite <- (on_request_is explain reason ln ps), Eo. discriminate.
Qed.
Theorem poll_returns_iff f m : (exists fuel a st, poll_task fuel (mkTask m (SpA f)) = (a, Ok st)) <-> pauses explain reason ln ps f.
Proof. split; [intros (fuel & a & st & P); exact (back_pauses fuel f m a st P) | intros P; exact (pauses_back f P m)]. Qed.

Lemma accept_returns f : (exists fuel ts st, poll_accept incoming fuel (AcB f) = (ts, Ok st)) <-> lull incoming f.
Proof.
  split.
  - intros (fuel & ts & st & P). revert f ts P. induction fuel as [|fuel IH]; intros f ts P; [discriminate|]. cbn [poll_accept accept_turn] in P.
    destruct f as [[[c|] l]|e|f|]; try (apply LWait; discriminate). cbn [fpoll] in P. destruct (poll_accept incoming fuel (AcB (incoming l))) as [ts' s] eqn:E. injection P as _ ->.
    apply LNext. eapply IH. exact E.
  - induction 1 as [f N|c l X (fuel & ts & st & P)].
    + destruct f as [[[c|] l]|e|f|]; [elim (N c l); reflexivity|exists 1; do 2 eexists; reflexivity..].
    + exists (S fuel), (task_new c :: ts), st. cbn [poll_accept accept_turn fpoll]. rewrite P. reflexivity.
Qed.
End Proofs.
