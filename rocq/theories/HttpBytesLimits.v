(** * Proofs about what HTTP can carry: which messages fit, those that do not, and headers that are something else (C70-C72). *)
From Verif Require Import Base Utf8 Decimal DepUrl Serde Procedure ScalarSpec PathSpec FieldSpec Status SerHeader SerRequest SerResponse DeHeader DeRequest DeResponse Router RouterSpec DepHttp
  UrlProofs RequestSpec RequestProofs ResponseSpec ResponseProofs ResponseTrip Error Client ClientSpec ClientProofs Server ServerSpec ServerProofs EndToEndSpec SessionSpec SessionProofs
  HttpBytes HttpBytesSpec HttpBytesProofs HttpBytesSession HttpTargets.
Open Scope N_scope.

(** ** Which messages fit *)
Lemma length_told l n : (forall h, In h l -> ~ names_length h) -> tells_length (l ++ [length_header n]) n.
Proof.
  intros N. exists l, (u "Content-Length"), []. split; [reflexivity|]. split; [reflexivity|]. rewrite app_nil_r. exact N.
Qed.
Lemma with_length_safe l n : forallb safe_header l = true -> forallb safe_header (l ++ [length_header n]) = true.
Proof. intros Sf. rewrite forallb_app, Sf. cbn [forallb andb]. rewrite andb_true_r. exact (content_length_safe n). Qed.
Theorem request_fits `{F : floatlib} `{U : urlenv} uri_byte l m ep v body r : entry_ok ep -> wf_value v = true ->
  encode_request ep v (N.of_nat (length body)) = Ok r ->
  exists hs, rb_headers r = hs ++ [length_header (N.of_nat (length body))] /\
    ((forall c, In c (rb_target r) -> clean c -> uri_byte c = true) ->
     forallb safe_header hs = true -> (forall h, In h hs -> ~ names_length h) ->
     (length (request_head m r) <= most_bytes l)%nat -> (length hs < most_headers l)%nat -> fit_request uri_byte l m r body).
Proof.
  intros E W En. pose proof (proj1 (encode_ok_iff ep v _ r) En) as (b & _ & Sd).
  assert (Hh : exists hs, rb_headers r = hs ++ [length_header (N.of_nat (length body))]) by (destruct Sd as [? ? ? ? ? ls|]; [exists (concat ls) | exists []]; reflexivity).
  destruct Hh as [hs Hh]. exists hs. split; [exact Hh|]. intros Uc Sf Nl Lb Lc. destruct (request_target_clean ep v _ r E W En) as [Cl Ne].
  split; [| | |exact Lb|]; rewrite ?Hh.
  - split; [exact Ne|]. intros c I. rewrite Forall_forall in Cl. specialize (Cl c I). split; [exact (Uc c I Cl)|]. destruct Cl as [V _]. lia.
  - apply with_length_safe, Sf.
  - apply length_told, Nl.
  - rewrite app_length. cbn [length]. lia.
Qed.
Theorem response_fits `{F : floatlib} reason l v body h : encode_response v (N.of_nat (length body)) = Ok h ->
  exists hs, pb_headers h = hs ++ [length_header (N.of_nat (length body))] /\
    (forallb value_byte (reason (pb_status h)) = true -> forallb safe_header hs = true -> (forall x, In x hs -> ~ names_length x) ->
     (length (response_head reason h) <= most_bytes l)%nat -> (length hs < most_headers l)%nat -> fit_response reason l h body).
Proof.
  intros E. apply encode_response_iff in E. destruct E as (st & hs & A & ->). exists hs. split; [reflexivity|]. intros V Sf Nl Lb Lc.
  split; [exact V | | |exact Lb|]; cbn [pb_headers].
  - apply with_length_safe, Sf.
  - apply length_told, Nl.
  - rewrite app_length. cbn [length]. rewrite Nat.add_1_r. exact Lc.
Qed.

(** ** Messages that are too big *)
Section Limits.
Context `{F : floatlib} `{U : urlenv} {R : Type}.
Variable explain : request bconn -> ekind -> ustr * option ustr * option (list ustr).
Variable reason : status -> ustr.
Variables (trims : bool) (uri_byte : N -> bool) (sl : limits).
Variable ps : list (hproc bconn R).
Notation ln := (byte_link trims uri_byte sl).

Lemma too_big_garbled s m r z : rb_target r <> [] -> (forall c, In c (rb_target r) -> uri_byte c = true /\ c <> 32) -> forallb safe_header (rb_headers r) = true ->
  (most_bytes sl < length (request_head m r) \/ most_headers sl < length (rb_headers r))%nat ->
  (length (b_held s) <= most_bytes sl)%nat -> stream s = request_head m r ++ z -> settle (l_read ln s) = Comes HttpError.
Proof.
  intros Nt Tt Sf Big Eh E. cbn [l_read byte_link]. unfold byte_read. rewrite settle_bind. unfold stream in E.
  set (H := request_head m r) in *. rewrite head_garbled; [reflexivity | exact Eh | |].
  - intros p z' Ep Lp x y Q. rewrite E in Ep.
    destruct (Nat.leb_spec (length (rb_headers r)) (most_headers sl)) as [Lc|Lc].
    + pose proof (run_request trims uri_byte _ m r Nt Tt Sf Lc) as Rn. fold H in Rn.
      symmetry in Ep. destruct (split_cases _ _ _ _ Ep) as [(t & -> & _)|(t & T & Et & _)].
      * rewrite app_length in Lp. lia.
      * rewrite Et in Rn. rewrite (run_prefix _ _ _ _ _ Rn T) in Q. discriminate Q.
    + pose proof (run_request_many trims uri_byte _ m r Nt Tt Sf Lc) as Rn. fold H in Rn.
      symmetry in Ep. destruct (split_cases _ _ _ _ Ep) as [(t & -> & _)|(t & T & Et & _)].
      * rewrite (run_bad_app _ _ _ t Rn) in Q. discriminate Q.
      * rewrite Et in Rn. rewrite (run_done_app _ _ _ _ _ t Q) in Rn. discriminate Rn.
  - rewrite E. destruct (Nat.leb_spec (length (rb_headers r)) (most_headers sl)) as [Lc|Lc].
    + left. rewrite app_length. lia.
    + right. apply run_bad_app. exact (run_request_many trims uri_byte _ m r Nt Tt Sf Lc).
Qed.
Lemma garbled_stops s : settle (l_read ln s) = Comes HttpError ->
  (forall k, replied (fst (rounds explain reason ln (build (registrations ps)) k (task_new (Ready s)))) = []) /\
  exists k, snd (rounds explain reason ln (build (registrations ps)) k (task_new (Ready s))) = Stops Other.
Proof.
  intros E. assert (C : forall n, conversation explain reason ln ps (S n) (Ready s) = ([ARead s], Failing Other)).
  { intros n. cbn [conversation settle then_]. rewrite E. reflexivity. }
  split.
  - intros k. pose proof (rounds_conversation explain reason ln ps k (S k) (Ready s) ltac:(lia)) as Q. rewrite C in Q. unfold registrations in *.
    match type of Q with let '(_, _) := ?d in _ => change (replied (fst d) = []); destruct d as [a st] end. cbn [fst].
    destruct (ended st); [injection Q as <- _; reflexivity|]. destruct Q as [a' Q]. cbn [fst] in Q.
    destruct a as [|x [|]]; [reflexivity | injection Q as <- _; reflexivity | discriminate Q].
  - destruct (conversation_rounds explain reason ln ps 1 (Ready s)) as (k & a' & _ & Q). rewrite C in Q. destruct (Q ltac:(discriminate)) as [_ Q']. exists k.
    unfold registrations in *. destruct (snd (rounds explain reason ln _ k _)); cbn [ended] in Q'; try discriminate Q'. injection Q' as ->. reflexivity.
Qed.
Theorem too_big_not_answered s m r z : rb_target r <> [] -> (forall c, In c (rb_target r) -> uri_byte c = true /\ c <> 32) -> forallb safe_header (rb_headers r) = true ->
  (most_bytes sl < length (request_head m r) \/ most_headers sl < length (rb_headers r))%nat ->
  (length (b_held s) <= most_bytes sl)%nat -> stream s = request_head m r ++ z ->
  (forall k, replied (fst (rounds explain reason ln (build (registrations ps)) k (task_new (Ready s)))) = []) /\
  exists k, snd (rounds explain reason ln (build (registrations ps)) k (task_new (Ready s))) = Stops Other.
Proof. intros Nt Tt Sf Big Eh E. apply garbled_stops. exact (too_big_garbled s m r z Nt Tt Sf Big Eh E). Qed.

(** A byte that the HTTP parser does not take in a target. *)
Theorem odd_target_not_answered s m r z t1 c t2 : rb_target r = t1 ++ c :: t2 -> (forall c, In c t1 -> uri_byte c = true /\ c <> 32) -> uri_byte c = false -> c <> 32 ->
  (length (b_held s) <= most_bytes sl)%nat -> stream s = request_head m r ++ z ->
  (forall k, replied (fst (rounds explain reason ln (build (registrations ps)) k (task_new (Ready s)))) = []) /\
  exists k, snd (rounds explain reason ln (build (registrations ps)) k (task_new (Ready s))) = Stops Other.
Proof.
  intros Et T1 Uc Nc Eh E. apply garbled_stops. cbn [l_read byte_link]. unfold byte_read. rewrite settle_bind. unfold stream in E.
  assert (Bad : run (qstep trims uri_byte (most_headers sl)) QStart (request_head m r) = PBad).
  { unfold request_head. rewrite Et. rewrite app_assoc, (feed_run _ _ _ _ _ (feed_method trims uri_byte _ m)).
    rewrite <- app_assoc, (feed_run _ _ _ _ _ (feed_target trims uri_byte _ m t1 [] T1)). cbn [app run qstep].
    destruct (N.eqb_spec c 32); [contradiction|]. rewrite Uc. reflexivity. }
  rewrite head_garbled; [reflexivity | exact Eh | |].
  - intros p z' Ep _ x y Q. rewrite E in Ep. symmetry in Ep. destruct (split_cases _ _ _ _ Ep) as [(t & -> & _)|(t & _ & Ex & _)].
    + rewrite (run_bad_app _ _ _ t Bad) in Q. discriminate Q.
    + rewrite Ex in Bad. rewrite (run_done_app _ _ _ _ _ t Q) in Bad. discriminate Bad.
  - right. rewrite E. apply run_bad_app, Bad.
Qed.
End Limits.

(** ** Heads and bodies that are cut off *)
Section Cut.
Context `{F : floatlib} `{U : urlenv}.
Variables (trims : bool) (uri_byte : N -> bool) (reason : status -> ustr) (l : limits).
Theorem cut_request s m r body t : fit_request uri_byte l m r body -> request_head m r = stream s ++ t -> t <> [] ->
  settle (l_read (byte_link trims uri_byte l) s) = if b_closed s then Comes (IoError UnexpectedEof) else Hangs.
Proof.
  intros [[Nt Tt] Sf _ Lb Lc] E T. cbn [l_read byte_link]. unfold byte_read. rewrite settle_bind.
  rewrite (head_waits _ _ _ _ _ _ (run_request trims uri_byte _ m r Nt Tt Sf Lc) Lb _ _ t E T). destruct (b_closed s); reflexivity.
Qed.
Theorem cut_response c h body t : fit_response reason l h body -> response_head reason h = stream c ++ t -> t <> [] ->
  settle (w_head (byte_wire trims l) c) = if b_closed c then Breaks FromMiasht else Hangs.
Proof.
  intros [V Sf _ Lb Lc] E T. cbn [w_head byte_wire]. unfold byte_head. rewrite settle_bind.
  rewrite (head_waits _ _ _ _ _ _ (run_response trims _ reason h V Sf Lc) Lb _ _ t E T). destruct (b_closed c); reflexivity.
Qed.
Theorem cut_body x n : b_left (r_conn x) = Some n -> (length (stream (r_conn x)) < n)%nat ->
  settle (w_body (byte_wire trims l) x) = if b_closed (r_conn x) then Breaks FromMiasht else Hangs.
Proof.
  intros L S. cbn [w_body byte_wire]. unfold read_body. rewrite settle_bind, L, (length_waits n _ _ _ S). destruct (b_closed (r_conn x)); reflexivity.
Qed.
End Cut.

(** ** Headers *)
Definition name_ok (n : bytes) : Prop := n <> [] /\ forallb token_char n = true.
(** What a parser that drops blanks at both ends makes of any bytes is an ordinary header. *)
Lemma chop_last : forall v, chop v <> [] -> blank (last (chop v) 0) = false.
Proof.
  induction v as [|c v IH]; [intros N; contradiction N; reflexivity|]. cbn [chop]. destruct (chop v) as [|d w] eqn:E.
  - destruct (blank c) eqn:B; [intros N; contradiction N; reflexivity|]. intros _. exact B.
  - intros _. change (last (c :: d :: w) 0) with (last (d :: w) 0). apply IH. discriminate.
Qed.
Lemma chop_all (P : N -> bool) : forall v, forallb P v = true -> forallb P (chop v) = true.
Proof.
  induction v as [|c v IH]; intros A; [reflexivity|]. cbn [forallb] in A. apply andb_true_iff in A. destruct A as [C A]. specialize (IH A). cbn [chop].
  destruct (chop v) as [|d w]; [destruct (blank c); [reflexivity|]; cbn; rewrite C; reflexivity | cbn [forallb] in *; rewrite C; exact IH].
Qed.
Lemma chop_head v c w : chop v = c :: w -> exists v', v = c :: v'.
Proof. destruct v as [|d v]; [discriminate|]. cbn [chop]. destruct (chop v) as [|e x]; [destruct (blank d); [discriminate|]|]; intros [= -> _]; eauto. Qed.
Definition begun (v : bytes) : Prop := match v with c :: _ => blank c = false | [] => True end.
Definition going (v : bytes) : Prop := match v with c :: _ => blank c = false | [] => False end.
Lemma chopped_safe n v : name_ok n -> forallb value_byte v = true -> begun v -> safe_header (n, chop v) = true.
Proof.
  intros [N T] V B. unfold safe_header. cbn [fst snd]. rewrite T, (chop_all _ v V). destruct n as [|c n]; [contradiction N; reflexivity|]. cbn [negb andb].
  unfold edge_blank. destruct (chop v) as [|d w] eqn:E; [reflexivity|]. destruct (chop_head _ _ _ E) as [v' ->]. cbn [begun] in B. rewrite B.
  pose proof (chop_last (d :: v')) as L. rewrite E in L. rewrite L by discriminate. reflexivity.
Qed.
Definition sound (s : hstate) : Prop :=
  match s with
  | HStart hs | HLf hs | HEnd hs => forallb safe_header hs = true
  | HName hs n | HLead hs n => forallb safe_header hs = true /\ name_ok n
  | HValue hs n v => forallb safe_header hs = true /\ name_ok n /\ forallb value_byte v = true /\ going v
  end.
Lemma value_sound hs n v c : forallb safe_header hs = true -> name_ok n -> forallb value_byte v = true -> begun v -> going (v ++ [c]) ->
  match value_step true hs n v c with On s => sound s | Over hs => forallb safe_header hs = true | Wrong => True end.
Proof.
  intros Sf Nm V B B'. unfold value_step, finished.
  assert (Q : forallb safe_header (hs ++ [(n, chop v)]) = true) by (rewrite forallb_app, Sf; cbn [forallb andb]; rewrite andb_true_r; apply chopped_safe; assumption).
  destruct (c =? 13); [exact Q|]. destruct (c =? 10); [exact Q|]. destruct (value_byte c) eqn:Vc; [|exact I].
  split; [exact Sf|]. split; [exact Nm|]. split; [|exact B']. rewrite forallb_app, V. cbn [forallb andb]. rewrite Vc. reflexivity.
Qed.
Lemma name_more n c : name_ok n -> token_char c = true -> name_ok (n ++ [c]).
Proof. intros [N T] C. split; [destruct n; discriminate|]. rewrite forallb_app, T. cbn [forallb andb]. rewrite C. reflexivity. Qed.
Lemma hstep_sound most s c : sound s -> match hstep true most s c with On s => sound s | Over hs => forallb safe_header hs = true | Wrong => True end.
Proof.
  destruct s as [hs|hs n|hs n|hs n v|hs|hs]; cbn [hstep sound].
  - intros Sf. destruct (c =? 13); [exact Sf|]. destruct (c =? 10); [exact Sf|]. destruct (token_char c) eqn:T; cbn [andb]; [|exact I].
    destruct (most <=? length hs)%nat; cbn [negb]; [exact I|]. split; [exact Sf|]. split; [discriminate|]. cbn. rewrite T. reflexivity.
  - intros [Sf Nm]. destruct (c =? 58); [split; assumption|]. destruct (token_char c) eqn:T; [|exact I]. split; [exact Sf | apply name_more; assumption].
  - intros [Sf Nm]. destruct (blank c) eqn:B; [split; assumption|]. apply value_sound; auto. exact I.
  - intros (Sf & Nm & V & B). destruct v as [|d v]; [contradiction|]. apply value_sound; auto.
  - intros Sf. destruct (c =? 10); [exact Sf | exact I].
  - intros Sf. destruct (c =? 10); [exact Sf | exact I].
Qed.
Lemma run_sound most : forall l s x r, sound s -> run (hstep true most) s l = PDone x r -> forallb safe_header x = true.
Proof.
  induction l as [|c l IH]; intros s x r So E; cbn [run] in E; [discriminate|]. pose proof (hstep_sound most s c So) as Q.
  destruct (hstep true most s c) as [s'|hs|]; [exact (IH _ _ _ Q E) | injection E as <- _; exact Q | discriminate].
Qed.
(** Exactly the ordinary headers arrive as they were. *)
Theorem delivered_iff hs : byte_deliver true hs = Some hs <-> forallb safe_header hs = true.
Proof.
  split; [|apply byte_deliver_safe]. unfold byte_deliver. destruct (run _ _ _) as [| |x [|]] eqn:E; try discriminate. intros [= ->].
  exact (run_sound _ _ (HStart []) _ _ eq_refl E).
Qed.
(** Whatever a server is sent, the headers of the requests it reads are ordinary. *)
Definition qsound (s : qstate) : Prop := match s with QHeaders _ _ h => sound h | _ => True end.
Lemma qstep_sound uri_byte most s c : qsound s -> match qstep true uri_byte most s c with On s => qsound s | Over x => forallb safe_header (snd x) = true | Wrong => True end.
Proof.
  destruct s as [|m|m t|m t [|x l]|m t|m t h]; cbn [qstep qsound]; intros So.
  - destruct (_ || _); [exact I|]. destruct (token_char c); exact I.
  - destruct (c =? 32); [destruct (method_of m); exact I|]. destruct (token_char c); exact I.
  - destruct (c =? 32); [destruct t; exact I|]. destruct (uri_byte c); exact I.
  - destruct (c =? 13); [exact I|]. destruct (c =? 10); [reflexivity | exact I].
  - destruct (c =? x); exact I.
  - destruct (c =? 10); [reflexivity | exact I].
  - pose proof (hstep_sound most h c So) as Q. destruct (hstep true most h c); exact Q.
Qed.
Lemma qrun_sound uri_byte most : forall l s x r, qsound s -> run (qstep true uri_byte most) s l = PDone x r -> forallb safe_header (snd x) = true.
Proof.
  induction l as [|c l IH]; intros s x r So E; cbn [run] in E; [discriminate|]. pose proof (qstep_sound uri_byte most s c So) as Q.
  destruct (qstep true uri_byte most s c) as [s'|hs|]; [exact (IH _ _ _ Q E) | injection E as <- _; exact Q | discriminate].
Qed.
Lemma head_from {S A} (g : S -> N -> step S A) s0 room closed x a b : forall coming held, settle (read_head (run g s0) room closed held coming) = Comes (Came x a b) -> exists l r, run g s0 l = PDone x r.
Proof.
  induction coming as [|p coming IH]; intros held; cbn [read_head].
  - destruct (run g s0 held) as [| |y r] eqn:E; cbn [settle]; [|discriminate | intros [= -> _ _]; eauto].
    destruct (_ <=? _)%nat; [discriminate|]. destruct closed; discriminate.
  - destruct (run g s0 held) as [| |y r] eqn:E; cbn [settle]; [|discriminate | intros [= -> _ _]; eauto].
    destruct (_ <=? _)%nat; [discriminate|]. cbv zeta. destruct (_ <=? _)%nat; cbn [settle]; [apply IH|].
    destruct (run g s0 (held ++ _)) as [| |y r] eqn:E'; try discriminate. intros [= -> _ _]. eauto.
Qed.
Theorem received_safe uri_byte l s q : settle (l_read (byte_link true uri_byte l) s) = Comes (Got q) -> forallb safe_header (q_headers q) = true.
Proof.
  cbn [l_read byte_link]. unfold byte_read. rewrite settle_bind. destruct (settle (read_head _ _ _ _ _)) as [[[[m t] hs] a b| |]|e|] eqn:E; cbn [settle]; try discriminate.
  intros [= <-]. cbn [q_headers]. destruct (head_from _ _ _ _ _ _ _ _ _ E) as (l0 & r & Q). exact (qrun_sound uri_byte _ l0 QStart (m, t, hs) r I Q).
Qed.
