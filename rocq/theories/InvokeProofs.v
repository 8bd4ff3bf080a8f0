(** * When a handler is run: proofs (C91). *)
From Verif Require Import Base FieldSpec Utf8 Decimal DepUrl Serde Json Procedure Router RouterSpec RouterProofs Status SerHeader SerRequest SerResponse DeHeader DeRequest DeResponse JsonText Problem ProblemSpec Error Client ClientSpec ClientProofs
  Server ServerSpec ServerProofs ServerFair SessionSpec HttpBytes HttpBytesSpec HttpBytesProofs TypeProofs CutsSpec CutsProofs WholeSpec Whole DepHttp ScalarSpec PathSpec UrlProofs PathTrip HeaderProofs RequestArrives ResponseTrip EndToEndSpec HttpBytesSession Invoke InvokeSpec.
Open Scope nat_scope.

Lemma prefix_nil {A} (l : list A) : prefix [] l. Proof. exists l. reflexivity. Qed.
Lemma prefix_refl {A} (l : list A) : prefix l l. Proof. exists []. symmetry. apply app_nil_r. Qed.
Lemma prefix_app {A} (a l1 l2 : list A) : prefix l1 l2 -> prefix (a ++ l1) (a ++ l2).
Proof. intros [z ->]. exists z. apply app_assoc. Qed.
Lemma prefix_trans {A} (a b c : list A) : prefix a b -> prefix b c -> prefix a c.
Proof. intros [x ->] [y ->]. exists (x ++ y). symmetry. apply app_assoc. Qed.
Lemma prefix_anti {A} (a b : list A) : prefix a b -> prefix b a -> a = b.
Proof.
  intros [x E] [y Q]. rewrite E in Q. rewrite <- app_assoc in Q. rewrite <- (app_nil_r a) in Q at 1. apply app_inv_head in Q.
  symmetry in Q. apply app_eq_nil in Q. destruct Q as [-> _]. rewrite E, app_nil_r. reflexivity.
Qed.

Section Proofs.
Context `{floatlib} `{urlenv} {Conn R : Type}.
Variable explain : request Conn -> ekind -> ustr * option ustr * option (list ustr).
Variable reason : status -> ustr.
Variable ln : link Conn.
Variable ps : list (hproc Conn R).
Notation tr := (build (registrations ps)).
Notation reply_to := (reply_to explain reason ln ps).
Notation turn := (turn explain reason ln tr).
Notation rounds := (rounds explain reason ln tr).
Notation iturn := (iturn explain reason ln tr).
Notation irounds := (irounds explain reason ln tr).
Notation happenings := (happenings explain reason ln ps).
Notation run_for := (run_for ps).

(** ** The same server *)
Definition answering (r : request Conn) (x : value * bytes) : fut (res (Conn * respb * bytes)) := let '(v, b) := x in Ready (serialize v (Ok b) (q_conn r)).
Definition calling (p : hproc Conn R) (x : request Conn * R) : fut (res (Conn * respb * bytes)) :=
  let '(r, q) := x in fbind (no_error (hp_call p q)) (fun '(v, b) => Ready (serialize v (Ok b) (q_conn r))).
Definition erase_phase (x : iphase Conn R) : sphase :=
  match x with
  | IA f => SpA f | IB f => SpB f | IRefuse f => SpC f
  | IBody p f => SpC (fbind f (fun '(r, q) => fbind (no_error (hp_call p q)) (fun '(v, b) => Ready (serialize v (Ok b) (q_conn r)))))
  | ICall r f => SpC (fbind (no_error f) (fun '(v, b) => Ready (serialize v (Ok b) (q_conn r))))
  end.
Definition erase (t : itask Conn R) : task Conn := mkTask (i_method t) (erase_phase (i_phase t)).
Definition erase_step (s : istep Conn R) : sstep Conn :=
  match s with IGoes t => Goes (erase t) | ISleeps t => Sleeps (erase t) | IEnds => Ends | IStops k => Stops k | IDies => Dies end.

Lemma outside_app (a b : list (iact Conn R)) : outside (a ++ b) = outside a ++ outside b.
Proof. apply flat_map_app. Qed.
Lemma invoked_app (a b : list (iact Conn R)) : invoked (a ++ b) = invoked a ++ invoked b.
Proof. apply flat_map_app. Qed.
Definition both (x : list (iact Conn R) * istep Conn R) : list (sact Conn) * sstep Conn := (outside (fst x), erase_step (snd x)).
Lemma write_same m x : both (write_turn ln m x) = turn (mkTask m (SpC (Ready x))).
Proof. destruct x as [[[c h] b]|k| |]; reflexivity. Qed.
Lemma call_same m r f : both (call_turn ln m r f) = turn (mkTask m (SpC (fbind (no_error f) (fun '(v, b) => Ready (serialize v (Ok b) (q_conn r)))))).
Proof. destruct f as [[v b]|f|]; try reflexivity. unfold call_turn. rewrite write_same. reflexivity. Qed.
Lemma turn_same t : both (iturn t) = turn (erase t).
Proof.
  destruct t as [m [f|f|f|p f|r f]]; unfold Invoke.iturn, erase; cbn [i_method i_phase erase_phase].
  - destruct f; reflexivity.
  - destruct f as [[r|]|e|f|]; try reflexivity. cbn [fpoll]. unfold Server.turn. cbn [t_phase fpoll]. unfold both, begin_turn, on_request, handle. cbn [fst snd].
    destruct (parse_url (q_target r)) as [x|]; [|reflexivity]. destruct (route tr (q_method r) (u_path x)) as [[p|n]|k| |]; cbn [bind]; try reflexivity.
    destruct (de_request _ _ _ _); reflexivity.
  - destruct f as [x|e|f|]; try reflexivity. apply write_same.
  - destruct f as [[r x]|e|f|]; try reflexivity. cbn [fpoll fbind]. rewrite <- call_same. destruct (call_turn ln m r (hp_call p x)) as [a s]. reflexivity.
  - apply call_same.
Qed.
Lemma rounds_same : forall k t, both (irounds k t) = rounds k (erase t).
Proof.
  induction k as [|k IH]; intros t; [reflexivity|]. cbn [Invoke.irounds Server.rounds]. rewrite <- turn_same. destruct (iturn t) as [a [t'|t'| |e|]]; unfold both; cbn [fst snd erase_step]; try reflexivity;
    rewrite <- IH; destruct (irounds k t') as [a' s]; unfold both; cbn [fst snd]; rewrite outside_app; reflexivity.
Qed.
Theorem same_rounds k f : outside (fst (irounds k (itask_new f))) = fst (rounds k (task_new f)) /\ iended (snd (irounds k (itask_new f))) = ended (snd (rounds k (task_new f))).
Proof. rewrite <- (rounds_same k (itask_new f) : _ = rounds k (task_new f)). unfold both. cbn [fst snd]. split; [reflexivity|]. destruct (snd (irounds k (itask_new f))); reflexivity. Qed.

(** ** What happens *)
Definition hw (n : nat) (m : method) (x : reply) : list (iact Conn R) :=
  match x with Sends c h b => IDoes (AWrite h (body_for m b) c) :: happenings n (l_write ln h (body_for m b) c) | _ => [] end.
Definition hr (n : nat) (r : request Conn) : list (iact Conn R) := map (fun '(p, x) => IInvokes p x) (run_for r) ++ hw n (q_method r) (reply_to r).
Definition hb (n : nat) (f : fut (option (request Conn))) : list (iact Conn R) := match settle f with Comes (Some r) => hr n r | _ => [] end.
Definition hc (n : nat) (m : method) (r : request Conn) (f : nfut (value * bytes)) : list (iact Conn R) :=
  hw n m (once (nsettle f) (fun '(v, b) => of_answer (serialize v (Ok b) (q_conn r)))).
Definition hp (n : nat) (t : itask Conn R) : list (iact Conn R) :=
  match i_phase t with
  | IA f => happenings n f
  | IB f => hb n f
  | IRefuse f => hw n (i_method t) (once (settle f) of_answer)
  | IBody p f => match settle f with Comes (r, x) => IInvokes p x :: hc n (i_method t) r (hp_call p x) | _ => [] end
  | ICall r f => hc n (i_method t) r f
  end.
Lemma happenings_S n f : happenings (S n) f = match settle f with Comes c => IDoes (ARead c) :: hb n (fbind (l_read ln c) (or_else (Conn := Conn))) | _ => [] end.
Proof.
  cbn [InvokeSpec.happenings]. destruct (settle f) as [c|e|]; try reflexivity. f_equal. unfold hb. rewrite settle_bind.
  destruct (settle (l_read ln c)) as [[r|[| |]|]|e|]; reflexivity.
Qed.
Lemma begin_hr n r : hr n r = match begin_turn explain reason ln tr r with IGoes t => hp n t | _ => [] end.
Proof.
  unfold hr. rewrite <- on_request_is. unfold run_for, begin_turn, on_request. destruct (parse_url (q_target r)) as [[[segs|] q]|]; cbn [u_path].
  - unfold registrations. rewrite routing_refines. cbn [bind]. destruct (route_spec _ _ _) as [p|nr]; [|reflexivity]. unfold handle.
    destruct (de_request _ _ _ _) as [v|k| |]; try reflexivity. cbn [reads_reply hp i_phase i_method]. rewrite settle_bind.
    destruct (settle (hp_body p v r)) as [[r' x]|e|]; try reflexivity. cbn [map app]. f_equal. rewrite settle_bind, settle_no_error. unfold hc. f_equal.
    destruct (nsettle (hp_call p x)) as [[w b]|e|]; reflexivity.
  - reflexivity.
  - reflexivity.
Qed.
(** A round does the first of it. *)
Definition onward (n : nat) (t : itask Conn R) (a : list (iact Conn R)) (s : istep Conn R) : Prop :=
  match s with
  | IGoes t' | ISleeps t' => exists n', n <= n' <= S n /\ hp (S n) t = a ++ hp n' t'
  | _ => hp (S n) t = a
  end.
Lemma write_onward n m x t : hp (S n) t = hw (S n) m (of_answer x) -> let '(a, s) := write_turn ln m x in onward n t a s.
Proof.
  intros E. destruct x as [[[c h] b]|k| |]; cbn in E |- *; try exact E. rewrite body_for_is. exists (S n). split; [lia|]. rewrite E. reflexivity.
Qed.
Lemma call_onward n m r f t : hp (S n) t = hc (S n) m r f -> let '(a, s) := call_turn ln m r f in onward n t a s.
Proof.
  intros E. destruct f as [[v b]|f|]; cbn [call_turn].
  - apply write_onward. exact E.
  - exists (S n). split; [lia | exact E].
  - exists (S n). split; [lia | exact E].
Qed.
Lemma turn_onward n t : let '(a, s) := iturn t in onward n t a s.
Proof.
  destruct t as [m [f|f|f|p f|r f]]; unfold Invoke.iturn; cbn [i_method i_phase].
  - destruct f as [c|e|f|]; cbn [fpoll onward].
    + exists n. split; [lia|]. unfold hp. cbn [i_phase]. rewrite happenings_S. reflexivity.
    + unfold hp. cbn [i_phase]. rewrite happenings_S. reflexivity.
    + exists (S n). split; [lia|]. unfold hp. cbn [i_phase]. rewrite !happenings_S. reflexivity.
    + exists (S n). split; [lia|]. unfold hp. cbn [i_phase]. rewrite !happenings_S. reflexivity.
  - destruct f as [[r|]|e|f|]; cbn [fpoll onward]; try reflexivity.
    + pose proof (begin_hr (S n) r) as E. destruct (begin_turn explain reason ln tr r) as [t'|t'| |k|] eqn:B; cbn [onward].
      * exists (S n). split; [lia|]. exact E.
      * exfalso. clear E. revert B. unfold begin_turn. destruct (parse_url _) as [x|]; [|discriminate]. destruct (route _ _ _) as [[?|?]| | |]; try discriminate. destruct (de_request _ _ _ _); discriminate.
      * exact E.
      * exact E.
      * exact E.
    + exists (S n). split; [lia | reflexivity].
    + exists (S n). split; [lia | reflexivity].
  - destruct f as [x|e|f|]; cbn [fpoll onward]; try reflexivity.
    + apply write_onward. reflexivity.
    + exists (S n). split; [lia | reflexivity].
    + exists (S n). split; [lia | reflexivity].
  - destruct f as [[r x]|e|f|]; cbn [fpoll]; try reflexivity.
    + pose proof (call_onward n m r (hp_call p x) (mkItask m (ICall r (hp_call p x))) eq_refl) as C. destruct (call_turn ln m r (hp_call p x)) as [a s].
      destruct s; cbn [onward] in *; unfold hp at 1; cbn [i_phase i_method settle];
        first [destruct C as (n' & L & C); exists n'; split; [exact L|]; cbn [app]; f_equal; exact C | f_equal; exact C].
    + exists (S n). split; [lia | reflexivity].
    + exists (S n). split; [lia | reflexivity].
  - apply call_onward. reflexivity.
Qed.
Lemma rounds_onward : forall k n t, k <= n -> prefix (fst (irounds k t)) (hp n t).
Proof.
  induction k as [|k IH]; intros n t L; [apply prefix_nil|]. destruct n as [|n]; [lia|]. cbn [Invoke.irounds].
  pose proof (turn_onward n t) as Q. destruct (iturn t) as [a [t'|t'| |e|]]; cbn [onward] in Q; cbn [fst]; try (rewrite Q; apply prefix_refl);
    destruct Q as (n' & L' & E); specialize (IH n' t' ltac:(lia)); destruct (irounds k t') as [a' s]; cbn [fst] in *; rewrite E; apply prefix_app, IH.
Qed.

(** ** And all of it is done *)
Definition gets (l : list (iact Conn R)) (t : itask Conn R) : Prop := exists k, prefix l (fst (irounds k t)).
Lemma gets_nil t : gets [] t. Proof. exists 0. apply prefix_nil. Qed.
Lemma gets_turn a s l t : iturn t = (a, s) -> match s with IGoes t' | ISleeps t' => gets l t' | _ => l = [] end -> gets (a ++ l) t.
Proof.
  intros E Q. destruct s as [t'|t'| |k|]; [destruct Q as [k Q]; exists (S k)|destruct Q as [k Q]; exists (S k)|exists 1|exists 1|exists 1]; cbn [Invoke.irounds]; rewrite E.
  - destruct (irounds k t') as [b s]. apply prefix_app, Q.
  - destruct (irounds k t') as [b s]. apply prefix_app, Q.
  - rewrite Q, app_nil_r. apply prefix_refl.
  - rewrite Q, app_nil_r. apply prefix_refl.
  - rewrite Q, app_nil_r. apply prefix_refl.
Qed.
Lemma gets_sleep l t t' : iturn t = ([], ISleeps t') -> gets l t' -> gets l t.
Proof. intros E Q. exact (gets_turn [] _ l t E Q). Qed.

Section Level.
Variable n : nat.
Hypothesis IHn : forall f m, gets (happenings n f) (mkItask m (IA f)).
Lemma write_gets m x t : iturn t = write_turn ln m x -> gets (hw n m (of_answer x)) t.
Proof.
  intros E. destruct x as [[[c h] b]|k| |]; try apply gets_nil. cbn [write_turn] in E. cbn [of_answer hw]. rewrite body_for_is in E.
  change (?x :: ?y) with ([x] ++ y). eapply gets_turn; [exact E|]. apply IHn.
Qed.
Lemma call_gets m r : forall f, gets (hc n m r f) (mkItask m (ICall r f)).
Proof.
  induction f as [[v b]|f IH|].
  - apply (write_gets m). reflexivity.
  - eapply gets_sleep; [reflexivity|]. exact IH.
  - apply gets_nil.
Qed.
Lemma body_gets m p : forall f, gets (hp n (mkItask m (IBody p f))) (mkItask m (IBody p f)).
Proof.
  induction f as [[r x]|e|f IH|]; try apply gets_nil.
  - unfold hp. cbn [i_phase settle i_method]. pose proof (call_gets m r) as G. destruct (hp_call p x) as [[v b]|f|] eqn:Ec.
    + unfold hc. cbn [nsettle once]. destruct (serialize v (Ok b) (q_conn r)) as [[[c h] b']|k| |] eqn:Es; cbn [of_answer hw].
      * change (IInvokes p x :: ?y :: ?l) with ([IInvokes p x; y] ++ l).
        eapply gets_turn; [unfold Invoke.iturn; cbn [i_phase i_method fpoll]; rewrite Ec; cbn [call_turn]; rewrite Es; cbn [write_turn]; rewrite body_for_is; reflexivity|]. apply IHn.
      * apply (gets_turn [IInvokes p x] (IStops k) []); [|reflexivity]. unfold Invoke.iturn. cbn [i_phase i_method fpoll]. rewrite Ec. cbn [call_turn]. rewrite Es. reflexivity.
      * apply (gets_turn [IInvokes p x] IDies []); [|reflexivity]. unfold Invoke.iturn. cbn [i_phase i_method fpoll]. rewrite Ec. cbn [call_turn]. rewrite Es. reflexivity.
      * apply (gets_turn [IInvokes p x] IDies []); [|reflexivity]. unfold Invoke.iturn. cbn [i_phase i_method fpoll]. rewrite Ec. cbn [call_turn]. rewrite Es. reflexivity.
    + apply (gets_turn [IInvokes p x] (ISleeps (mkItask m (ICall r f)))); [|apply (G f)]. unfold Invoke.iturn. cbn [i_phase i_method fpoll]. rewrite Ec. reflexivity.
    + apply (gets_turn [IInvokes p x] (ISleeps (mkItask m (ICall r NNever))) []); [|apply gets_nil]. unfold Invoke.iturn. cbn [i_phase i_method fpoll]. rewrite Ec. reflexivity.
  - eapply gets_sleep; [reflexivity | exact IH].
Qed.
Lemma refuse_gets m : forall f, gets (hw n m (once (settle f) of_answer)) (mkItask m (IRefuse f)).
Proof.
  induction f as [x|e|f IH|]; try apply gets_nil.
  - apply (write_gets m). reflexivity.
  - eapply gets_sleep; [reflexivity | exact IH].
Qed.
Lemma read_gets m : forall f, gets (hb n f) (mkItask m (IB f)).
Proof.
  induction f as [[r|]|e|f IH|]; try apply gets_nil.
  - unfold hb. cbn [settle]. pose proof (begin_hr n r) as E. rewrite E.
    eapply (gets_turn [] (begin_turn explain reason ln tr r)); [reflexivity|]. unfold begin_turn. destruct (parse_url _) as [x|]; [|apply refuse_gets].
    destruct (route _ _ _) as [[p|nr]|k| |]; try reflexivity; [|apply refuse_gets]. destruct (de_request _ _ _ _); [apply body_gets | apply refuse_gets | reflexivity | reflexivity].
  - eapply gets_sleep; [reflexivity | exact IH].
Qed.
End Level.
Lemma happenings_got : forall n f m, gets (happenings n f) (mkItask m (IA f)).
Proof.
  induction n as [|n IHn]; intros f m; [apply gets_nil|]. rewrite happenings_S. induction f as [c|e|f IH|]; cbn [settle]; try apply gets_nil.
  - change (?x :: ?y) with ([x] ++ y). eapply gets_turn; [reflexivity|]. apply read_gets. exact IHn.
  - eapply gets_sleep; [reflexivity | exact IH].
Qed.
Lemma irounds_more : forall d k t, prefix (fst (irounds k t)) (fst (irounds (d + k) t)).
Proof.
  intros d k. replace (d + k) with (k + d) by lia. induction k as [|k IH]; intros t; [apply prefix_nil|]. cbn [Nat.add Invoke.irounds].
  destruct (iturn t) as [a [t'|t'| |e|]]; try apply prefix_refl; specialize (IH t'); destruct (irounds k t') as [b s], (irounds (k + d) t') as [b' s']; apply prefix_app, IH.
Qed.
(** What has happened is the first of what is to happen, and any part of that happens. *)
Theorem happens f : (forall k n, k <= n -> prefix (fst (irounds k (itask_new f))) (happenings n f)) /\
  forall n, exists k0, forall k, k0 <= k -> prefix (happenings n f) (fst (irounds k (itask_new f))).
Proof.
  split.
  - intros k n L. exact (rounds_onward k n (itask_new f) L).
  - intros n. destruct (happenings_got n f MGet) as [k0 Q]. exists k0. intros k L. eapply prefix_trans; [exact Q|]. replace k with (k - k0 + k0) by lia. apply irounds_more.
Qed.

(** ** Between two runs of handlers a response is written and a request read *)
Lemma run_for_one r : run_for r = [] \/ exists p x, run_for r = [(p, x)].
Proof.
  unfold InvokeSpec.run_for. destruct (parse_url _) as [[[segs|] q]|]; auto. destruct (route_spec _ _ _); auto. destruct (de_request _ _ _ _); auto. destruct (settle _) as [[? ?]|e|]; eauto.
Qed.
(** The order of what happens: a request is read, a handler may be run, the response is written. *)
Inductive stand := SIdle | SRead | SRan.
Fixpoint tidy (st : stand) (l : list (iact Conn R)) : Prop :=
  match l with
  | [] => True
  | IDoes (ARead _) :: l => st = SIdle /\ tidy SRead l
  | IDoes (AWrite _ _ _) :: l => st <> SIdle /\ tidy SIdle l
  | IInvokes _ _ :: l => st = SRead /\ tidy SRan l
  end.
Lemma happenings_tidy : forall n f, tidy SIdle (happenings n f).
Proof.
  induction n as [|n IH]; intros f; [exact I|]. cbn [InvokeSpec.happenings]. destruct (settle f) as [c|e|]; try exact I. cbn [tidy]. split; [reflexivity|].
  destruct (settle (l_read ln c)) as [[r|k|]|e|]; try exact I.
  assert (G : forall b, b <> SIdle -> tidy b (match reply_to r with Sends c h b => IDoes (AWrite h (match q_method r with MHead => None | _ => Some b end) c) :: happenings n (l_write ln h (match q_method r with MHead => None | _ => Some b end) c) | _ => [] end)).
  { intros b' Nb. destruct (reply_to r); try exact I. cbn [tidy]. split; [exact Nb | apply IH]. }
  cbv zeta. destruct (run_for_one r) as [-> | (p & x & ->)]; cbn [map app tidy]; [apply G; discriminate|]. split; [reflexivity | apply G; discriminate].
Qed.
Lemma tidy_prefix : forall l b z, tidy b (l ++ z) -> tidy b l.
Proof. induction l as [|[[c|h o c]|p x] l IH]; intros b z; cbn [app tidy]; [auto| | | ]; intros [E Q]; split; try exact E; exact (IH _ _ Q). Qed.
Lemma tidy_last : forall l st p x z, tidy st (l ++ IInvokes p x :: z) -> l = [] /\ st = SRead \/ exists l' c, l = l' ++ [IDoes (ARead c)].
Proof.
  induction l as [|y l IH]; intros st p x z T.
  - left. split; [reflexivity | exact (proj1 T)].
  - right. assert (Q : exists st', tidy st' (l ++ IInvokes p x :: z) /\ (st' = SRead -> exists c, y = IDoes (ARead c))).
    { destruct y as [[c|h o c]|q y]; cbn [app tidy] in T; destruct T as [_ T]; eexists; (split; [exact T|]); intros E; try discriminate. exists c. reflexivity. }
    destruct Q as (st' & Q & Y). destruct (IH st' p x z Q) as [[-> E] | (l' & c & ->)].
    + destruct (Y E) as [c ->]. exists [], c. reflexivity.
    + exists (y :: l'), c. reflexivity.
Qed.
Lemma tidy_split : forall l1 b p x l2, tidy b (l1 ++ IInvokes p x :: l2) -> tidy SRan l2.
Proof. induction l1 as [|[[c|h o c]|q y] l1 IH]; intros b p x l2; cbn [app tidy]; [intros [_ Q]; exact Q| | | ]; intros [_ Q]; exact (IH _ _ _ _ Q). Qed.
Theorem once_each k f l1 p x l2 p' x' l3 : fst (irounds k (itask_new f)) = l1 ++ IInvokes p x :: l2 ++ IInvokes p' x' :: l3 ->
  exists h b c l c', l2 = IDoes (AWrite h b c) :: l ++ [IDoes (ARead c')].
Proof.
  intros E. assert (T : tidy SIdle (fst (irounds k (itask_new f)))).
  { destruct (proj1 (happens f) k k (le_n k)) as [z Z]. apply (tidy_prefix _ _ z). rewrite <- Z. apply happenings_tidy. }
  rewrite E in T. apply tidy_split in T. destruct l2 as [|[[c|h b c]|q y] l2]; cbn [app tidy] in T; destruct T as [A T]; try discriminate.
  destruct (tidy_last _ _ _ _ _ T) as [[_ Q] | (l & c' & ->)]; [discriminate|]. exists h, b, c, l, c'. reflexivity.
Qed.
Theorem run_after_read k f l1 p x l2 : fst (irounds k (itask_new f)) = l1 ++ IInvokes p x :: l2 ->
  (exists l c, l1 = l ++ [IDoes (ARead c)]) /\ match l2 with [] => True | a :: _ => exists h b c, a = IDoes (AWrite h b c) end.
Proof.
  intros E. assert (T : tidy SIdle (fst (irounds k (itask_new f)))).
  { destruct (proj1 (happens f) k k (le_n k)) as [z Z]. apply (tidy_prefix _ _ z). rewrite <- Z. apply happenings_tidy. }
  rewrite E in T. split.
  - destruct (tidy_last _ _ _ _ _ T) as [[_ Q] | Q]; [discriminate | exact Q].
  - apply tidy_split in T. destruct l2 as [|[[c|h b c]|q y] l2]; [exact I|destruct T as [Q _]; discriminate|eauto|destruct T as [Q _]; discriminate].
Qed.
End Proofs.

(** ** By the bytes that come *)
Section Bytes.
Context `{floatlib} `{urlenv} {R : Type}.
Variable explain : request bconn -> ekind -> ustr * option ustr * option (list ustr).
Variable explained : method -> ustr -> list rheader -> ekind -> ustr * option ustr * option (list ustr).
Variable reason : status -> ustr.
Variables (trims : bool) (uri_byte : N -> bool) (sl : limits).
Variable ps : list (hproc bconn R).
Variable manners : hproc bconn R -> manner R.
Hypothesis Ex : forall q k, explain q k = explained (q_method q) (q_target q) (q_headers q) k.
Hypothesis Hm : forall hp, In hp ps -> behaves hp (manners hp).
Notation ln := (byte_link trims uri_byte sl).
Notation room := (most_bytes sl).
Notation parse := (run (qstep trims uri_byte (most_headers sl)) QStart).
Notation happenings := (happenings explain reason ln ps).
Notation irounds := (irounds explain reason ln (build (registrations ps))).
Notation retort_to := (retort_to explained reason ps manners).
Notation exchange := (exchange explained reason parse room ps manners).
Notation run_in := (run_in ps manners).
Notation runs := (runs explained reason parse room ps manners).
Notation all_runs := (all_runs explained reason parse room ps manners).

Lemma run_exact closed m t hs s c : holds room closed s c -> b_left c = body_length hs -> run_for ps (mkRequest m t hs c) = run_in closed m t hs s.
Proof.
  intros Hc Hl. unfold run_for, InvokeSpec.run_in. cbn [q_method q_target q_headers]. destruct (parse_url t) as [[[segs|] qs]|]; try reflexivity.
  destruct (route_spec _ m segs) as [hp|nr] eqn:Rt; [|reflexivity].
  assert (I : In hp ps).
  { apply route_in in Rt. apply in_map_iff in Rt. destruct Rt as [g [<- I]]. apply accepted_spec in I. destruct I as (l1 & l2 & I & _).
    assert (J : In g (map (fun p => (hp_method p, hp_entry p, p)) ps)) by (rewrite I; apply in_app_iff; right; left; reflexivity).
    apply in_map_iff in J. destruct J as [x [<- J]]. exact J. }
  destruct (de_request _ _ _ _) as [v|k| |]; try reflexivity. pose proof (Hm hp I) as M. unfold handed. destruct (manners hp) as [mk|mk]; cbn in M.
  - rewrite M, settle_bind. cbn [q_conn q_method q_target q_headers]. pose proof (body_exact room closed hs s c Hc Hl) as B. destruct (body_in closed hs s) as [[b rest]|e|].
    + destruct B as (c' & -> & B). reflexivity.
    + rewrite B. reflexivity.
    + rewrite B. reflexivity.
  - rewrite M. reflexivity.
Qed.
Lemma invoked_runs l : invoked (map (fun '(p, x) => @IInvokes bconn R p x) l) = l.
Proof. unfold invoked. induction l as [|[p x] l IH]; [reflexivity|]. cbn [map flat_map app]. rewrite IH. reflexivity. Qed.
Lemma happenings_runs : forall n closed s c, holds room closed s c -> invoked (happenings n (Ready c)) = runs n closed s.
Proof.
  induction n as [|n IH]; intros closed s c Hc; [reflexivity|]. cbn [InvokeSpec.happenings InvokeSpec.runs settle].
  pose proof (request_exact trims uri_byte sl closed s c Hc) as Q. destruct (head_in _ _ _ _) as [[[[[[m t] hs] rest]|]|]|e|]; [| | |contradiction|].
  - destruct Q as (c' & -> & Hc' & Hl'). change (invoked (?a :: ?l)) with (invoked ([a] ++ l)). rewrite invoked_app. cbn [invoked flat_map app].
    rewrite invoked_app, invoked_runs, (run_exact closed m t hs rest c' Hc' Hl'). f_equal.
    pose proof (reply_accords explain explained reason trims uri_byte sl ps manners Ex Hm closed m t hs rest c' Hc' Hl') as A.
    destruct (retort_to closed m t hs rest) as [h b rest'|e].
    + destruct A as (d & -> & Hd). cbv zeta. change (invoked (?a :: ?l)) with (invoked ([a] ++ l)). rewrite invoked_app. cbn [invoked flat_map app].
      assert (W : forall body, happenings n (l_write ln h body d) = happenings n (Ready d)) by (intros body; destruct n; reflexivity).
      rewrite W. exact (IH closed rest' d Hd).
    + destruct e; cbn in A; [rewrite A|contradiction|rewrite A|rewrite A]; reflexivity.
  - rewrite Q. reflexivity.
  - rewrite Q. reflexivity.
  - rewrite Q. reflexivity.
Qed.
Lemma runs_all : forall n closed s, length s < n -> runs n closed s = all_runs closed s.
Proof.
  assert (G : forall n m closed s, length s < n -> length s < m -> runs n closed s = runs m closed s).
  { induction n as [|n IH]; intros m closed s L M; [lia|]. destruct m as [|m]; [lia|]. cbn [InvokeSpec.runs].
    destruct (head_in _ _ _ _) as [[[[[[m' t] hs] rest]|]|]|e|] eqn:Hd; try reflexivity. apply head_short in Hd.
    destruct (retort_to closed m' t hs rest) as [h b rest'|e] eqn:Rt; [|reflexivity]. assert (Lr : length rest' <= length rest) by exact (retort_short explained reason ps manners Hm _ _ _ _ _ _ _ _ Rt). rewrite (IH m closed rest') by lia. reflexivity. }
  intros n closed s L. apply G; lia.
Qed.
Theorem runs_by_bytes c : length (b_held c) <= room ->
  (forall k, prefix (invoked (fst (irounds k (itask_new (Ready c))))) (all_runs (b_closed c) (stream c))) /\
  exists k0, forall k, k0 <= k -> invoked (fst (irounds k (itask_new (Ready c)))) = all_runs (b_closed c) (stream c).
Proof.
  intros Hl. assert (Hc : holds room (b_closed c) (stream c) c) by (split; [reflexivity | split; [reflexivity | exact Hl]]).
  destruct (happens explain reason ln ps (Ready c)) as [P Q].
  assert (A : forall k, prefix (invoked (fst (irounds k (itask_new (Ready c))))) (all_runs (b_closed c) (stream c))).
  { intros k. destruct (P k (k + S (length (stream c))) ltac:(lia)) as [z Z]. rewrite <- (runs_all (k + S (length (stream c)))) by lia. rewrite <- (happenings_runs _ _ _ _ Hc), Z, invoked_app. exists (invoked z). reflexivity. }
  split; [exact A|]. destruct (Q (S (length (stream c)))) as [k0 K]. exists k0. intros k L. apply prefix_anti; [apply A|].
  destruct (K k L) as [z Z]. rewrite Z, invoked_app, (happenings_runs _ _ _ _ Hc). exists (invoked z). reflexivity.
Qed.

(** ** Calls one after the other, and the bytes cut off anywhere *)
Hypothesis Ht : forall hp, In hp ps -> exists mk, manners hp = Takes mk.
Lemma routed_in m segs hp : route_spec (accepted (map (fun p => (hp_method p, hp_entry p, p)) ps)) m segs = inl hp -> In hp ps.
Proof.
  intros Rt. apply route_in in Rt. apply in_map_iff in Rt. destruct Rt as [g [<- I]]. apply accepted_spec in I. destruct I as (l1 & l2 & I & _).
  assert (J : In g (map (fun p => (hp_method p, hp_entry p, p)) ps)) by (rewrite I; apply in_app_iff; right; left; reflexivity).
  apply in_map_iff in J. destruct J as [x [<- J]]. exact J.
Qed.
Lemma retort_rest closed m t hs s h b rest : retort_to closed m t hs s = Replies h b rest -> exists body, body_in closed hs s = Comes (body, rest).
Proof.
  assert (P : forall st p, problem_reply closed hs st p s = Replies h b rest -> exists body, body_in closed hs s = Comes (body, rest)).
  { intros st p. unfold problem_reply. destruct (body_in closed hs s) as [[x y]|e|]; cbn; try discriminate. intros [= _ _ <-]. eauto. }
  unfold WholeSpec.retort_to, invalid. destruct (parse_url t) as [[[segs|] qs]|]; [|discriminate|destruct (explained m t hs Invalid) as [[? ?] ?]; apply P].
  destruct (route_spec _ m segs) as [hp|[]] eqn:Rt; [|apply P|apply P]. destruct (de_request _ _ _ _) as [v|k| |]; [|destruct (explained m t hs k) as [[? ?] ?]; apply P|discriminate|discriminate].
  destruct (Ht hp (routed_in _ _ _ Rt)) as [mk ->]. unfold handed. destruct (body_in closed hs s) as [[x y]|e|]; cbn [with_body]; try discriminate.
  destruct (nsettle (hp_call hp (mk v m t hs x))) as [[w b']|e|]; try discriminate. destruct (encode_response _ _); try discriminate. intros [= _ _ <-]. eauto.
Qed.
Lemma run_whole closed m t hs s body rest : body_in closed hs s = Comes (body, rest) -> run_in closed m t hs s = worth_of ps manners m t hs body.
Proof.
  intros E. unfold InvokeSpec.run_in, worth_of. destruct (parse_url t) as [[[segs|] qs]|]; try reflexivity. destruct (route_spec _ m segs) as [hp|nr] eqn:Rt; [|reflexivity].
  destruct (de_request _ _ _ _); try reflexivity. destruct (Ht hp (routed_in _ _ _ Rt)) as [mk ->]. unfold handed. rewrite E. reflexivity.
Qed.
Lemma run_cut closed m t hs s : (forall x, body_in closed hs s <> Comes x) -> run_in closed m t hs s = [].
Proof.
  intros E. unfold InvokeSpec.run_in. destruct (parse_url t) as [[[segs|] qs]|]; try reflexivity. destruct (route_spec _ m segs) as [hp|nr] eqn:Rt; [|reflexivity].
  destruct (de_request _ _ _ _); try reflexivity. destruct (Ht hp (routed_in _ _ _ Rt)) as [mk ->]. unfold handed. destruct (body_in closed hs s) as [[x y]| |]; try reflexivity. elim (E _ eq_refl).
Qed.
Lemma head_of_asking closed m r body z : fit_request uri_byte sl m r body ->
  head_in parse room closed (request_head m r ++ z) = Comes (Some (Some ((m, rb_target r, rb_headers r), z))).
Proof.
  intros [[T1 T2] Hh _ Hb Hc]. pose proof (run_request trims uri_byte (most_headers sl) m r T1 T2 Hh Hc) as P. unfold head_in.
  rewrite firstn_app, (firstn_all2 (n := room) (request_head m r)) by exact Hb. rewrite (run_done_app _ _ _ _ _ _ P). cbn [app]. rewrite skipn_app, (skipn_all2 (n := room) (request_head m r)) by exact Hb.
  cbn [app]. rewrite firstn_skipn. reflexivity.
Qed.
Lemma head_of_cut closed m r body s t : fit_request uri_byte sl m r body -> request_head m r = s ++ t -> t <> [] ->
  head_in parse room closed s = if closed then Comes None else Hangs.
Proof.
  intros [[T1 T2] Hh _ Hb Hc] E Nt. pose proof (run_request trims uri_byte (most_headers sl) m r T1 T2 Hh Hc) as P. rewrite E in P, Hb.
  assert (L : length s < room) by (rewrite app_length in Hb; destruct t; [congruence|]; cbn in Hb; lia).
  unfold head_in. rewrite firstn_all2 by lia. rewrite (run_prefix _ _ _ _ _ P Nt), (proj2 (Nat.leb_gt _ _) L). reflexivity.
Qed.
Theorem runs_of_calls closed : forall l s n, Forall (fun a => fit_request uri_byte sl (a_method a) (a_request a) (a_body a)) l -> prefix s (flat_map asking_bytes l) ->
  exists j, prefix (flat_map asking_bytes (firstn j l)) s /\ runs n closed s = flat_map (worth ps manners) (firstn j l) /\
    length (fst (exchange n closed s)) <= j <= S (length (fst (exchange n closed s))).
Proof.
  induction l as [|a l IH]; intros s n Fl [t Pt].
  - exists 0. split; [apply prefix_nil|]. symmetry in Pt. cbn in Pt. apply app_eq_nil in Pt. destruct Pt as [-> _]. destruct n; [split; [reflexivity | cbn; lia]|]. cbn [InvokeSpec.runs WholeSpec.exchange].
    unfold head_in. rewrite firstn_nil. cbn [run]. destruct (_ <=? _); [split; [reflexivity | cbn; lia]|]. destruct closed; (split; [reflexivity | cbn; lia]).
  - inversion Fl as [|? ? Fa Fl']; subst. destruct n as [|n]; [exists 0; split; [apply prefix_nil | split; [reflexivity | cbn; lia]]|]. cbn [flat_map] in Pt. unfold asking_bytes at 1 in Pt. rewrite <- app_assoc in Pt. cbn [InvokeSpec.runs WholeSpec.exchange].
    destruct a as [m r body]. cbn [a_method a_request a_body] in *.
    destruct (Nat.lt_ge_cases (length s) (length (request_head m r))) as [Ls|Ls].
    + exists 0. split; [apply prefix_nil|]. assert (E : request_head m r = s ++ firstn (length (request_head m r) - length s) t).
      { transitivity (firstn (length (request_head m r)) (request_head m r ++ body ++ flat_map asking_bytes l)).
        - rewrite firstn_app, Nat.sub_diag, firstn_all. cbn [firstn]. symmetry. apply app_nil_r.
        - rewrite Pt, firstn_app, (firstn_all2 s) by lia. reflexivity. }
      match goal with |- (match ?X with _ => _ end) = _ /\ _ => assert (Hx : X = if closed then Comes None else Hangs) end.
      { apply (head_of_cut closed m r body s _ Fa E). intros Q. rewrite Q, app_nil_r in E. rewrite E in Ls. lia. }
      rewrite Hx. destruct closed; (split; [reflexivity | cbn; lia]).
    + assert (E : exists s', s = request_head m r ++ s').
      { exists (skipn (length (request_head m r)) s). transitivity (firstn (length (request_head m r)) s ++ skipn (length (request_head m r)) s); [symmetry; apply firstn_skipn|]. f_equal.
        transitivity (firstn (length (request_head m r)) (s ++ t)).
        - rewrite firstn_app. replace (length (request_head m r) - length s) with 0 by lia. cbn [firstn]. symmetry. apply app_nil_r.
        - rewrite <- Pt, firstn_app, Nat.sub_diag, firstn_all. cbn [firstn]. apply app_nil_r. }
      destruct E as [s' ->]. match goal with |- exists j, _ /\ (match ?X with _ => _ end) = _ /\ _ => assert (Hx : X = Comes (Some (Some ((m, rb_target r, rb_headers r), s')))) by exact (head_of_asking closed m r body s' Fa) end.
      rewrite Hx. clear Hx. rewrite <- app_assoc in Pt. apply app_inv_head in Pt.
      assert (Lg : length_given (rb_headers r) = Some (length body)).
      { rewrite length_given_ok, (told_length _ _ (fq_length _ _ _ _ _ Fa)), Nat2N.id. reflexivity. }
      destruct (Nat.lt_ge_cases (length s') (length body)) as [Lb|Lb].
      * exists 0. split; [apply prefix_nil|]. assert (Nb : forall x, body_in closed (rb_headers r) s' <> Comes x).
        { intros x. unfold body_in. rewrite Lg, (proj2 (Nat.leb_gt _ _) Lb). destruct closed; discriminate. }
        rewrite (run_cut closed m _ _ s' Nb). cbn [app]. destruct (retort_to closed m (rb_target r) (rb_headers r) s') as [h b rest|e] eqn:Rt; [|split; [reflexivity | cbn; lia]].
        apply retort_rest in Rt. destruct Rt as [x Rt]. elim (Nb _ Rt).
      * assert (E : exists s'', s' = body ++ s'').
        { exists (skipn (length body) s'). transitivity (firstn (length body) s' ++ skipn (length body) s'); [symmetry; apply firstn_skipn|]. f_equal.
          transitivity (firstn (length body) (s' ++ t)).
          - rewrite firstn_app. replace (length body - length s') with 0 by lia. cbn [firstn]. symmetry. apply app_nil_r.
          - rewrite <- Pt, firstn_app, Nat.sub_diag, firstn_all. cbn [firstn]. apply app_nil_r. }
        destruct E as [s'' ->]. rewrite <- app_assoc in Pt. apply app_inv_head in Pt.
        assert (B : body_in closed (rb_headers r) (body ++ s'') = Comes (body, s'')).
        { unfold body_in. rewrite Lg, (proj2 (Nat.leb_le _ _) Lb), firstn_app, skipn_app, Nat.sub_diag, firstn_all, skipn_all. cbn [firstn skipn app]. rewrite app_nil_r. reflexivity. }
        rewrite (run_whole closed m _ _ _ _ _ B).
        destruct (retort_to closed m (rb_target r) (rb_headers r) (body ++ s'')) as [h b rest|e] eqn:Rt.
        -- apply retort_rest in Rt. destruct Rt as [x Rt]. rewrite B in Rt. injection Rt as <- <-. destruct (IH s'' n Fl' (ex_intro _ t Pt)) as (j & P1 & P2 & P3). exists (S j). split; [|split].
           ++ cbn [firstn flat_map]. unfold asking_bytes at 1. cbn [a_method a_request a_body]. rewrite <- app_assoc. apply prefix_app, prefix_app, P1.
           ++ cbn [firstn flat_map]. rewrite P2. reflexivity.
           ++ cbn [fst length]. lia.
        -- exists 1. cbn [firstn flat_map]. rewrite !app_nil_r. split; [|split; [reflexivity | cbn; lia]]. unfold asking_bytes. cbn [a_method a_request a_body]. exists s''. rewrite <- app_assoc. reflexivity.
Qed.
Theorem all_runs_of_calls closed l s : Forall (fun a => fit_request uri_byte sl (a_method a) (a_request a) (a_body a)) l -> prefix s (flat_map asking_bytes l) ->
  exists j, prefix (flat_map asking_bytes (firstn j l)) s /\ all_runs closed s = flat_map (worth ps manners) (firstn j l) /\
    length (fst (whole explained reason parse room ps manners closed s)) <= j <= S (length (fst (whole explained reason parse room ps manners closed s))).
Proof. exact (runs_of_calls closed l s (S (length s))). Qed.
End Bytes.
Lemma worth_once `{floatlib} `{urlenv} {R : Type} (ps : list (hproc bconn R)) (manners : hproc bconn R -> manner R) a : length (worth ps manners a) <= 1.
Proof.
  unfold worth, worth_of. destruct (parse_url _) as [[[segs|] q]|]; cbn; try lia. destruct (route_spec _ _ _); cbn; try lia. destruct (de_request _ _ _ _); cbn; lia.
Qed.

(** The run that a call is worth is given the value of the call. *)
Theorem worth_own `{F : floatlib} `{U : urlenv} {R : Type} (trims : bool) (ps : list (hproc bconn R)) (manners : hproc bconn R -> manner R) (hp : hproc bconn R) mk n pa qu hd ss l body :
  In (hp_method hp, hp_entry hp, hp) (accepted (registrations ps)) -> unshadowed (accepted (registrations ps)) (hp_entry hp) (map enc (fill (hp_entry hp) ss)) ->
  plain_entry (hp_entry hp) -> hp_entry hp <> [] -> hp_req hp = TStruct n (typed_parts pa qu hd) ->
  path_fits (hp_entry hp) pa ss -> Forall path_safe ss -> first_ok (fill (hp_entry hp) ss) -> query_fits qu -> (pa = None -> qu = None) ->
  header_fits hd l -> forallb safe_header (l ++ [length_header (N.of_nat (length body))]) = true ->
  manners hp = Takes mk ->
  exists r, encode_request (hp_entry hp) (SStruct n (value_parts pa qu hd)) (N.of_nat (length body)) = Ok r /\
    (forallb safe_header (rb_headers r) = true ->
     worth ps manners (mkAsking (hp_method hp) r body) = [(hp, mk (SStruct n (value_parts pa qu hd)) (hp_method hp) (rb_target r) (rb_headers r) body)]).
Proof.
  intros I Un Pl Ne Ty Pf Ps Fo Qf Pq Hf Sf Mk.
  destruct (@request_arrives _ _ (byte_http trims) _ (registrations ps) (hp_method hp) (hp_entry hp) hp n pa qu hd ss l (N.of_nat (length body)) I Un Pl Ne Pf Ps Fo Qf Pq Hf Sf)
    as (r & x & hs & En & De & Pu & Ro & Dr).
  exists r. split; [exact En|]. intros Fh. assert (hs = rb_headers r) as ->. { pose proof (@deliver_safe (byte_http trims) _ Fh) as D. rewrite D in De. injection De as <-. reflexivity. }
  unfold worth, worth_of. cbn [a_method a_request a_body]. rewrite Pu. destruct x as [[segs|] q]; cbn [u_path] in Ro.
  - unfold registrations in Ro. rewrite routing_refines in Ro. injection Ro as Ro. rewrite Ro, Ty, Dr, Mk. reflexivity.
  - exfalso. revert Ro. unfold route. cbn. discriminate.
Qed.
