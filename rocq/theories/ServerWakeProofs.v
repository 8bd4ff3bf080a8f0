(** * The server's tasks, polled only when they are woken: proofs (C86). *)
From Verif Require Import Base DepUrl Serde Procedure Router Error Client ClientSpec Server ServerSpec ServerProofs ServerPoll ServerFairSpec ServerFair ServerWake ServerWakeSpec.
Open Scope nat_scope.

Lemma who_eqb_eq v w : who_eqb v w = true <-> v = w.
Proof. destruct v as [|i], w as [|j]; cbn; split; try discriminate; auto; [intros E; apply Nat.eqb_eq in E; congruence | intros [= ->]; apply Nat.eqb_refl]. Qed.
Lemma who_eqb_refl w : who_eqb w w = true. Proof. apply who_eqb_eq. reflexivity. Qed.

Section Proofs.
Context `{floatlib} `{urlenv} {Conn R L : Type}.
Variable explain : request Conn -> ekind -> ustr * option ustr * option (list ustr).
Variable reason : Status.status -> ustr.
Variables (ln : link Conn) (ps : list (hproc Conn R)) (incoming : L -> fut (option (fut Conn) * L)).
Notation tr := (build (registrations ps)).
Notation serve_run := (serve_run explain reason ln incoming tr).
Notation serve_step := (serve_step explain reason ln incoming tr).
Notation serve_poll := (serve_poll explain reason ln incoming tr).
Notation wserve_poll := (wserve_poll explain reason ln incoming tr).
Notation turn := (turn explain reason ln tr).

(** The polls are those of ServerPoll.v. *)
Lemma same_task fuel : forall t, poll_task explain reason ln tr fuel t = (fst (fst (wpoll_task explain reason ln tr fuel t)), snd (wpoll_task explain reason ln tr fuel t)).
Proof.
  induction fuel as [|fuel IH]; intros t; [reflexivity|]. cbn [poll_task wpoll_task]. destruct (turn t) as [a [t'|t'| |k|]]; try reflexivity.
  rewrite IH. destruct (wpoll_task explain reason ln tr fuel t') as [[a' g] s]. reflexivity.
Qed.
Lemma same_accept fuel : forall a, poll_accept incoming fuel a = (fst (fst (wpoll_accept incoming fuel a)), snd (wpoll_accept incoming fuel a)).
Proof.
  induction fuel as [|fuel IH]; intros a; [reflexivity|]. cbn [poll_accept wpoll_accept]. destruct (accept_turn incoming a) as [ts [a'|a'|k]]; try reflexivity.
  rewrite IH. destruct (wpoll_accept incoming fuel a') as [[ts' g] s]. reflexivity.
Qed.
Theorem same_poll w fuel s : serve_poll w fuel s = (fst (fst (wserve_poll w fuel s)), snd (wserve_poll w fuel s)).
Proof.
  destruct w as [|i]; cbn [ServerPoll.serve_poll ServerWake.wserve_poll].
  - destruct (v_accept s) as [a|a|k]; try reflexivity; rewrite same_accept; destruct (wpoll_accept incoming fuel a) as [[ts g] st]; reflexivity.
  - destruct (nth_error (v_tasks s) i) as [[t|t| |k|]|]; try reflexivity; rewrite same_task; destruct (wpoll_task explain reason ln tr fuel t) as [[a g] st]; reflexivity.
Qed.

(** A task that goes to sleep was taken note of. *)
Lemma task_noted fuel : forall t a g st, wpoll_task explain reason ln tr fuel t = (a, g, Ok st) -> match st with Goes _ => False | Sleeps _ => g = true | _ => True end.
Proof.
  induction fuel as [|fuel IH]; intros t a g st; cbn [wpoll_task]; [discriminate|]. destruct (turn t) as [a1 st1] eqn:E. destruct st1 as [t'|t'| |k|]; try (intros [= <- <- <-]; exact I).
  - destruct (wpoll_task explain reason ln tr fuel t') as [[a2 g2] s2] eqn:E2. intros [= <- <- ->]. exact (IH _ _ _ _ E2).
  - intros [= <- <- <-]. unfold Server.turn in E. unfold conn_noted, takes_note. destruct (t_phase t) as [f|f|f]; destruct (fpoll f) as [y|e|f'] eqn:Ef; try discriminate; try reflexivity.
    + destruct y as [r|]; [|discriminate]. destruct (on_request _ _ _ _ r); discriminate.
    + destruct y as [[[c h] b]| | |]; discriminate.
Qed.
Lemma accept_noted_ fuel : forall a ts g st, wpoll_accept incoming fuel a = (ts, g, Ok st) -> match st with AGoes _ => False | ASleeps _ => g = true | _ => True end.
Proof.
  induction fuel as [|fuel IH]; intros a ts g st; cbn [wpoll_accept]; [discriminate|]. destruct (accept_turn incoming a) as [t1 st1] eqn:E. destruct st1 as [a'|a'|k]; try (intros [= <- <- <-]; exact I).
  - destruct (wpoll_accept incoming fuel a') as [[t2 g2] s2] eqn:E2. intros [= <- <- ->]. exact (IH _ _ _ _ E2).
  - intros [= <- <- <-]. unfold accept_turn in E. unfold accept_noted, takes_note. destruct a as [f|f]; destruct (fpoll f) as [y|e|f'] eqn:Ef; try discriminate; try reflexivity.
    destruct y as [[c|] l]; discriminate.
Qed.

(** No wake-up is lost: a task that lives is due or taken note of. *)
Definition attended (x : wserver Conn L) : Prop := forall w, living w (x_server x) -> x_due x w = true \/ x_noted x w = true /\
  match w with Acceptor => exists a, v_accept (x_server x) = ASleeps a | Connection i => exists t, nth_error (v_tasks (x_server x)) i = Some (Sleeps t) end.
Lemma attended_step l x e y : attended x -> wake_step explain reason ln incoming tr l x = (e, Ok y) -> attended y.
Proof.
  intros A. destruct l as [w fuel|w]; cbn [wake_step].
  - destruct (x_due x w) eqn:Du; [|intros [= <- <-]; exact A]. destruct (wserve_poll w fuel (x_server x)) as [[e' g] [s| | |]] eqn:P; try discriminate. intros [= <- <-].
    intros v Lv. cbn [x_server x_due x_noted] in *. destruct (who_eqb v w) eqn:Ev.
    + apply who_eqb_eq in Ev. subst v. right. destruct w as [|i]; cbn [ServerWake.wserve_poll] in P; cbn [living] in Lv.
      * destruct (v_accept (x_server x)) as [a|a|k] eqn:Va; [| |injection P as <- <- <-; rewrite Va in Lv; contradiction];
          destruct (wpoll_accept incoming fuel a) as [[ts g'] [st| | |]] eqn:Wp; try discriminate; injection P as <- <- <-; cbn [v_accept] in *;
          pose proof (accept_noted_ _ _ _ _ _ Wp) as N; destruct st; try contradiction; eauto.
      * assert (X : forall t, nth_error (v_tasks (x_server x)) i <> None -> (let '(a, g, st) := wpoll_task explain reason ln tr fuel t in
          (map (EAct i) a, g, match st with Ok st => Ok (mkServer (v_accept (x_server x)) (update i st (v_tasks (x_server x)))) | _ => Diverge end)) = (e', g, Ok s) -> g = true /\ exists t0, nth_error (v_tasks s) i = Some (Sleeps t0)).
        { intros t Ne Q. destruct (wpoll_task explain reason ln tr fuel t) as [[a g'] [st| | |]] eqn:Wp; try discriminate. injection Q as <- <- <-. cbn [v_tasks] in *.
          pose proof (task_noted _ _ _ _ _ Wp) as N. rewrite nth_update, Nat.eqb_refl in Lv. destruct (nth_error (v_tasks (x_server x)) i) eqn:Nn; [|elim Ne; reflexivity].
          rewrite nth_update, Nat.eqb_refl, Nn. destruct st; try contradiction; eauto. }
        destruct (nth_error (v_tasks (x_server x)) i) as [[t|t| |k|]|] eqn:Nt; [apply (X t); [discriminate | exact P] | apply (X t); [discriminate | exact P] |..]; injection P as <- <- <-; rewrite Nt in Lv; contradiction.
    + assert (Nw : v <> w) by (intros ->; rewrite who_eqb_refl in Ev; discriminate). 
      (* what the poll of another task does to this one *)
      assert (Same : v_accept s = v_accept (x_server x) \/ w = Acceptor).
      { destruct w as [|i]; [right; reflexivity|]. left. cbn [ServerWake.wserve_poll] in P. destruct (nth_error (v_tasks (x_server x)) i) as [[t|t| |k|]|]; try (injection P as <- <- <-; reflexivity);
          destruct (wpoll_task explain reason ln tr fuel t) as [[a g'] [st| | |]]; try discriminate; injection P as <- <- <-; reflexivity. }
      assert (Tasks : forall i, v = Connection i -> nth_error (v_tasks s) i = nth_error (v_tasks (x_server x)) i \/ fresh v (length (v_tasks (x_server x))) (length (v_tasks s)) = true).
      { intros i ->. destruct w as [|j]; cbn [ServerWake.wserve_poll] in P.
        - destruct (v_accept (x_server x)) as [a|a|k]; [| |injection P as <- <- <-; left; reflexivity];
            destruct (wpoll_accept incoming fuel a) as [[ts g'] [st| | |]]; try discriminate; injection P as <- <- <-; cbn [v_tasks fresh];
            (destruct (Nat.lt_ge_cases i (length (v_tasks (x_server x)))) as [Li|Gi]; [left; apply nth_error_app1, Li|]);
            (destruct (Nat.lt_ge_cases i (length (v_tasks (x_server x) ++ map Goes ts))) as [Lj|Gj]; [right; apply andb_true_iff; split; [apply Nat.leb_le, Gi | apply Nat.ltb_lt, Lj]|]);
            left; rewrite (proj2 (nth_error_None _ _) Gi); apply nth_error_None, Gj.
        - left. assert (i <> j) as Ne by congruence. destruct (nth_error (v_tasks (x_server x)) j) as [[t|t| |k|]|]; try (injection P as <- <- <-; reflexivity);
            destruct (wpoll_task explain reason ln tr fuel t) as [[a g'] [st| | |]]; try discriminate; injection P as <- <- <-; cbn [v_tasks]; rewrite nth_update; destruct (Nat.eqb_spec j i); congruence. }
      destruct v as [|i].
      * destruct Same as [Same | ->]; [|elim Nw; reflexivity]. cbn [living] in Lv. cbn [fresh orb]. rewrite Same in *. apply (A Acceptor Lv).
      * destruct (Tasks i eq_refl) as [T | Fr]; [|left; rewrite Fr; reflexivity]. cbn [living] in Lv. rewrite T in *. destruct (A (Connection i) Lv) as [D|D]; [left; rewrite D; apply orb_true_r | right; exact D].
  - destruct (x_noted x w) eqn:Nw; [|intros [= <- <-]; exact A]. intros [= <- <-]. intros v Lv. cbn [x_server x_due x_noted] in *. destruct (who_eqb v w) eqn:Ev; [left; reflexivity|]. exact (A v Lv).
Qed.
Notation wake_run sched n bind := (wake_run explain reason ln incoming tr sched n bind).
Theorem all_attended sched bind n x : snd (wake_run sched n bind) = Ok x -> attended x.
Proof.
  revert x. induction n as [|n IH]; intros x; cbn [ServerWake.wake_run].
  - intros [= <-]. intros [|i] Lv; [left; reflexivity|]. cbn in Lv. destruct i; contradiction.
  - destruct (wake_run sched n bind) as [ev [y| | |]]; try discriminate. specialize (IH y eq_refl).
    destruct (wake_step explain reason ln incoming tr (sched n) y) as [e z] eqn:S. cbn [snd]. intros ->. exact (attended_step _ _ _ _ IH S).
Qed.

(** Only tasks that there are, are due or taken note of. *)
Definition there (w : who) (s : server Conn L) : Prop := match w with Acceptor => True | Connection i => i < length (v_tasks s) end.
Lemma poll_there w fuel s e g s' v : wserve_poll w fuel s = (e, g, Ok s') -> there v s -> there v s'.
Proof.
  intros P T. destruct v as [|i]; [exact I|]. cbn [there] in *. enough (length (v_tasks s) <= length (v_tasks s')) by lia. clear T. destruct w as [|j]; cbn [ServerWake.wserve_poll] in P.
  - destruct (v_accept s) as [a|a|k]; [| |injection P as <- <- <-; lia]; destruct (wpoll_accept incoming fuel a) as [[ts g'] [st| | |]]; try discriminate; injection P as <- <- <-; cbn [v_tasks]; rewrite app_length; lia.
  - destruct (nth_error (v_tasks s) j) as [[t|t| |k|]|]; try (injection P as <- <- <-; lia); destruct (wpoll_task explain reason ln tr fuel t) as [[a g'] [st| | |]]; try discriminate; injection P as <- <- <-; cbn [v_tasks];
      rewrite length_update; lia.
Qed.
Lemma only_there sched bind n x : snd (wake_run sched n bind) = Ok x -> forall w, x_due x w = true \/ x_noted x w = true -> there w (x_server x).
Proof.
  revert x. induction n as [|n IH]; intros x; cbn [ServerWake.wake_run].
  - intros [= <-] [|i] [X|X]; try discriminate; exact I.
  - destruct (wake_run sched n bind) as [ev [y| | |]]; try discriminate. specialize (IH y eq_refl).
    destruct (wake_step explain reason ln incoming tr (sched n) y) as [e z] eqn:S. cbn [snd]. intros -> w. destruct (sched n) as [v f|v]; cbn [wake_step] in S.
    + destruct (x_due y v) eqn:Dv; [|injection S as <- <-; apply IH]. destruct (wserve_poll v f (x_server y)) as [[e' g] [s| | |]] eqn:P; try discriminate. injection S as <- <-. cbn [x_due x_noted x_server].
      destruct (who_eqb w v) eqn:Ev; [apply who_eqb_eq in Ev; subst w; intros _; apply (poll_there _ _ _ _ _ _ _ P), IH; auto|].
      intros [X|X]; [|apply (poll_there _ _ _ _ _ _ _ P), IH; auto]. apply orb_true_iff in X. destruct X as [X|X]; [|apply (poll_there _ _ _ _ _ _ _ P), IH; auto].
      destruct w as [|i]; [exact I|]. apply andb_true_iff in X. destruct X as [_ X]. apply Nat.ltb_lt in X. exact X.
    + destruct (x_noted y v) eqn:Nv; injection S as <- <-; [|apply IH]. cbn [x_due x_noted x_server]. intros X. apply IH. destruct (who_eqb w v) eqn:Ev; [apply who_eqb_eq in Ev; subst w; auto|]. exact X.
Qed.

(** ** The runs of ServerFair.v *)
Variables (sched : nat -> slabel) (bind : fut L).
Notation at_ n := (wake_run sched n bind).
Definition is_task (w v : who) : bool := who_eqb v w.
Definition does (n : nat) (l : list who) : Prop := exists ev x, at_ n = (ev, Ok x) /\ serve_run l (server_new bind) = (ev, x_server x).
Lemma at_S n ev x : at_ n = (ev, Ok x) -> at_ (S n) = let '(e, y) := wake_step explain reason ln incoming tr (sched n) x in (ev ++ e, y).
Proof. intros E. cbn [ServerWake.wake_run]. rewrite E. reflexivity. Qed.
Hypothesis Ret : polls_return (fun n => at_ n).
Lemma step_of n ev x : at_ n = (ev, Ok x) -> exists e y, wake_step explain reason ln incoming tr (sched n) x = (e, Ok y) /\ at_ (S n) = (ev ++ e, Ok y).
Proof.
  intros E. destruct (Ret (S n)) as [y Y]. rewrite (at_S n ev x E) in *. destruct (wake_step explain reason ln incoming tr (sched n) x) as [e z]. cbn [snd] in Y. subst z. eauto.
Qed.
Lemma step_run l x e y : wake_step explain reason ln incoming tr l x = (e, Ok y) ->
  exists more, serve_run more (x_server x) = (e, x_server y) /\ forall w fuel, l = SPoll w fuel -> x_due x w = true -> exists k, more = repeat w (S k).
Proof.
  destruct l as [w fuel|w]; cbn [wake_step].
  - destruct (x_due x w) eqn:D; [|intros [= <- <-]; exists []; split; [reflexivity|]; intros ? ? [= <- <-]; congruence].
    destruct (wserve_poll w fuel (x_server x)) as [[e' g] [s| | |]] eqn:P; try discriminate. intros [= <- <-]. cbn [x_server].
    destruct (poll_run explain reason ln ps incoming w fuel (x_server x) e' s) as [k Q]; [rewrite same_poll, P; reflexivity|].
    exists (repeat w (S k)). split; [exact Q|]. intros ? ? [= <- <-] _. eauto.
  - intros S. assert (E : e = [] /\ x_server y = x_server x) by (destruct (x_noted x w); injection S as <- <-; auto). destruct E as [-> ->]. exists []. split; [reflexivity|]. discriminate.
Qed.
Lemma does_S n l : does n l -> exists more, does (S n) (l ++ more).
Proof.
  intros (ev & x & E & Q). destruct (step_of n ev x E) as (e & y & S & E'). destruct (step_run _ _ _ _ S) as (more & M & _). exists more, (ev ++ e), y. split; [exact E'|].
  rewrite serve_run_app, Q, M. reflexivity.
Qed.
Lemma does_later n m l : n <= m -> does n l -> exists more, does m (l ++ more).
Proof.
  induction 1 as [|m Lm IH]; intros D; [exists []; rewrite app_nil_r; exact D|]. destruct (IH D) as [more D']. destruct (does_S m _ D') as [more' D2]. exists (more ++ more'). rewrite app_assoc. exact D2.
Qed.
Lemma does_nil : does 0 [].
Proof. exists [], (wserver_new bind). split; reflexivity. Qed.

(** A round of a task. *)
Definition round (w : who) (n : nat) (l : list who) : Prop := exists m more, n <= m /\ does m (l ++ more) /\ 1 <= turns (is_task w) more.
Lemma turns_task w k : turns (is_task w) (repeat w k) = k.
Proof. rewrite turns_repeat. unfold is_task. rewrite who_eqb_refl. reflexivity. Qed.
(** A task that is due has a round in the end. *)
Hypothesis Due : polls_due sched (fun n => at_ n).
Lemma due_round w n l ev x : does n l -> at_ n = (ev, Ok x) -> x_due x w = true -> round w n l.
Proof.
  intros D E Dw. destruct (Due n x w) as (m & fuel & Lm & Sm); [rewrite E; reflexivity | exact Dw|].
  remember (m - n) as d eqn:Ed. revert n l ev x D E Dw Lm Ed. induction d as [|d IH]; intros n l ev x D E Dw Lm Ed.
  - assert (n = m) by lia. subst n. destruct (step_of m ev x E) as (e & y & S & E'). destruct (step_run _ _ _ _ S) as (more & M & P). destruct (P w fuel Sm Dw) as [k ->].
    exists (Datatypes.S m), (repeat w (Datatypes.S k)). split; [lia|]. split; [|rewrite turns_task; lia]. destruct D as (ev' & x' & E2 & Q). rewrite E in E2. injection E2 as <- <-.
    exists (ev ++ e), y. split; [exact E'|]. rewrite serve_run_app, Q, M. reflexivity.
  - destruct (step_of n ev x E) as (e & y & S & E'). destruct (step_run _ _ _ _ S) as (more & M & P).
    assert (D' : does (Datatypes.S n) (l ++ more)).
    { destruct D as (ev' & x' & E2 & Q). rewrite E in E2. injection E2 as <- <-. exists (ev ++ e), y. split; [exact E'|]. rewrite serve_run_app, Q, M. reflexivity. }
    assert (C : (exists f, sched n = SPoll w f) \/ x_due y w = true).
    { destruct (sched n) as [v f|v] eqn:Sn; cbn [wake_step] in S.
      - destruct (x_due x v); [|injection S as <- <-; right; exact Dw]. destruct (wserve_poll v f (x_server x)) as [[e' g] [s| | |]]; try discriminate. injection S as <- <-. cbn [x_due].
        destruct (who_eqb w v) eqn:Ev; [apply who_eqb_eq in Ev; subst v; left; eauto|]. right. rewrite Dw. apply orb_true_r.
      - right. destruct (x_noted x v); injection S as <- <-; [|exact Dw]. cbn [x_due]. rewrite Dw. apply orb_true_r. }
    destruct C as [[f C]|C].
    + destruct (P w f C Dw) as [k ->]. exists (Datatypes.S n), (repeat w (Datatypes.S k)). split; [lia|]. split; [exact D'|]. rewrite turns_task. lia.
    + destruct (IH (Datatypes.S n) (l ++ more) (ev ++ e) y D' E' C ltac:(lia) ltac:(lia)) as (m' & more' & Lm' & D2 & T). exists m', (more ++ more'). split; [lia|]. rewrite <- app_assoc in D2. split; [exact D2|].
      rewrite turns_app. lia.
Qed.
(** A task that is over, or waits in vain, may be given a round without effect. *)
Lemma idle_step w x : (match w with Connection i => i < length (v_tasks x) | _ => True end) -> ~ living w x \/ in_vain w x -> serve_step w x = ([], x).
Proof.
  intros Li C. destruct w as [|i]; cbn [Server.serve_step living in_vain] in *.
  - destruct (v_accept x) as [a|a|k] eqn:Va; [destruct C as [C|C]; [elim C; exact I | contradiction] | | reflexivity]. destruct C as [C|C]; [elim C; exact I|].
    destruct a as [f|f]; destruct f; try discriminate; cbn; rewrite app_nil_r; destruct x; cbn in *; subst; reflexivity.
  - destruct (nth_error (v_tasks x) i) as [[t|t| |k|]|] eqn:Nt; try reflexivity; [destruct C as [C|C]; [elim C; exact I | contradiction]|]. destruct C as [C|C]; [elim C; exact I|].
    destruct t as [me ph]. cbn [t_phase] in C. destruct ph as [f|f|f]; destruct f; try discriminate; cbn; rewrite (update_same _ _ _ Nt); destruct x; reflexivity.
Qed.
Lemma idle_round w n l ev x : does n l -> at_ n = (ev, Ok x) -> (match w with Connection i => i < length (v_tasks (x_server x)) | _ => True end) ->
  ~ living w (x_server x) \/ in_vain w (x_server x) -> round w n l.
Proof.
  intros (ev' & x' & E2 & Q) E Li C. rewrite E in E2. injection E2 as <- <-. exists n, [w]. split; [lia|]. split; [|exact (Nat.eq_le_incl _ _ (eq_sym (turns_task w 1)))].
  exists ev, x. split; [exact E|]. rewrite serve_run_app, Q. cbn [Server.serve_run]. rewrite (idle_step w _ Li C). rewrite app_nil_r. reflexivity.
Qed.
(** Any task has a round in the end. *)
Hypothesis Net : wakes_noted sched (fun n => at_ n).
Lemma noted_due w n ev x : at_ n = (ev, Ok x) -> x_noted x w = true -> ~ in_vain w (x_server x) -> exists m ev' y, n <= m /\ at_ m = (ev', Ok y) /\ x_due y w = true.
Proof.
  intros E Nw V. destruct (Net n x w) as (m & Lm & Sm); [rewrite E; reflexivity | exact Nw | exact V|]. clear V.
  remember (m - n) as d eqn:Ed. revert n ev x E Nw Lm Ed. induction d as [|d IH]; intros n ev x E Nw Lm Ed.
  - assert (n = m) by lia. subst n. destruct (step_of m ev x E) as (e & y & S & E'). rewrite Sm in S. cbn [wake_step] in S. rewrite Nw in S. injection S as <- <-.
    eexists (Datatypes.S m), _, _. split; [lia|]. split; [exact E'|]. cbn [x_due]. rewrite who_eqb_refl. reflexivity.
  - destruct (x_due x w) eqn:Dw; [exists n, ev, x; auto|]. destruct (step_of n ev x E) as (e & y & S & E').
    assert (C : x_noted y w = true \/ x_due y w = true).
    { destruct (sched n) as [v f|v] eqn:Sn; cbn [wake_step] in S.
      - destruct (x_due x v) eqn:Dv; [|injection S as <- <-; left; exact Nw]. destruct (wserve_poll v f (x_server x)) as [[e' g] [s| | |]]; try discriminate. injection S as <- <-. cbn [x_noted].
        destruct (who_eqb w v) eqn:Ev; [apply who_eqb_eq in Ev; subst v; congruence|]. left. exact Nw.
      - destruct (x_noted x v); injection S as <- <-; [|left; exact Nw]. cbn [x_noted x_due]. rewrite Nw. destruct (who_eqb w v); [right; reflexivity | left; reflexivity]. }
    destruct C as [C|C]; [|eexists (Datatypes.S n), _, _; split; [lia|]; split; [exact E' | exact C]].
    destruct (IH (Datatypes.S n) (ev ++ e) y E' C ltac:(lia) ltac:(lia)) as (m' & ev' & z & Lm' & Q). exists m', ev', z. split; [lia | exact Q].
Qed.
Definition in_vain_dec w (x : server Conn L) : in_vain w x \/ ~ in_vain w x.
Proof.
  destruct w as [|i]; cbn [in_vain].
  - destruct (v_accept x) as [a|[f|f]|k]; auto; destruct (is_never f); auto.
  - destruct (nth_error (v_tasks x) i) as [[t|t| |k|]|]; auto. destruct (t_phase t) as [f|f|f]; destruct (is_never f); auto.
Qed.
Definition living_dec w (x : server Conn L) : living w x \/ ~ living w x.
Proof. destruct w as [|i]; cbn [living]; [destruct (v_accept x); auto | destruct (nth_error (v_tasks x) i) as [[]|]; auto]. Qed.
Lemma any_round w n l : does n l -> (match w with Connection i => forall ev x, at_ n = (ev, Ok x) -> i < length (v_tasks (x_server x)) | _ => True end) -> round w n l.
Proof.
  intros D Li. pose proof D as (ev & x & E & _). assert (Li' : match w with Connection i => i < length (v_tasks (x_server x)) | _ => True end) by (destruct w; eauto).
  destruct (living_dec w (x_server x)) as [Lv|Lv]; [|apply (idle_round w n l ev x); auto].
  destruct (all_attended sched bind n x ltac:(rewrite E; reflexivity) w Lv) as [Dw|[Nw _]]; [apply (due_round w n l ev x); auto|].
  destruct (in_vain_dec w (x_server x)) as [V|V]; [apply (idle_round w n l ev x); auto|].
  destruct (noted_due w n ev x E Nw V) as (m & ev' & y & Lm & E' & Dy). destruct (does_later n m l Lm D) as [more D'].
  destruct (due_round w m (l ++ more) ev' y D' E' Dy) as (m' & more' & Lm' & D2 & T). exists m', (more ++ more'). split; [lia|]. rewrite <- app_assoc in D2. split; [exact D2|]. rewrite turns_app. lia.
Qed.
Lemma tasks_stay n m ev x ev' y : n <= m -> at_ n = (ev, Ok x) -> at_ m = (ev', Ok y) -> length (v_tasks (x_server x)) <= length (v_tasks (x_server y)).
Proof.
  intros Lm E. revert ev' y. induction Lm as [|m Lm IH]; intros ev' y E'; [rewrite E in E'; injection E' as <- <-; lia|].
  destruct (Ret m) as [z Z]. destruct (at_ m) as [ev1 r] eqn:Em. cbn [snd] in Z. subst r. specialize (IH ev1 z eq_refl). rewrite (at_S m ev1 z Em) in E'.
  destruct (wake_step explain reason ln incoming tr (sched m) z) as [e r] eqn:S. injection E' as <- ->. destruct (step_run _ _ _ _ S) as (more & M & _).
  enough (X : forall l s e0 s', serve_run l s = (e0, s') -> length (v_tasks s) <= length (v_tasks s')) by (specialize (X _ _ _ _ M); lia).
  clear. induction l as [|w l IH]; intros s e0 s' Q; cbn [Server.serve_run] in Q; [injection Q as _ <-; lia|].
  destruct (serve_step w s) as [e1 s1] eqn:S1. destruct (serve_run l s1) as [e2 s2] eqn:S2. injection Q as _ <-. specialize (IH _ _ _ S2).
  enough (length (v_tasks s) <= length (v_tasks s1)) by lia. clear IH S2. destruct w as [|i]; cbn [Server.serve_step] in S1.
  - destruct (v_accept s) as [a|a|k]; [| |injection S1 as _ <-; lia]; destruct (accept_turn incoming a); injection S1 as _ <-; cbn [v_tasks]; rewrite app_length; lia.
  - destruct (nth_error (v_tasks s) i) as [[t|t| |k|]|]; try (injection S1 as _ <-; lia); destruct (turn t); injection S1 as _ <-; cbn [v_tasks]; rewrite length_update; lia.
Qed.
Lemma many_rounds w k n l : does n l -> (match w with Connection i => forall ev x, at_ n = (ev, Ok x) -> i < length (v_tasks (x_server x)) | _ => True end) ->
  exists m more, n <= m /\ does m (l ++ more) /\ k <= turns (is_task w) more.
Proof.
  intros D Li. induction k as [|k IH]; [exists n, []; rewrite app_nil_r; split; [lia|]; split; [exact D | lia]|].
  destruct IH as (m & more & Lm & D' & T). destruct (any_round w m (l ++ more) D') as (m' & more' & Lm' & D2 & T').
  - destruct w as [|i]; [exact I|]. intros ev y E'. destruct D as (ev0 & x & E & _). specialize (Li ev0 x E). pose proof (tasks_stay n m _ _ _ _ Lm E E'). lia.
  - exists m', (more ++ more'). split; [lia|]. rewrite <- app_assoc in D2. split; [exact D2|]. rewrite turns_app. lia.
Qed.
Lemma turns_acceptor l : turns (is_task Acceptor) l = turns is_acceptor l.
Proof. reflexivity. Qed.
Lemma turns_conn i l : turns (is_task (Connection i)) l = turns (is_conn i) l.
Proof. unfold turns. induction l as [|[|j] l IH]; cbn; [reflexivity | exact IH|]. rewrite ?(Nat.eqb_sym i j). destruct (Nat.eqb j i); cbn; congruence. Qed.

Theorem woken_served k i c m : nth_error (fst (accepting incoming k bind)) i = Some c ->
  finally (fun n => exists ev x, at_ n = (ev, Ok x) /\ exists a', doings i ev = fst (conversation explain reason ln ps m c) ++ a' /\
    (snd (conversation explain reason ln ps m c) <> Unfinished -> a' = [] /\ outcome i (x_server x) = Some (snd (conversation explain reason ln ps m c)))).
Proof.
  intros Ni. destruct (served explain reason ln ps incoming bind k i c m Ni) as (na & nc & Q).
  destruct (accepting_reached incoming k bind) as (na' & ts' & A & _).
  destruct (many_rounds Acceptor (max na na') 0 [] does_nil I) as (n1 & l1 & _ & D1 & T1). cbn [app] in D1. rewrite turns_acceptor in T1.
  assert (Li : forall ev x, at_ n1 = (ev, Ok x) -> i < length (v_tasks (x_server x))).
  { intros ev x E. destruct D1 as (ev' & x' & E' & Rn). rewrite E in E'. injection E' as <- <-. pose proof (all_apart explain reason ln ps incoming bind l1) as P. rewrite Rn in P.
    destruct P as (ts & Ar & _ & Lt & _). rewrite Lt. destruct (arounds_more incoming (turns is_acceptor l1 - na') na' (AcA bind)) as [b Eb].
    replace (turns is_acceptor l1 - na' + na') with (turns is_acceptor l1) in Eb by lia. rewrite Ar, A in Eb. cbn [fst] in Eb. rewrite Eb, !app_length, map_length.
    assert (X : i < length (fst (accepting incoming k bind))) by (apply nth_error_Some; congruence). lia. }
  destruct (many_rounds (Connection i) nc n1 l1 D1 Li) as (n2 & l2 & Ln & D2 & T2). rewrite turns_conn in T2.
  exists n2. intros n Ln'. destruct (does_later n2 n _ Ln' D2) as (l3 & ev & x & E & Rn). exists ev, x. split; [exact E|]. rewrite <- app_assoc in Rn.
  specialize (Q l1 (l2 ++ l3) ltac:(lia)). rewrite turns_app in Q. specialize (Q ltac:(lia)). rewrite Rn in Q. rewrite doings_acts. exact Q.
Qed.
Theorem woken_answered t i a c r ev0 : fst (at_ t) = ev0 -> doings i ev0 = a ++ [ARead c] -> settle (l_read ln c) = Comes (Got r) ->
  finally (fun n => exists ev x, at_ n = (ev, Ok x) /\
    match reply_to explain reason ln ps r with
    | Sends c' h b => exists l, doings i ev = a ++ ARead c :: AWrite h (match q_method r with MHead => None | _ => Some b end) c' :: l
    | Refuses k => doings i ev = a ++ [ARead c] /\ outcome i (x_server x) = Some (Failing k)
    | Crashes => doings i ev = a ++ [ARead c] /\ outcome i (x_server x) = Some Crashed
    | Hesitates => True
    end).
Proof.
  intros <- Ea Er. destruct (does_later 0 t [] ltac:(lia) does_nil) as [l0 D0]. cbn [app] in D0. pose proof D0 as (ev0 & x0 & E0 & Q0). rewrite E0 in Ea. cbn [fst] in Ea.
  rewrite doings_acts in Ea. destruct (replied_by explain reason ln ps incoming bind l0 ev0 (x_server x0) i a c r Q0 Ea Er) as (nc & Q).
  assert (Li : forall ev x, at_ t = (ev, Ok x) -> i < length (v_tasks (x_server x))).
  { intros ev x E. rewrite E0 in E. injection E as <- <-. pose proof (all_apart explain reason ln ps incoming bind l0) as P. rewrite Q0 in P. destruct P as (ts & _ & _ & Lt & Z & _). rewrite Lt.
    destruct (Nat.lt_ge_cases i (length ts)) as [X|X]; [exact X|]. rewrite (Z i X) in Ea. destruct a; discriminate. }
  destruct (many_rounds (Connection i) nc t l0 D0 Li) as (n2 & l2 & Ln & D2 & T2). rewrite turns_conn in T2.
  exists n2. intros n Ln'. destruct (does_later n2 n _ Ln' D2) as (l3 & ev & x & E & Rn). exists ev, x. split; [exact E|]. rewrite <- app_assoc in Rn.
  specialize (Q (l2 ++ l3)). rewrite turns_app in Q. specialize (Q ltac:(lia)). rewrite Rn in Q. apply replies_doings, Q.
Qed.
End Proofs.
