(** * The server's tasks sleep only on a future that said it is not ready. *)
From Verif Require Import Base DepUrl Serde Procedure Router Error Client Server ServerPoll WakeSpec.
Local Open Scope nat_scope.

Lemma fpoll_not_ready {A} (f f' : fut A) : fpoll f = ANotReady f' -> says_not_ready f f'.
Proof. destruct f; try discriminate; intros [= <-]; [left; reflexivity | right; auto]. Qed.

Section WakeServer.
Context `{floatlib} `{urlenv} {Conn R L : Type}.
Variable explain : request Conn -> ekind -> ustr * option ustr * option (list ustr).
Variable reason : Status.status -> ustr.
Variable ln : link Conn.
Variable incoming : L -> fut (option (fut Conn) * L).
Variable tr : trie (hproc Conn R).

Lemma turn_sleeps t a t' : turn explain reason ln tr t = (a, Sleeps t') -> a = [] /\ t_method t' = t_method t /\ phase_not_ready (t_phase t) (t_phase t').
Proof.
  unfold turn. destruct (t_phase t) as [f|f|f]; destruct (fpoll f) as [x|e|f'] eqn:E; try discriminate.
  - intros [= <- <-]. cbn. split; [|split]; auto. apply fpoll_not_ready, E.
  - destruct x as [r|]; [|discriminate]. destruct (on_request explain reason ln tr r); discriminate.
  - intros [= <- <-]. cbn. split; [|split]; auto. apply fpoll_not_ready, E.
  - destruct x as [[[c h] b]| | |]; discriminate.
  - intros [= <- <-]. cbn. split; [|split]; auto. apply fpoll_not_ready, E.
Qed.
Theorem connection_sleeps fuel : forall t a t', poll_task explain reason ln tr fuel t = (a, Ok (Sleeps t')) ->
  exists n t0, n < fuel /\ rounds explain reason ln tr n t = (a, Goes t0) /\ t_method t' = t_method t0 /\ phase_not_ready (t_phase t0) (t_phase t').
Proof.
  induction fuel as [|fuel IH]; intros t a t'; [discriminate|]. cbn [poll_task]. destruct (turn explain reason ln tr t) as [a1 st] eqn:E. destruct st as [t1|t1| | |].
  - destruct (poll_task explain reason ln tr fuel t1) as [a2 x] eqn:E2. intros [= <- ->]. destruct (IH t1 a2 t' E2) as (n & t0 & Ln & Q & M & P).
    exists (S n), t0. split; [lia|]. cbn [rounds]. rewrite E, Q. auto.
  - intros [= <- <-]. destruct (turn_sleeps t a1 t1 E) as (-> & M & P). exists 0, t. split; [lia|]. auto.
  - discriminate.
  - discriminate.
  - discriminate.
Qed.

Lemma accept_turn_sleeps p ts p' : accept_turn incoming p = (ts, ASleeps p') -> ts = [] /\ accept_not_ready p p'.
Proof.
  unfold accept_turn. destruct p as [f|f]; destruct (fpoll f) as [x|e|f'] eqn:E; try discriminate.
  - intros [= <- <-]. split; [reflexivity | apply fpoll_not_ready, E].
  - destruct x as [[c|] l]; discriminate.
  - intros [= <- <-]. split; [reflexivity | apply fpoll_not_ready, E].
Qed.
(** Rounds of the accept loop that go on. *)
Inductive accepts : aphase Conn L -> list (task Conn) -> aphase Conn L -> Prop :=
| acc_none p : accepts p [] p
| acc_more p ts p1 ts' p' : accept_turn incoming p = (ts, AGoes p1) -> accepts p1 ts' p' -> accepts p (ts ++ ts') p'.
Theorem acceptor_sleeps fuel : forall p ts p', poll_accept incoming fuel p = (ts, Ok (ASleeps p')) -> exists p0, accepts p ts p0 /\ accept_not_ready p0 p'.
Proof.
  induction fuel as [|fuel IH]; intros p ts p'; [discriminate|]. cbn [poll_accept]. destruct (accept_turn incoming p) as [t1 st] eqn:E. destruct st as [p1|p1|k].
  - destruct (poll_accept incoming fuel p1) as [t2 x] eqn:E2. intros [= <- ->]. destruct (IH p1 t2 p' E2) as (p0 & A & Q). exists p0. split; [econstructor; eassumption | exact Q].
  - intros [= <- <-]. destruct (accept_turn_sleeps p t1 p1 E) as [-> Q]. exists p. split; [constructor | exact Q].
  - discriminate.
Qed.
End WakeServer.
