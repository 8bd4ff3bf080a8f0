(** * Clients of two servers that send the same: proofs (C85). *)
From Verif Require Import Base Serde Procedure Router DepUrl Error Client ClientSpec Server ServerSpec ServerProofs ServerFairSpec ServerFair SessionSpec HttpBytes HttpBytesSpec CutsSpec CutsProofs ApartSpec.
Open Scope nat_scope.

Section One.
Context `{floatlib} `{urlenv} {Conn R L : Type}.
Variable explain : request Conn -> ekind -> ustr * option ustr * option (list ustr).
Variable reason : Status.status -> ustr.
Variables (ln : link Conn) (ps : list (hproc Conn R)) (incoming : L -> fut (option (fut Conn) * L)).

Lemma clients_mono : forall n n' f i c, n <= n' -> nth_error (fst (clients incoming n f)) i = Some c -> nth_error (fst (clients incoming n' f)) i = Some c.
Proof.
  induction n as [|n IH]; intros n' f i c Ln; [destruct i; discriminate|]. destruct n' as [|n']; [lia|]. cbn [clients].
  destruct (settle f) as [[[d|] l]|e|]; auto. cbn [fst]. destruct i as [|i]; [auto|]. cbn [nth_error]. apply IH. lia.
Qed.
Lemma accepting_mono n n' bind i c : n <= n' -> nth_error (fst (accepting incoming n bind)) i = Some c -> nth_error (fst (accepting incoming n' bind)) i = Some c.
Proof. unfold accepting. destruct (settle bind); auto. apply clients_mono. Qed.

(** A connection of a server, by itself. *)
Lemma by_itself sched bind n i f : nth_error (fst (accepting incoming n bind)) i = Some f ->
  let '(ev, s) := serve_run explain reason ln incoming (build (registrations ps)) sched (server_new bind) in
  exists k, forall m, k <= m ->
    match outcome i s with
    | Some e => conversation explain reason ln ps m f = (doings i ev, e)
    | None => exists a', fst (conversation explain reason ln ps m f) = doings i ev ++ a'
    end.
Proof.
  intros Ni. pose proof (all_apart explain reason ln ps incoming bind sched) as P. destruct (serve_run _ _ _ _ _ sched (server_new bind)) as [ev s].
  destruct P as (ts & A & _ & Lt & Z & T). set (n' := max n (turns is_acceptor sched)).
  pose proof (arounds_left incoming _ n' (AcA bind) (Nat.le_max_r _ _)) as Q. rewrite A in Q. destruct Q as (cs & -> & Q).
  pose proof (accepting_mono n n' bind i f (Nat.le_max_l _ _) Ni) as Ni'. rewrite map_length in Lt, Z. rewrite doings_acts.
  destruct (Nat.lt_ge_cases i (length cs)) as [Li|Gi].
  - assert (Ei : nth_error cs i = Some f).
    { destruct (aview (v_accept s)); [destruct Q as [cs' Q]; cbn [aleft] in Q; rewrite Q, nth_error_app1 in Ni' by exact Li; exact Ni' .. | cbn [aleft] in Q; rewrite Q in Ni'; exact Ni']. }
    destruct (T i (task_new f)) as (st & k & Ns & Er); [rewrite nth_error_map, Ei; reflexivity|]. exists k. intros m Lm.
    pose proof (rounds_conversation explain reason ln ps k m f Lm) as Rc. rewrite Er in Rc. unfold outcome. rewrite Ns. destruct st; exact Rc.
  - exists 0. intros m _. unfold outcome. rewrite (proj2 (nth_error_None (v_tasks s) i)) by lia. rewrite Z by exact Gi. exists (fst (conversation explain reason ln ps m f)). reflexivity.
Qed.
End One.

Lemma prefixes {A} (a b x y : list A) : a ++ x = b ++ y -> prefix a b \/ prefix b a.
Proof.
  revert b. induction a as [|z a IH]; intros b E; [left; exists b; reflexivity|]. destruct b as [|w b]; [right; exists (z :: a); reflexivity|]. injection E as -> E.
  destruct (IH b E) as [[l ->]|[l ->]]; [left | right]; exists l; reflexivity.
Qed.
Lemma outcome_over {Conn L} i (s : server Conn L) e : outcome i s = Some e -> e <> Unfinished.
Proof. unfold outcome. destruct (nth_error _ i) as [[]|]; cbn [ended]; intros [= <-]; discriminate. Qed.

Section Two.
Context `{floatlib} `{urlenv} {R L1 L2 : Type}.
Variable explain : request bconn -> ekind -> ustr * option ustr * option (list ustr).
Variable reason : Status.status -> ustr.
Variables (trims : bool) (uri_byte : N -> bool) (sl : limits) (ps : list (hproc bconn R)).
Variables (in1 : L1 -> fut (option (fut bconn) * L1)) (in2 : L2 -> fut (option (fut bconn) * L2)).
Notation ln := (byte_link trims uri_byte sl).
Notation room := (most_bytes sl).
Hypothesis Ex : forall q q' e, like room q q' -> explain q e = explain q' e.
Hypothesis Hp : forall hp, In hp ps -> by_bytes room hp.

Theorem same_replies sched1 bind1 n1 i f1 sched2 bind2 n2 j f2 :
  nth_error (fst (accepting in1 n1 bind1)) i = Some f1 -> nth_error (fst (accepting in2 n2 bind2)) j = Some f2 -> sends_more room f1 f2 ->
  let '(ev1, s1) := serve_run explain reason ln in1 (build (registrations ps)) sched1 (server_new bind1) in
  let '(ev2, s2) := serve_run explain reason ln in2 (build (registrations ps)) sched2 (server_new bind2) in
  (prefix (heard i ev1) (heard j ev2) \/ prefix (heard j ev2) (heard i ev1)) /\
  forall e, outcome i s1 = Some e -> prefix (heard j ev2) (heard i ev1) /\ forall e', outcome j s2 = Some e' -> heard j ev2 = heard i ev1 /\ e' = e.
Proof.
  intros N1 N2 S. pose proof (by_itself explain reason ln ps in1 sched1 bind1 n1 i f1 N1) as B1. pose proof (by_itself explain reason ln ps in2 sched2 bind2 n2 j f2 N2) as B2.
  destruct (serve_run _ _ _ _ _ sched1 _) as [ev1 s1]. destruct (serve_run _ _ _ _ _ sched2 _) as [ev2 s2]. destruct B1 as [k1 B1], B2 as [k2 B2].
  set (m := max k1 k2). specialize (B1 m (Nat.le_max_l _ _)). specialize (B2 m (Nat.le_max_r _ _)).
  destruct (conversation_follows explain reason trims uri_byte sl ps Ex Hp m f1 f2 S) as (more & E & N). unfold heard.
  assert (P2 : exists z, replied (fst (conversation explain reason ln ps m f2)) = replied (doings j ev2) ++ z /\ (outcome j s2 <> None -> z = [])).
  { destruct (outcome j s2); [rewrite B2; exists []; rewrite app_nil_r; auto|]. destruct B2 as [a' ->]. rewrite replied_app. eexists. split; [reflexivity|]. intros Q. elim Q. reflexivity. }
  destruct P2 as (z & P2 & Z). destruct (outcome i s1) as [e1|] eqn:O1.
  - rewrite B1 in E, N. cbn [fst snd] in E, N. destruct (N (outcome_over _ _ _ O1)) as [-> Ec]. rewrite app_nil_r in E. rewrite E in P2.
    split; [right; exists z; exact P2|]. intros e [= <-]. split; [exists z; exact P2|]. intros e' O2. rewrite O2 in *. rewrite (Z ltac:(discriminate)), app_nil_r in P2.
    split; [symmetry; exact P2|]. rewrite B2 in Ec. exact Ec.
  - destruct B1 as [a' B1]. rewrite B1, replied_app, P2, <- app_assoc in E. split; [|discriminate]. apply (prefixes _ _ _ _ (eq_sym E)).
Qed.

Theorem same_in_the_end sched1 bind1 n1 i f1 sched2 bind2 n2 j f2 :
  nth_error (fst (accepting in1 n1 bind1)) i = Some f1 -> nth_error (fst (accepting in2 n2 bind2)) j = Some f2 -> sends_more room f1 f2 ->
  often (fun w => w = Acceptor) sched2 -> often (fun w => w = Connection j) sched2 ->
  let '(ev1, s1) := serve_run explain reason ln in1 (build (registrations ps)) sched1 (server_new bind1) in
  finally (fun n => let '(ev2, s2) := after_rounds explain reason ln ps in2 sched2 n bind2 in
    prefix (heard i ev1) (heard j ev2) /\ forall e, outcome i s1 = Some e -> heard j ev2 = heard i ev1 /\ outcome j s2 = Some e).
Proof.
  intros N1 N2 S Oa Oc. pose proof (by_itself explain reason ln ps in1 sched1 bind1 n1 i f1 N1) as B1.
  destruct (serve_run _ _ _ _ _ sched1 _) as [ev1 s1]. destruct B1 as [k1 B1]. specialize (B1 k1 (Nat.le_refl _)).
  destruct (conversation_follows explain reason trims uri_byte sl ps Ex Hp k1 f1 f2 S) as (more & E & N). unfold heard.
  destruct (served_rounds explain reason ln ps in2 bind2 sched2 n2 j f2 k1 Oa Oc N2) as [n Q]. exists n. intros m Lm. specialize (Q m Lm).
  destruct (after_rounds _ _ _ _ _ sched2 m bind2) as [ev2 s2]. destruct Q as (a' & Ed & Q). rewrite Ed, replied_app. destruct (outcome i s1) as [e1|] eqn:O1.
  - rewrite B1 in E, N. cbn [fst snd] in E, N. destruct (N (outcome_over _ _ _ O1)) as [-> Ec]. rewrite app_nil_r in E. rewrite Ec in Q. destruct (Q (outcome_over _ _ _ O1)) as [-> O2].
    rewrite E. cbn. rewrite app_nil_r. split; [exists []; rewrite app_nil_r; reflexivity|]. intros e [= <-]. split; [reflexivity | exact O2].
  - destruct B1 as [a1 B1]. rewrite B1, replied_app in E. rewrite E. split; [|discriminate]. eexists. rewrite <- !app_assoc. reflexivity.
Qed.
End Two.
