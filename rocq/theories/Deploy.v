(** * Proofs for C101: a server does the same with other procedures if the requests read are sent the same way. *)
From Verif Require Import Base Decimal DepUrl Serde Json Procedure Router RouterSpec RouterProofs Status SerResponse DeHeader DeRequest JsonText JsonDe Problem Error Client ClientSpec ClientProofs Server ServerSpec ServerProofs
  GrowthSpec Growth ClashSpec Clash DeploySpec.
From Coq Require Import Permutation.

Section Deploy.
Context `{floatlib} `{urlenv} {Conn R L : Type}.
Variable explain : request Conn -> ekind -> ustr * option ustr * option (list ustr).
Variable reason : status -> ustr.
Variable ln : link Conn.
Variable incoming : L -> fut (option (fut Conn) * L).
Notation on_request := (on_request explain reason ln).
Notation turn := (turn explain reason ln).
Notation serve_step := (serve_step explain reason ln incoming).
Notation serve_run := (serve_run explain reason ln incoming).

Lemma on_request_same (ps ps' : list (hproc Conn R)) r : same_way ps ps' r ->
  on_request (build (registrations ps)) r = on_request (build (registrations ps')) r.
Proof.
  intros S. unfold Server.on_request. destruct (parse_url (q_target r)) as [x|] eqn:P; [|reflexivity].
  rewrite (S x P). reflexivity.
Qed.

(** A connection that waits for a request waits for what it has begun to read. *)
Definition began (ev : list (event Conn)) (i : nat) (x : sstep Conn) : Prop :=
  match x with
  | Goes t | Sleeps t =>
      match t_phase t with
      | SpB f => exists c, In (EAct i (ARead c)) ev /\ settle f = settle (fbind (l_read ln c) or_else)
      | _ => True
      end
  | _ => True
  end.

Lemma began_got ev i t f r : began ev i (Goes t) -> t_phase t = SpB f -> fpoll f = AReady (Some r) ->
  exists c, In (EAct i (ARead c)) ev /\ settle (l_read ln c) = Comes (Got r).
Proof.
  cbn. intros B E P. rewrite E in B. destruct B as (c & I & S). exists c. split; [exact I|].
  assert (X : settle f = Comes (Some r)) by (destruct f; inversion P; reflexivity).
  rewrite X, settle_bind in S. destruct (settle (l_read ln c)) as [[q|[| |]|]|e|]; cbn in S; try discriminate.
  injection S as ->. reflexivity.
Qed.

Lemma began_more ev ev' i x : began ev i x -> began (ev ++ ev') i x.
Proof.
  destruct x as [t|t| | |]; cbn; auto; destruct (t_phase t); auto;
    intros (c & I & S); exists c; split; auto; apply in_app_iff; left; exact I.
Qed.

Lemma turn_same (ps ps' : list (hproc Conn R)) ev i t : began ev i (Goes t) ->
  requests_read ln ev (same_way ps ps') ->
  turn (build (registrations ps)) t = turn (build (registrations ps')) t.
Proof.
  intros B A. unfold Server.turn. destruct (t_phase t) as [f|f|f] eqn:E; [reflexivity | | reflexivity].
  destruct (fpoll f) as [[r|]|e|g] eqn:P; [|reflexivity | reflexivity | reflexivity].
  destruct (began_got ev i t f r B E P) as (c & I & S).
  rewrite (on_request_same ps ps' r (A i c r I S)). reflexivity.
Qed.

Lemma turn_began (tr : trie (hproc Conn R)) ev i t : began ev i (Goes t) ->
  began (ev ++ map (EAct i) (fst (turn tr t))) i (snd (turn tr t)).
Proof.
  intros B. unfold Server.turn. cbn in B. destruct (t_phase t) as [f|f|f] eqn:E.
  - destruct (fpoll f) as [c|e|g]; cbn; auto. exists c. split; [|reflexivity].
    apply in_app_iff. right. left. reflexivity.
  - destruct f as [[r|]|e|g|]; cbn -[Server.on_request]; auto.
    + destruct (on_request tr r); cbn; auto.
    + destruct B as (c & I & S). exists c. split; [|exact S]. apply in_app_iff. left. exact I.
    + destruct B as (c & I & S). exists c. split; [|exact S]. apply in_app_iff. left. exact I.
  - destruct (fpoll f) as [[[[c h] b]| | |]|e|g]; cbn; auto.
Qed.

Definition all_began (ev : list (event Conn)) (s : server Conn L) : Prop :=
  forall i x, nth_error (v_tasks s) i = Some x -> began ev i x.

Lemma step_began (tr : trie (hproc Conn R)) ev w s : all_began ev s ->
  all_began (ev ++ fst (serve_step tr w s)) (snd (serve_step tr w s)).
Proof.
  intros A. destruct w as [|i]; unfold Server.serve_step.
  - destruct (v_accept s) as [a|a|k].
    + destruct (accept_turn incoming a) as [ts st] eqn:T. cbn [fst snd]. intros j x J. cbn [v_tasks] in J.
      destruct (Nat.lt_ge_cases j (length (v_tasks s))) as [Lt|Ge].
      * rewrite nth_error_app1 in J by exact Lt. apply began_more, A, J.
      * rewrite nth_error_app2 in J by exact Ge. apply nth_error_In, in_map_iff in J. destruct J as (t & <- & J).
        revert T J. unfold accept_turn. destruct a as [f|f]; destruct (fpoll f) as [z|e|g]; try destruct z as [[cl|] l];
          intros [= <- <-] J; try destruct J as [<-|[]]; try destruct J. exact I.
    + destruct (accept_turn incoming a) as [ts st] eqn:T. cbn [fst snd]. intros j x J. cbn [v_tasks] in J.
      destruct (Nat.lt_ge_cases j (length (v_tasks s))) as [Lt|Ge].
      * rewrite nth_error_app1 in J by exact Lt. apply began_more, A, J.
      * rewrite nth_error_app2 in J by exact Ge. apply nth_error_In, in_map_iff in J. destruct J as (t & <- & J).
        revert T J. unfold accept_turn. destruct a as [f|f]; destruct (fpoll f) as [z|e|g]; try destruct z as [[cl|] l];
          intros [= <- <-] J; try destruct J as [<-|[]]; try destruct J. exact I.
    + cbn [fst snd]. intros j x J. apply began_more, A, J.
  - assert (K : forall t, began ev i (Goes t) ->
      all_began (ev ++ fst (let '(a, st) := turn tr t in (map (EAct i) a, mkServer (v_accept s) (update i st (v_tasks s)))))
        (snd (let '(a, st) := turn tr t in (map (EAct i) a, mkServer (v_accept s) (update i st (v_tasks s)))))).
    { intros t B. pose proof (turn_began tr ev i t B) as T. destruct (turn tr t) as [a st]. cbn [fst snd] in *.
      intros j x J. cbn [v_tasks] in J. rewrite nth_update in J. destruct (Nat.eqb i j) eqn:E.
      - apply Nat.eqb_eq in E. subst j. destruct (nth_error (v_tasks s) i); [|discriminate]. injection J as <-. exact T.
      - apply began_more, A, J. }
    destruct (nth_error (v_tasks s) i) as [[t|t| |k|]|] eqn:E;
      try (cbn [fst snd]; intros j x J; apply began_more, A, J).
    + apply K. exact (A i _ E).
    + apply K. exact (A i _ E).
Qed.

Lemma step_same (ps ps' : list (hproc Conn R)) ev w s : all_began ev s -> requests_read ln ev (same_way ps ps') ->
  serve_step (build (registrations ps)) w s = serve_step (build (registrations ps')) w s.
Proof.
  intros A Q. destruct w as [|i]; [reflexivity|]. unfold Server.serve_step.
  destruct (nth_error (v_tasks s) i) as [[t|t| |k|]|] eqn:E; try reflexivity.
  - rewrite (turn_same ps ps' ev i t (A i _ E) Q). reflexivity.
  - rewrite (turn_same ps ps' ev i t (A i _ E) Q). reflexivity.
Qed.

Lemma run_same_from (ps ps' : list (hproc Conn R)) : forall sched ev s, all_began ev s ->
  requests_read ln (ev ++ fst (serve_run (build (registrations ps)) sched s)) (same_way ps ps') ->
  serve_run (build (registrations ps')) sched s = serve_run (build (registrations ps)) sched s.
Proof.
  induction sched as [|w sched IH]; intros ev s A Q; [reflexivity|]. cbn [Server.serve_run] in *.
  assert (Q1 : requests_read ln ev (same_way ps ps')).
  { intros i c r I0. apply (Q i c r). apply in_app_iff. left. exact I0. }
  rewrite <- (step_same ps ps' ev w s A Q1).
  pose proof (step_began (build (registrations ps)) ev w s A) as A2.
  destruct (serve_step (build (registrations ps)) w s) as [e s1]. cbn [fst snd] in *.
  rewrite (IH (ev ++ e) s1 A2); [reflexivity|].
  destruct (serve_run (build (registrations ps)) sched s1) as [e' s2]. cbn [fst] in *.
  rewrite <- app_assoc. exact Q.
Qed.

Lemma run_same (ps ps' : list (hproc Conn R)) sched bind :
  requests_read ln (fst (serve_run (build (registrations ps)) sched (server_new bind))) (same_way ps ps') ->
  serve_run (build (registrations ps')) sched (server_new bind) = serve_run (build (registrations ps)) sched (server_new bind).
Proof.
  intros Q. apply (run_same_from ps ps' sched []); [|exact Q]. intros i x E. destruct i; discriminate.
Qed.

Lemma registrations_app (a b : list (hproc Conn R)) : registrations (a ++ b) = registrations a ++ registrations b.
Proof. apply map_app. Qed.

Lemma run_added (ps ps' : list (hproc Conn R)) sched bind : clash_free (registrations (ps ++ ps')) ->
  requests_read ln (fst (serve_run (build (registrations ps)) sched (server_new bind))) (meant_for ps) ->
  serve_run (build (registrations (ps ++ ps'))) sched (server_new bind) = serve_run (build (registrations ps)) sched (server_new bind).
Proof.
  intros C Q. apply run_same. intros i c r I0 S x X. destruct (Q i c r I0 S) as (segs & q & p & P & J & Em & M).
  rewrite P in X. injection X as <-. cbn [u_path]. rewrite registrations_app in *.
  assert (C1 : clash_free (registrations ps)).
  { intros g g' G G'. apply C; apply in_app_iff; left; assumption. }
  assert (J1 : In (q_method r, hp_entry p, p) (registrations ps)).
  { apply in_map_iff. exists p. rewrite Em. auto. }
  apply registered_accepted in J1. destruct J1 as [h J1].
  pose proof (clash_free_all _ C1 _ _ _ _ J1 M) as E1. rewrite E1. symmetry.
  exact (clash_free_grows _ _ _ _ _ C E1).
Qed.

Lemma run_order (ps ps' : list (hproc Conn R)) sched bind : Permutation ps ps' ->
  NoDup (map (fun p => (hp_method p, hp_entry p)) ps) ->
  serve_run (build (registrations ps')) sched (server_new bind) = serve_run (build (registrations ps)) sched (server_new bind).
Proof.
  intros P N. apply run_same. intros i c r _ _ x _. apply order_independent.
  - apply Permutation_map, P.
  - unfold registrations. rewrite map_map. exact N.
Qed.

Lemma run_conflict (ps : list (hproc Conn R)) p sched bind :
  (exists p', In p' ps /\ hp_method p' = hp_method p /\ hp_entry p' = hp_entry p) ->
  serve_run (build (registrations (ps ++ [p]))) sched (server_new bind) = serve_run (build (registrations ps)) sched (server_new bind).
Proof.
  intros (p' & I0 & E1 & E2). rewrite registrations_app. cbn [registrations map].
  rewrite failed_registration_unchanged; [reflexivity|]. exists p'. rewrite <- E1, <- E2.
  apply in_map_iff. exists p'. auto.
Qed.
End Deploy.
