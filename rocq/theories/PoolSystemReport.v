(** * Failed connection attempts: reported, recorded, and what comes of it. *)
From Verif Require Import Base Serde Procedure Router SerRequest DeHeader DeResponse DepUrl Error Client ClientSpec ClientProofs Pool PoolSpec PoolProofs PoolSystem PoolSystemSpec PoolSystemProofs PoolSystemInv PoolSystemGone.
Open Scope N_scope.

(** ** The blacklist of a pool that did not panic *)
Section Black.
  Context {C : Type}.
  Variables (tmax : Z) (checks : bool).
  Lemma drop_black : forall fuel (p p' : pool C), drop_exceeded fuel p = Ok p' -> p_black p' = p_black p /\ p_susp p' = p_susp p.
  Proof.
    induction fuel as [|fuel IH]; intros p p'; cbn [drop_exceeded]; [discriminate|]. destruct (p_size p <? N.of_nat (length (p_conns p))); [|intros [= <-]; auto].
    destruct (p_lru p) as [|[q a] r]; [discriminate|]. intros E. apply IH in E. exact E.
  Qed.
  Lemma acquire_black a (p : pool C) x p' : acquire_connection a p = Ok (x, p') -> p_black p' = p_black p /\ p_susp p' = p_susp p /\ forall t, x <> Suspended t.
  Proof.
    unfold acquire_connection. destruct (bt_from cid_cmp (mkCid a 0) (p_conns p)) as [|[id c0] r]; [intros [= <- <-]; repeat split; discriminate|].
    destruct (saddr_eqb (id_addr id) a); [|intros [= <- <-]; repeat split; discriminate].
    destruct (bt_remove cid_cmp id (p_conns p)) as [[y|] conns]; [|discriminate]. intros [= <- <-]. repeat split; discriminate.
  Qed.
  Definition black_for (p : pool C) (d : Z) (past : list (Z * command C)) : Prop := black_ok p d past /\ p_susp p = d.
  Lemma handle_black now c (p : pool C) o p' d past : handle_command tmax checks now c p = Ok (o, p') -> black_for p d past ->
    black_for p' d (past ++ [(now, c)]) /\
    match c with
    | AcquireConnection a i => match deadline d a past with
                               | Some t => if (now <? t)%Z then o = Some (i, Suspended t) else exists x, o = Some (i, x) /\ forall t, x <> Suspended t
                               | None => exists x, o = Some (i, x) /\ forall t, x <> Suspended t
                               end
    | _ => o = None
    end.
  Proof.
    intros E [[Nd Df] Sd]. destruct c as [a i|a c|a]; cbn [handle_command] in E.
    - destruct (hm_remove_spec a (p_black p)) as (R1 & R2 & R3 & _). destruct (R2 Nd) as (R21 & R22 & R23). rewrite Df in R1.
      destruct (hm_remove a (p_black p)) as [b black]. cbn [fst snd] in *. subst b.
      assert (Sv : match deadline d a past with Some t => (now <? t)%Z = false | None => True end -> forall p1 x,
        acquire_connection a (mkPool (p_size p) (p_conns p) (p_lru p) (p_seq p) black (p_susp p)) = Ok (x, p1) ->
        black_for p1 d (past ++ [(now, AcquireConnection a i)]) /\ forall t, x <> Suspended t).
      { intros Ot p1 x Ea. apply acquire_black in Ea. destruct Ea as (B1 & B2 & B3). cbn [p_black p_susp] in *. split; [|exact B3]. split; [|congruence].
        split; [rewrite B1; exact R21|]. intros b. rewrite B1, deadline_snoc. cbn [deadline_step]. destruct (saddr_eqb_spec a b) as [<-|Nb].
        - rewrite R23. destruct (deadline d a past) as [t|]; [rewrite Ot|]; reflexivity.
        - rewrite R3 by congruence. apply Df. }
      destruct (deadline d a past) as [t|] eqn:Ed.
      + destruct (now <? t)%Z eqn:Lt.
        * injection E as <- <-. destruct (hm_insert_spec a t black R21) as [H1 H2]. split; [|reflexivity]. split; [|exact Sd].
          split; [exact H1|]. intros b. cbn [p_black]. rewrite H2, deadline_snoc. cbn [deadline_step]. destruct (saddr_eqb_spec b a) as [->|Nb].
          -- rewrite saddr_eqb_refl, Ed, Lt. reflexivity.
          -- destruct (saddr_eqb_spec a b); [congruence|]. rewrite R3 by exact Nb. apply Df.
        * destruct (acquire_connection a _) as [[x p1]| | |] eqn:Ea; cbn [bind] in E; try discriminate. injection E as <- <-.
          destruct (Sv eq_refl p1 x eq_refl) as [S1 S2]. split; [exact S1|]. exists x. auto.
      + destruct (acquire_connection a _) as [[x p1]| | |] eqn:Ea; cbn [bind] in E; try discriminate. injection E as <- <-.
        destruct (Sv I p1 x eq_refl) as [S1 S2]. split; [exact S1|]. exists x. auto.
    - unfold release_connection in E. destruct (next_seq checks (p_seq p)) as [n| | |]; cbn [bind] in E; try discriminate.
      destruct (drop_exceeded _ _) as [q| | |] eqn:Eq; cbn [bind] in E; try discriminate. injection E as <- <-. apply drop_black in Eq. destruct Eq as [B1 B2]. cbn [p_black p_susp] in *.
      split; [|reflexivity]. split; [|congruence]. split; [rewrite B1; exact Nd|]. intros b. rewrite B1, deadline_snoc. apply Df.
    - destruct (now + p_susp p <=? tmax)%Z; [|discriminate]. injection E as <- <-. destruct (hm_insert_spec a (now + p_susp p)%Z (p_black p) Nd) as [H1 H2].
      split; [|reflexivity]. split; [|exact Sd]. split; [exact H1|]. intros b. cbn [p_black]. rewrite H2, deadline_snoc. cbn [deadline_step]. rewrite Sd. destruct (saddr_eqb_spec b a) as [->|Nb].
      + rewrite saddr_eqb_refl. reflexivity.
      + destruct (saddr_eqb_spec a b); [congruence|]. apply Df.
  Qed.
  Lemma run_black h : forall (p : pool C) d past xs p', run tmax checks h p = Ok (xs, p') -> black_for p d past -> black_for p' d (past ++ h).
  Proof.
    induction h as [|[now c] h IH]; intros p d past xs p' E B; cbn [run] in E.
    - injection E as <- <-. rewrite app_nil_r. exact B.
    - destruct (handle_command tmax checks now c p) as [[o q]| | |] eqn:Eh; cbn [bind] in E; try discriminate.
      destruct (run tmax checks h q) as [[l q']| | |] eqn:Er; cbn [bind] in E; try discriminate. injection E as <- <-.
      destruct (handle_black _ _ _ _ _ _ _ Eh B) as [B1 _]. specialize (IH _ _ _ _ _ Er B1). rewrite <- app_assoc in IH. exact IH.
  Qed.
  Lemma black_for_new size d : black_for (pool_new size d) d [].
  Proof. split; [apply black_new | reflexivity]. Qed.
  (** The answer to an acquisition somewhere in a history. *)
  Lemma answer_at size d h1 now a i h2 xs p : run tmax checks (h1 ++ (now, AcquireConnection a i) :: h2) (pool_new size d) = Ok (xs, p) -> exists x, In (i, x) xs /\
    match deadline d a h1 with Some t => if (now <? t)%Z then x = Suspended t else forall t, x <> Suspended t | None => forall t, x <> @Suspended C t end.
  Proof.
    rewrite run_app. destruct (run tmax checks h1 (pool_new size d)) as [[l1 p1]| | |] eqn:E1; cbn [bind run]; try discriminate.
    destruct (handle_command tmax checks now (AcquireConnection a i) p1) as [[o p2]| | |] eqn:Eh; cbn [bind]; try discriminate.
    destruct (run tmax checks h2 p2) as [[l2 p3]| | |]; cbn [bind]; try discriminate. intros [= <- <-].
    pose proof (run_black _ _ _ _ _ _ E1 (black_for_new size d)) as B. destruct (handle_black _ _ _ _ _ _ _ Eh B) as [_ Q]. cbn [app] in Q.
    assert (K : forall x, o = Some (i, x) -> In (i, x) (l1 ++ match o with Some x => x :: l2 | None => l2 end)) by (intros x ->; apply in_or_app; right; left; reflexivity).
    destruct (deadline d a h1) as [t|]; [destruct (now <? t)%Z|].
    - exists (Suspended t). auto.
    - destruct Q as (x & E & N). exists x. auto.
    - destruct Q as (x & E & N). exists x. auto.
  Qed.
End Black.

Section Report.
Context {F : floatlib} {U : urlenv}.
Variables (tmax : Z) (checks : bool).
Notation prun := (prun tmax checks).
Notation pstep := (pstep tmax checks).
Notation plog := (plog tmax checks).

Lemma prun_log ls : forall s, snd (prun ls s) = concat (map snd (plog ls s)).
Proof.
  induction ls as [|l ls IH]; intros s; cbn [PoolSystem.prun PoolSystemSpec.plog]; [reflexivity|].
  destruct (pstep l s) as [[s1 t]|]; [|apply IH]. specialize (IH s1). destruct (prun ls s1) as [s2 t2]. cbn [map concat snd fst] in *. congruence.
Qed.

(** ** The polls of a call *)
Definition by_call (i : nat) (t : list pevent) : Prop := forall j, j <> i -> own j t = [].
Definition no_report (t : list pevent) : Prop := forall i a, ~ In (EBlacklist i a) t.
Lemma own_app i t1 t2 : own i (t1 ++ t2) = own i t1 ++ own i t2.
Proof. apply filter_app. Qed.
Lemma own_acts i j ts : own i (map (EAct j) ts) = if Nat.eqb i j then map (EAct j) ts else [].
Proof. unfold own. induction ts as [|a ts IH]; cbn [map filter event_of]; [destruct (Nat.eqb i j); reflexivity|]. rewrite IH. destruct (Nat.eqb i j); reflexivity. Qed.
Lemma by_acts i ts : by_call i (map (EAct i) ts).
Proof. intros j N. rewrite own_acts. destruct (Nat.eqb_spec j i); congruence. Qed.
Lemma no_report_acts i ts : no_report (map (EAct i) ts).
Proof. intros j a I. apply in_map_iff in I. destruct I as (x & [=] & _). Qed.

(** The commands a poll sends are those of its events, and only a failed attempt to connect is reported. *)
Lemma says_acts i ts : flat_map says (map (EAct i) ts) = [].
Proof. induction ts; auto. Qed.
Lemma inner_says i pc c r s : exists x, fst (inner_result i pc c r s) = moved i x (flat_map says (snd (inner_result i pc c r s))) [] s /\
  by_call i (snd (inner_result i pc c r s)) /\ no_report (snd (inner_result i pc c r s)) /\ (forall a, x <> Acquiring a).
Proof.
  destruct r as [ts o]. unfold inner_result. destruct o as [[k|v b c']|e| |]; cbn [fst snd].
  - exists (Talking c k). rewrite says_acts, put_moved. split; [reflexivity|]. split; [apply by_acts|]. split; [apply no_report_acts | discriminate].
  - exists (Finished v b). rewrite flat_map_app, says_acts. cbn [flat_map says app]. rewrite send_eq. split; [unfold put_state, moved, queue_after; cbn; rewrite app_nil_r; reflexivity|].
    split; [|split; [|discriminate]].
    + intros j N. rewrite own_app, own_acts. unfold own. cbn. destruct (Nat.eqb_spec j i); [congruence | reflexivity].
    + intros j a I. apply in_app_or in I. destruct I as [I|[[=]|[]]]. exact (no_report_acts i ts j a I).
  - exists (Broken e). rewrite says_acts, put_moved. split; [reflexivity|]. split; [apply by_acts|]. split; [apply no_report_acts | discriminate].
  - exists Panicked. rewrite says_acts, put_moved. split; [reflexivity|]. split; [apply by_acts|]. split; [apply no_report_acts | discriminate].
  - exists Panicked. rewrite says_acts, put_moved. split; [reflexivity|]. split; [apply by_acts|]. split; [apply no_report_acts | discriminate].
Qed.
(** The states of a call that waits for the pool, is turned down, has an idle connection, or is connecting; and the next. *)
Definition next_state (i : nat) (a : saddr) (q : list (command conn)) (x x' : cstate) (t : list pevent) : Prop :=
  match x with
  | Acquiring None => t = [] /\ if pending i q then x' = Acquiring None else x' = Broken Other
  | Acquiring (Some PSuspended) => t = [] /\ x' = Broken Other
  | Acquiring (Some (PConnect (Failed e))) => t = [EBlacklist i a] /\ x' = Broken (error_of e)
  | Acquiring (Some (PConnect (Later f))) => t = [] /\ x' = Acquiring (Some (PConnect f))
  | Acquiring (Some (PConnect Never)) => t = [] /\ x' = Acquiring (Some (PConnect Never))
  | Acquiring (Some (PConnect (Ready _))) | Acquiring (Some (PIdle _)) | Talking _ _ => no_report t /\ forall a, x' <> Acquiring a
  | _ => False
  end.
Lemma poll_says i w pc s s' t : poll_pooled i w pc s = Some (s', t) -> exists x op,
  s' = moved i x (flat_map says t) op s /\ by_call i t /\ next_state i (c_addr pc) (s_queue s) (c_state pc) x t.
Proof.
  unfold poll_pooled. destruct (c_state pc) as [a|c k| | | |]; try discriminate.
  - destruct a as [[|c|f]|]; cbn [acquire_poll].
    + intros [= <- <-]. exists (Broken Other), []. rewrite put_moved. split; [reflexivity|]. split; [intros j _; reflexivity | split; reflexivity].
    + intros E. destruct (inner_says i pc c (poll_call w (c_proc pc) (call_new (c_req pc) (Ready c))) s) as (x & E1 & E2 & E3 & E4).
      destruct (inner_result i pc c _ s) as [s1 t1]. injection E as <- <-. cbn [fst snd] in *. exists x, []. rewrite E1. split; [reflexivity|]. split; [exact E2 | split; assumption].
    + destruct f as [[]|e|f|]; cbn [fpoll].
      * cbv zeta. intros E. set (c := length (s_opened s)) in *. set (s0 := mkPsys (s_pool s) (s_queue s) (s_calls s) (s_opened s ++ [c_addr pc])) in *.
        destruct (inner_says i pc c (poll_call (Conn := conn) w (c_proc pc) (call_new (Conn := conn) (c_req pc) (Ready (A := conn) c))) s0) as (x & E1 & E2 & E3 & E4).
        destruct (inner_result i pc c _ s0) as [s1 t1]. injection E as <- <-. cbn [fst snd] in *. exists x, [c_addr pc]. rewrite E1. split.
        -- unfold moved, s0. cbn [s_pool s_calls s_opened flat_map says app queue_after]. rewrite app_nil_r. reflexivity.
        -- split; [intros j N; cbn; exact (E2 j N)|]. split; [|exact E4]. intros j a [[=]|I]. exact (E3 j a I).
      * intros [= <- <-]. exists (Broken (error_of e)), []. rewrite send_eq. cbn [flat_map says app]. split; [unfold put_state, moved, queue_after; cbn; rewrite app_nil_r; reflexivity|].
        split; [|split; reflexivity]. intros j N. unfold own. cbn. destruct (Nat.eqb_spec j i); [congruence | reflexivity].
      * intros [= <- <-]. exists (Acquiring (Some (PConnect f))), []. rewrite put_moved. split; [reflexivity|]. split; [intros j _; reflexivity | split; reflexivity].
      * intros [= <- <-]. exists (Acquiring (Some (PConnect Never))), []. rewrite put_moved. split; [reflexivity|]. split; [intros j _; reflexivity | split; reflexivity].
    + destruct (pending i (s_queue s)) eqn:Ep; intros [= <- <-].
      * exists (Acquiring None), []. rewrite put_moved. split; [reflexivity|]. split; [intros j _; reflexivity|]. cbn [next_state]. rewrite Ep. auto.
      * exists (Broken Other), []. rewrite put_moved. split; [reflexivity|]. split; [intros j _; reflexivity|]. cbn [next_state]. rewrite Ep. auto.
  - intros E. destruct (inner_says i pc c (poll_call w (c_proc pc) k) s) as (x & E1 & E2 & E3 & E4).
    destruct (inner_result i pc c _ s) as [s1 t1]. injection E as <- <-. cbn [fst snd] in *. exists x, []. rewrite E1. split; [reflexivity|]. split; [exact E2 | split; assumption].
Qed.

(** ** Reports and failed attempts *)
Lemma failed_poll i w s a : connect_failed i a s -> exists s', pstep (LPoll i w) s = Some (s', [EBlacklist i a]).
Proof.
  intros [Ea (e & Es)]. unfold addr_of in Ea. unfold state_of in Es. cbn [PoolSystem.pstep]. destruct (nth_error (s_calls s) i) as [pc|]; [|discriminate]. cbn [option_map] in *. injection Ea as Ea. injection Es as Es.
  unfold poll_pooled. rewrite Es. cbn [acquire_poll fpoll]. subst a. eexists. reflexivity.
Qed.
Lemma step_report l s s' t i a : pstep l s = Some (s', t) -> In (EBlacklist i a) t -> (exists w, l = LPoll i w) /\ connect_failed i a s.
Proof.
  destruct l as [addr p req|now f| |j w|j]; cbn [PoolSystem.pstep]; intros E I.
  - injection E as <- <-. destruct I.
  - destruct (s_pool s) as [p|]; [|discriminate]. destruct (s_queue s) as [|c q]; [discriminate|]. destruct (handle_command tmax checks now c p) as [[o p']|e| |]; injection E as <- <-; destruct I.
  - destruct (s_pool s); [|discriminate]. injection E as <- <-. destruct I.
  - destruct (nth_error (s_calls s) j) as [pc|] eqn:En; [|discriminate]. destruct (poll_says _ _ _ _ _ _ E) as (x & op & _ & _ & N). unfold next_state in N.
    destruct (c_state pc) as [[[|c|[v|e|f|]]|]|c k| | | |] eqn:Es; try contradiction; try (destruct N as [N _]; elim (N i a I)); try (destruct N as [-> _]; destruct I; fail).
    destruct N as [-> _]. destruct I as [[= -> <-]|[]]. split; [exists w; reflexivity|]. unfold connect_failed, addr_of, state_of. rewrite En. cbn [option_map]. rewrite Es. split; [reflexivity | exists e; reflexivity].
  - destruct (nth_error (s_calls s) j) as [pc|]; [|discriminate]. destruct (c_state pc); try discriminate; injection E as <- <-; destruct I.
Qed.
Theorem reported_iff ls : forall s i a, In (EBlacklist i a) (snd (prun ls s)) <->
  exists l1 w l2, ls = l1 ++ LPoll i w :: l2 /\ connect_failed i a (fst (prun l1 s)).
Proof.
  induction ls as [|l ls IH]; intros s i a.
  - cbn. split; [intros [] | intros ([|] & w & l2 & [=] & _)].
  - cbn [PoolSystem.prun]. destruct (pstep l s) as [[s1 t]|] eqn:E.
    + specialize (IH s1 i a). destruct (prun ls s1) as [s2 t2] eqn:Er. cbn [snd fst] in *. rewrite in_app_iff, IH. split.
      * intros [I|(l1 & w & l2 & -> & Cf)].
        -- destruct (step_report _ _ _ _ _ _ E I) as [(w & ->) Cf]. exists [], w, ls. split; [reflexivity | exact Cf].
        -- exists (l :: l1), w, l2. split; [reflexivity|]. cbn [PoolSystem.prun]. rewrite E. destruct (prun l1 s1). exact Cf.
      * intros (l1 & w & l2 & El & Cf). destruct l1 as [|l' l1]; injection El as -> ->.
        -- left. cbn in Cf. destruct (failed_poll i w s a Cf) as (s' & E'). rewrite E' in E. injection E as <- <-. left. reflexivity.
        -- right. exists l1, w, l2. split; [reflexivity|]. cbn [PoolSystem.prun] in Cf. rewrite E in Cf. destruct (prun l1 s1). exact Cf.
    + rewrite (IH s i a). split.
      * intros (l1 & w & l2 & -> & Cf). exists (l :: l1), w, l2. split; [reflexivity|]. cbn [PoolSystem.prun]. rewrite E. exact Cf.
      * intros (l1 & w & l2 & El & Cf). destruct l1 as [|l' l1]; injection El as -> ->.
        -- cbn in Cf. destruct (failed_poll i w s a Cf) as (s' & E'). rewrite E' in E. discriminate.
        -- exists l1, w, l2. split; [reflexivity|]. cbn [PoolSystem.prun] in Cf. rewrite E in Cf. exact Cf.
Qed.

(** ** The states of a call, step by step *)
Definition on_its_way (x : option cstate) : Prop := match x with Some (Acquiring _) | Some (Talking _ _) => True | _ => False end.
Lemma state_snoc cs c i p q o : state_of i (mkPsys p q (cs ++ [c]) o) = if Nat.eqb i (length cs) then Some (c_state c) else option_map c_state (nth_error cs i).
Proof. unfold state_of. cbn [s_calls]. rewrite nth_snoc. destruct (Nat.eqb i (length cs)); reflexivity. Qed.
Lemma addr_snoc cs c i p q o : addr_of i (mkPsys p q (cs ++ [c]) o) = if Nat.eqb i (length cs) then Some (c_addr c) else option_map c_addr (nth_error cs i).
Proof. unfold addr_of. cbn [s_calls]. rewrite nth_snoc. destruct (Nat.eqb i (length cs)); reflexivity. Qed.
Inductive move (i : nat) (l : plabel) (s s' : psys) (t : list pevent) : Prop :=
| m_none : state_of i s' = state_of i s -> own i t = [] -> move i l s s' t
| m_made : state_of i s = None -> state_of i s' = Some (Acquiring None) -> own i t = [] -> (exists a p r, l = LCall a p r) -> i = length (s_calls s) -> move i l s s' t
| m_told a now f : l = LPool now f -> state_of i s = Some (Acquiring None) -> state_of i s' = Some (Acquiring (Some (to_pooled a f))) -> own i t = [] -> move i l s s' t
| m_poll w a x x' : l = LPoll i w -> addr_of i s = Some a -> state_of i s = Some x -> state_of i s' = Some x' -> next_state i a (s_queue s) x x' t -> move i l s s' t
| m_drop : l = LDrop i -> on_its_way (state_of i s) -> state_of i s' = Some Dropped -> own i t = [] -> move i l s s' t.
Lemma step_move l s s' t i : pstep l s = Some (s', t) -> move i l s s' t.
Proof.
  destruct l as [addr p req|now f| |j w|j]; cbn [PoolSystem.pstep]; intros E.
  - injection E as <- <-. rewrite send_eq. cbn [s_pool s_calls s_opened]. destruct (Nat.eqb_spec i (length (s_calls s))) as [->|N].
    + apply m_made; auto.
      * unfold state_of. destruct (nth_error (s_calls s) (length (s_calls s))) eqn:En; [|reflexivity]. assert (L : nth_error (s_calls s) (length (s_calls s)) <> None) by congruence. apply nth_error_Some in L. lia.
      * rewrite state_snoc, Nat.eqb_refl. reflexivity.
      * eauto.
    + apply m_none; [|reflexivity]. rewrite state_snoc. destruct (Nat.eqb_spec i (length (s_calls s))); [congruence | reflexivity].
  - destruct (s_pool s) as [p|]; [|discriminate]. destruct (s_queue s) as [|c q]; [discriminate|]. destruct (handle_command tmax checks now c p) as [[o p']|e| |]; injection E as <- <-; try (apply m_none; reflexivity).
    destruct (after_command_state s p' q o f i) as [E|(E1 & a & _ & E2)]; [apply m_none; [exact E | reflexivity]|]. apply (m_told i _ s _ [] a now f); auto.
  - destruct (s_pool s); [|discriminate]. injection E as <- <-. apply m_none; reflexivity.
  - destruct (nth_error (s_calls s) j) as [pc|] eqn:En; [|discriminate]. destruct (poll_says _ _ _ _ _ _ E) as (x & op & -> & B & N). destruct (Nat.eq_dec j i) as [->|Nj].
    + apply (m_poll i (LPoll i w) s _ t w (c_addr pc) (c_state pc) x); auto.
      * unfold addr_of. rewrite En. reflexivity.
      * unfold state_of. rewrite En. reflexivity.
      * rewrite moved_state, Nat.eqb_refl, En. reflexivity.
    + apply m_none; [|apply B; congruence]. rewrite moved_state. destruct (Nat.eqb_spec j i); [congruence | reflexivity].
  - destruct (nth_error (s_calls s) j) as [pc|] eqn:En; [|discriminate].
    assert (D : (exists a, c_state pc = Acquiring a) \/ (exists c k, c_state pc = Talking c k)) by (destruct (c_state pc); try discriminate; eauto).
    assert (E' : s' = put_state j Dropped s /\ t = []) by (destruct (c_state pc); try discriminate; injection E as <- <-; auto). destruct E' as [-> ->]. clear E.
    rewrite put_moved. destruct (Nat.eq_dec j i) as [->|Nj].
    + apply m_drop; auto.
      * unfold state_of. rewrite En. cbn [option_map]. destruct D as [(a & ->)|(c & k & ->)]; exact I.
      * rewrite moved_state, Nat.eqb_refl, En. reflexivity.
    + apply m_none; [|reflexivity]. rewrite moved_state. destruct (Nat.eqb_spec j i); [congruence | reflexivity].
Qed.
Lemma step_addr l s s' t i a : pstep l s = Some (s', t) -> addr_of i s = Some a -> addr_of i s' = Some a.
Proof.
  destruct l as [addr p req|now f| |j w|j]; cbn [PoolSystem.pstep]; intros E Ea.
  - injection E as <- <-. rewrite send_eq. cbn [s_pool s_calls s_opened]. rewrite addr_snoc. destruct (Nat.eqb_spec i (length (s_calls s))) as [->|N]; [|exact Ea].
    unfold addr_of in Ea. destruct (nth_error (s_calls s) (length (s_calls s))) eqn:En; [|discriminate]. assert (L : nth_error (s_calls s) (length (s_calls s)) <> None) by congruence. apply nth_error_Some in L. lia.
  - destruct (s_pool s) as [p|]; [|discriminate]. destruct (s_queue s) as [|c q]; [discriminate|]. destruct (handle_command tmax checks now c p) as [[o p']|e| |]; injection E as <- <-; try exact Ea.
    pose proof (after_command_addr s p' q o f i) as Q. unfold after_command in Q. rewrite Q. exact Ea.
  - destruct (s_pool s); [|discriminate]. injection E as <- <-. exact Ea.
  - destruct (nth_error (s_calls s) j) as [pc|] eqn:En; [|discriminate]. destruct (poll_says _ _ _ _ _ _ E) as (x & op & -> & B & N). rewrite moved_addr. exact Ea.
  - destruct (nth_error (s_calls s) j) as [pc|]; [|discriminate]. destruct (c_state pc); try discriminate; injection E as <- <-; rewrite put_moved, moved_addr; exact Ea.
Qed.

(** ** A call reports at most once, and then it does nothing else *)
Definition silent (i : nat) (tr : list pevent) : Prop := forall a, ~ In (EBlacklist i a) tr.
Definition report_ok (i : nat) (x : option cstate) (tr : list pevent) : Prop :=
  match x with
  | None | Some (Acquiring _) => own i tr = []
  | Some (Broken _) => silent i tr \/ exists a, own i tr = [EBlacklist i a]
  | _ => silent i tr
  end.
Lemma own_silent i tr : own i tr = [] -> silent i tr.
Proof.
  intros E a I. assert (J : In (EBlacklist i a) (own i tr)) by (apply filter_In; split; [exact I | cbn; apply Nat.eqb_refl]). rewrite E in J. destruct J.
Qed.
Lemma silent_app i t1 t2 : silent i t1 -> silent i t2 -> silent i (t1 ++ t2).
Proof. intros S1 S2 a I. apply in_app_or in I. destruct I as [I|I]; [exact (S1 a I) | exact (S2 a I)]. Qed.
Lemma no_report_silent i t : no_report t -> silent i t.
Proof. intros N a. apply N. Qed.
Lemma report_move i l s s' t tr : move i l s s' t -> report_ok i (state_of i s) tr -> report_ok i (state_of i s') (tr ++ t).
Proof.
  intros M R. destruct M as [E O|E E' O _ _|a now f _ E E' O|w a x x' _ Ea E E' N|_ Ow E' O].
  - rewrite E. unfold report_ok in *. pose proof (own_silent i t O) as St. destruct (state_of i s) as [[a|c k|v b|k| |]|]; rewrite ?own_app, ?O, ?app_nil_r; auto using silent_app.
    destruct R as [R|(b & R)]; [left; auto using silent_app | right; exists b; exact R].
  - rewrite E'. rewrite E in R. cbn in *. rewrite own_app, R, O. reflexivity.
  - rewrite E'. rewrite E in R. cbn in *. rewrite own_app, R, O. reflexivity.
  - rewrite E'. rewrite E in R. unfold next_state in N. destruct x as [[[|c|[v|e|f|]]|]|c k|v b|k| |]; try contradiction; cbn [report_ok] in R.
    + destruct N as [-> ->]. cbn. left. rewrite app_nil_r. exact (own_silent _ _ R).
    + destruct N as [N Nx]. assert (S : silent i (tr ++ t)) by (apply silent_app; [exact (own_silent _ _ R) | exact (no_report_silent _ _ N)]). destruct x'; cbn; auto. elim (Nx a0 eq_refl).
    + destruct N as [N Nx]. assert (S : silent i (tr ++ t)) by (apply silent_app; [exact (own_silent _ _ R) | exact (no_report_silent _ _ N)]). destruct x'; cbn; auto. elim (Nx a0 eq_refl).
    + destruct N as [-> ->]. cbn. right. exists a. rewrite own_app, R. unfold own. cbn. rewrite Nat.eqb_refl. reflexivity.
    + destruct N as [-> ->]. cbn. rewrite app_nil_r. exact R.
    + destruct N as [-> ->]. cbn. rewrite app_nil_r. exact R.
    + destruct N as [-> N]. rewrite app_nil_r. destruct (pending i (s_queue s)); subst x'; cbn; [exact R | left; exact (own_silent _ _ R)].
    + destruct N as [N Nx]. assert (S : silent i (tr ++ t)) by (apply silent_app; [exact R | exact (no_report_silent _ _ N)]). destruct x'; cbn; auto. elim (Nx a0 eq_refl).
  - rewrite E'. cbn. apply silent_app; [|exact (own_silent _ _ O)]. destruct (state_of i s) as [[a|c k|v b|k| |]|]; cbn in *; try contradiction; auto using own_silent.
Qed.
Lemma report_run ls : forall s tr, (forall i, report_ok i (state_of i s) tr) -> let '(s', t) := prun ls s in forall i, report_ok i (state_of i s') (tr ++ t).
Proof.
  induction ls as [|l ls IH]; intros s tr R; cbn [PoolSystem.prun]; [rewrite app_nil_r; exact R|].
  destruct (pstep l s) as [[s1 t]|] eqn:E; [|apply IH, R]. assert (R1 : forall i, report_ok i (state_of i s1) (tr ++ t)) by (intros i; exact (report_move i l s s1 t tr (step_move _ _ _ _ i E) (R i))).
  specialize (IH s1 (tr ++ t) R1). destruct (prun ls s1) as [s2 t2]. rewrite <- app_assoc in IH. exact IH.
Qed.
Lemma new_state size d i : state_of i (psys_new size d) = None.
Proof. unfold state_of. cbn. destruct i; reflexivity. Qed.
Theorem reported_once ls size d s tr i a : prun ls (psys_new size d) = (s, tr) -> In (EBlacklist i a) tr -> own i tr = [EBlacklist i a] /\ exists k, state_of i s = Some (Broken k).
Proof.
  intros E I. pose proof (report_run ls (psys_new size d) [] ltac:(intros j; rewrite new_state; reflexivity)) as R. rewrite E in R. specialize (R i). cbn [app] in R.
  assert (J : In (EBlacklist i a) (own i tr)) by (apply filter_In; split; [exact I | cbn; apply Nat.eqb_refl]). unfold report_ok in R.
  destruct (state_of i s) as [[x|c k|v b|k| |]|]; try (elim (R a I)); try (rewrite R in J; destruct J).
  destruct R as [R|(b & R)]; [elim (R a I)|]. rewrite R in J. destruct J as [[= ->]|[]]. split; [exact R | exists k; reflexivity].
Qed.

(** ** An attempt that fails is reported *)
Theorem failure_reported ls : forall s i a f e, addr_of i s = Some a -> state_of i s = Some (Acquiring (Some (PConnect f))) -> settle f = Breaks e ->
  Forall (undropped i) ls -> (waits f < length (polls i ls))%nat -> let '(s', tr) := prun ls s in In (EBlacklist i a) tr.
Proof.
  induction ls as [|l ls IH]; intros s i a f e Ea Es Sf Fu L; [cbn in L; lia|]. inversion Fu as [|? ? Ul Fu']; subst. cbn [PoolSystem.prun].
  destruct (poll_dec i l) as [(w & ->)|Np].
  - destruct (pstep (LPoll i w) s) as [[s1 t]|] eqn:E.
    + pose proof (step_addr _ _ _ _ _ _ E Ea) as Ea1.
      destruct (step_move _ _ _ _ i E) as [E1 O|E1 _ _ _ _|a0 now f0 E1 _ _ _|w0 a0 x x' _ Ea0 Ex Ex' N|E1 _ _ _]; try congruence.
      * (* a poll changes something *)
        cbn [PoolSystem.pstep] in E. unfold addr_of in Ea. unfold state_of in Es. destruct (nth_error (s_calls s) i) as [pc|] eqn:En; [|discriminate]. cbn [option_map] in *. injection Ea as Ea. injection Es as Es.
        destruct (poll_says _ _ _ _ _ _ E) as (x & op & -> & _ & N). rewrite moved_state, Nat.eqb_refl, En in E1. cbn [option_map] in E1. unfold state_of in E1. rewrite En in E1. cbn [option_map] in E1. injection E1 as E1. rewrite Es in *. subst x.
        destruct f as [v|e0|f|]; cbn [next_state settle] in *; try discriminate.
        -- destruct N as [_ [=]].
        -- exfalso. destruct N as [_ [= N]]. clear - N. assert (Q : forall g : fut unit, waits (Later g) <> waits g) by (cbn; lia). apply (Q f). congruence.
      * rewrite Ea in Ea0. injection Ea0 as <-. rewrite Es in Ex. injection Ex as <-. destruct f as [v|e0|f|]; cbn [next_state settle] in *; try discriminate.
        -- destruct N as [-> _]. destruct (prun ls s1) as [s2 t2]. left. reflexivity.
        -- destruct N as [-> ->]. cbn [polls waits] in L. rewrite Nat.eqb_refl in L. cbn [length] in L.
           specialize (IH s1 i a f e Ea1 Ex' Sf Fu' ltac:(lia)). destruct (prun ls s1) as [s2 t2]. exact IH.
    + exfalso. cbn [PoolSystem.pstep] in E. unfold state_of in Es. destruct (nth_error (s_calls s) i) as [pc|]; [|discriminate]. cbn [option_map] in Es. injection Es as Es. unfold poll_pooled in E. rewrite Es in E. cbn [acquire_poll] in E.
      destruct (fpoll f); try discriminate. destruct (inner_result _ _ _ _ _); discriminate.
  - rewrite (polls_other i l ls Np) in L. destruct (pstep l s) as [[s1 t]|] eqn:E; [|exact (IH s i a f e Ea Es Sf Fu' L)].
    pose proof (step_addr _ _ _ _ _ _ E Ea) as Ea1.
    assert (Es1 : state_of i s1 = Some (Acquiring (Some (PConnect f)))).
    { destruct (step_move _ _ _ _ i E) as [E1 O|E1 _ _ _ _|a0 now f0 E1 E2 _ _|w0 a0 x x' E1 _ _ _ _|E1 _ _ _]; try congruence.
      subst l. elim Ul. reflexivity. }
    specialize (IH s1 i a f e Ea1 Es1 Sf Fu' L). destruct (prun ls s1) as [s2 t2]. apply in_or_app. right. exact IH.
Qed.

(** ** Turned down for good *)
Theorem turned_down_stays ls : forall s i, turned_down (state_of i s) -> let '(s', tr) := prun ls s in turned_down (state_of i s') /\ own i tr = [].
Proof.
  induction ls as [|l ls IH]; intros s i T; cbn [PoolSystem.prun]; [auto|]. destruct (pstep l s) as [[s1 t]|] eqn:E; [|exact (IH s i T)].
  assert (Q : turned_down (state_of i s1) /\ own i t = []).
  { unfold turned_down in *. destruct (step_move _ _ _ _ i E) as [E1 O|E1 _ _ _ _|a0 now f0 E1 E2 _ _|w0 a0 x x' E1 _ Ex Ex' N|E1 _ E2 O].
    - rewrite E1. auto.
    - exfalso. rewrite E1 in T. destruct T as [T|[T|T]]; discriminate.
    - exfalso. rewrite E2 in T. destruct T as [T|[T|T]]; discriminate.
    - rewrite Ex in T. rewrite Ex'. destruct T as [[= ->]|[[= ->]|[= ->]]]; cbn [next_state] in N; try contradiction. destruct N as [-> ->]. auto.
    - rewrite E2. auto. }
  destruct Q as [T1 O]. specialize (IH s1 i T1). destruct (prun ls s1) as [s2 t2]. destruct IH as [T2 O2]. rewrite own_app, O, O2. auto.
Qed.

(** ** First come, first served *)
Definition ncalls (lg : list (plabel * list pevent)) : nat := length (filter (fun x => match fst x with LCall _ _ _ => true | _ => false end) lg).
Definition one_sent (n : nat) (x : plabel * list pevent) : list (command conn) := sent n [x].
Lemma ncalls_snoc lg x : ncalls (lg ++ [x]) = (ncalls lg + ncalls [x])%nat.
Proof. unfold ncalls. rewrite filter_app, app_length. reflexivity. Qed.
Lemma sent_snoc lg x : forall n, sent n (lg ++ [x]) = sent n lg ++ one_sent (n + ncalls lg) x.
Proof.
  induction lg as [|[l t] lg IH]; intros n; cbn [app sent]; [rewrite Nat.add_0_r; reflexivity|].
  destruct l as [a p r|now f| |j w|j]; cbn [app]; rewrite IH, ?app_assoc; try reflexivity. unfold ncalls. cbn. rewrite Nat.add_succ_r. reflexivity.
Qed.
Lemma times_snoc lg x : times (lg ++ [x]) = times lg ++ times [x].
Proof. induction lg as [|[l t] lg IH]; [reflexivity|]. cbn [app times]. destruct l; rewrite IH; reflexivity. Qed.
Lemma combine_left {A B} (l : list A) (k k' : list B) : (length l <= length k)%nat -> combine l (k ++ k') = combine l k.
Proof. revert k. induction l as [|x l IH]; intros [|y k]; cbn; try reflexivity; [lia|]. intros L. f_equal. apply IH. lia. Qed.
Lemma combine_next {A B} (l : list A) x (k : list B) y q : skipn (length l) k = y :: q -> combine (l ++ [x]) k = combine l k ++ [(x, y)].
Proof. revert k. induction l as [|z l IH]; intros [|w k]; cbn; try discriminate. - intros [= -> ->]. reflexivity. - intros E. f_equal. apply IH, E. Qed.
Lemma skipn_next {A} n (k : list A) y q : skipn n k = y :: q -> skipn (S n) k = q /\ (n < length k)%nat.
Proof. revert k. induction n as [|n IH]; intros [|w k]; cbn; try discriminate. - intros [= -> ->]. split; [reflexivity | lia]. - intros E. destruct (IH k E). split; [assumption | lia]. Qed.
Lemma skipn_left {A} n (k k' : list A) : (n <= length k)%nat -> skipn n (k ++ k') = skipn n k ++ k'.
Proof. intros L. rewrite skipn_app. replace (n - length k)%nat with 0%nat by lia. reflexivity. Qed.

Definition asks (c : command conn) : list nat := match c with AcquireConnection _ i => [i] | _ => [] end.
Definition agrees (i : nat) (an : answer conn) (s : psys) (tr : list pevent) : Prop :=
  match an with Suspended _ => turned_down (state_of i s) /\ own i tr = [] | _ => served (state_of i s) end.
Record followed (size : N) (d : Z) (lg : list (plabel * list pevent)) (s : psys) (tr : list pevent) : Prop := {
  fo_calls : length (s_calls s) = ncalls lg;
  fo_pool : forall p, s_pool s = Some p -> exists xs, s_queue s = skipn (length (times lg)) (sent 0 lg) /\ (length (times lg) <= length (sent 0 lg))%nat /\
    run tmax checks (history lg) (pool_new size d) = Ok (xs, p) /\ forall i an, In (i, an) xs -> agrees i an s tr;
  fo_gone : s_pool s = None -> s_queue s = [];
  fo_asks : forall a i, In (AcquireConnection a i) (s_queue s) -> addr_of i s = Some a /\ (state_of i s = Some (Acquiring None) \/ state_of i s = Some Dropped) /\ own i tr = [];
  fo_once : NoDup (flat_map asks (s_queue s));
  fo_new : forall i, state_of i s = None -> own i tr = []
}.
Lemma in_asks a i q : In (AcquireConnection a i) q -> In i (flat_map asks q).
Proof. intros I. apply in_flat_map. exists (AcquireConnection a i). split; [exact I | left; reflexivity]. Qed.
Lemma asks_in i q : In i (flat_map asks q) -> exists a, In (AcquireConnection a i) q.
Proof. intros I. apply in_flat_map in I. destruct I as ([a j|a c|a] & I & J); try destruct J as []; try contradiction. subst j. exists a. exact I. Qed.
Lemma pending_in i a q : In (AcquireConnection a i) q -> pending i q = true.
Proof. intros I. unfold pending. apply existsb_exists. exists (AcquireConnection a i). split; [exact I | apply Nat.eqb_refl]. Qed.
Lemma says_asks t : flat_map asks (flat_map says t) = [].
Proof. induction t as [|[] t IH]; cbn; auto. Qed.

(** What a call was told fits its state after any step but the telling itself. *)
Lemma served_move i l s s' t : move i l s s' t -> served (state_of i s) -> served (state_of i s').
Proof.
  intros M Sv. destruct M as [E O|E E' O _ _|a now f _ E E' O|w a x x' _ Ea E E' N|_ Ow E' O].
  - rewrite E. exact Sv.
  - rewrite E in Sv. destruct Sv.
  - rewrite E in Sv. destruct Sv.
  - rewrite E in Sv. rewrite E'. unfold next_state in N. destruct x as [[[|c|[v|e|f|]]|]|c k|v b|k| |]; cbn in Sv; try contradiction; destruct N as [N1 N2]; subst; try exact I;
      destruct x' as [[[|c'|f']|]| | | | |]; try exact I; elim (N2 _ eq_refl).
  - rewrite E'. exact I.
Qed.
Lemma turned_move i l s s' t : move i l s s' t -> turned_down (state_of i s) -> turned_down (state_of i s') /\ own i t = [].
Proof.
  unfold turned_down. intros M T. destruct M as [E1 O|E1 _ _ _ _|a0 now f0 E1 E2 _ _|w0 a0 x x' E1 _ Ex Ex' N|E1 _ E2 O].
  - rewrite E1. auto.
  - exfalso. rewrite E1 in T. destruct T as [T|[T|T]]; discriminate.
  - exfalso. rewrite E2 in T. destruct T as [T|[T|T]]; discriminate.
  - rewrite Ex in T. rewrite Ex'. destruct T as [[= ->]|[[= ->]|[= ->]]]; cbn [next_state] in N; try contradiction. destruct N as [-> ->]. auto.
  - rewrite E2. auto.
Qed.
Lemma agrees_move i l s s' t tr an : move i l s s' t -> agrees i an s tr -> agrees i an s' (tr ++ t).
Proof.
  intros M. unfold agrees. destruct an; try exact (served_move i l s s' t M). intros [T O]. destruct (turned_move i l s s' t M T) as [T' O']. rewrite own_app, O, O'. auto.
Qed.
(** A call whose command is still queued waits, or was dropped. *)
Lemma waits_move i l s s' t a : move i l s s' t -> (forall now f, l <> LPool now f) -> In (AcquireConnection a i) (s_queue s) ->
  (state_of i s = Some (Acquiring None) \/ state_of i s = Some Dropped) -> (state_of i s' = Some (Acquiring None) \/ state_of i s' = Some Dropped) /\ own i t = [].
Proof.
  intros M Nl Iq W. destruct M as [E O|E E' O _ _|b now f El E E' O|w b x x' _ Ea E E' N|_ Ow E' O].
  - rewrite E. auto.
  - exfalso. rewrite E in W. destruct W; discriminate.
  - elim (Nl now f El).
  - rewrite E in W. rewrite E'. destruct W as [[= ->]|[= ->]]; cbn [next_state] in N; [|contradiction]. rewrite (pending_in i a _ Iq) in N. destruct N as [-> ->]. auto.
  - rewrite E'. auto.
Qed.
Lemma followed_moved size d lg s tr l j x op t : followed size d lg s tr -> (forall i, move i l s (moved j x (flat_map says t) op s) t) ->
  (forall i a, addr_of i s = Some a -> addr_of i (moved j x (flat_map says t) op s) = Some a) ->
  (forall now f, l <> LPool now f) -> (forall a p r, l <> LCall a p r) -> (forall i, state_of i (moved j x (flat_map says t) op s) = None -> own i (tr ++ t) = []) ->
  followed size d (lg ++ [(l, t)]) (moved j x (flat_map says t) op s) (tr ++ t).
Proof.
  intros Fo Mv Ma Np Nc Nw.
  assert (Hl : times [(l, t)] = [] /\ ncalls [(l, t)] = 0%nat /\ forall n, one_sent n (l, t) = flat_map says t).
  { unfold one_sent. destruct l; try (elim (Np now f eq_refl)); try (elim (Nc addr p req eq_refl)); cbn; rewrite ?app_nil_r; auto. }
  destruct Hl as (Ht & Hn & Hs). constructor.
  - unfold moved. cbn [s_calls]. rewrite set_length, ncalls_snoc, Hn, Nat.add_0_r. exact (fo_calls _ _ _ _ _ Fo).
  - intros p Ep. cbn [moved s_pool] in Ep. destruct (fo_pool _ _ _ _ _ Fo p Ep) as (xs & Q1 & Q2 & Q3 & Q4). exists xs. unfold history in *. rewrite times_snoc, sent_snoc, Ht, Hs, app_nil_r.
    rewrite skipn_left by exact Q2. rewrite combine_left by exact Q2. split; [cbn [moved s_queue]; unfold queue_after; rewrite Ep, Q1; reflexivity|].
    split; [rewrite app_length; lia|]. split; [exact Q3|]. intros i an I. exact (agrees_move i _ _ _ _ tr an (Mv i) (Q4 i an I)).
  - cbn [moved s_pool s_queue]. intros Ep. unfold queue_after. rewrite Ep. exact (fo_gone _ _ _ _ _ Fo Ep).
  - intros a i I. assert (I' : In (AcquireConnection a i) (s_queue s)).
    { cbn [moved s_queue] in I. unfold queue_after in I. destruct (s_pool s); [|exact I]. apply in_app_or in I. destruct I as [I|I]; [exact I|].
      apply in_asks in I. rewrite says_asks in I. destruct I. }
    destruct (fo_asks _ _ _ _ _ Fo a i I') as (Q1 & Q2 & Q3). destruct (waits_move i _ _ _ _ a (Mv i) Np I' Q2) as [W O]. split; [exact (Ma i a Q1)|]. split; [exact W|]. rewrite own_app, Q3, O. reflexivity.
  - cbn [moved s_queue]. unfold queue_after. destruct (s_pool s); [rewrite flat_map_app, says_asks, app_nil_r|]; exact (fo_once _ _ _ _ _ Fo).
  - exact Nw.
Qed.
Lemma followed_step size d lg s tr l s' t : followed size d lg s tr -> pstep l s = Some (s', t) -> followed size d (lg ++ [(l, t)]) s' (tr ++ t).
Proof.
  intros Fo E. pose proof (fun i => step_move _ _ _ _ i E) as Mv. pose proof (fun i a => step_addr _ _ _ _ i a E) as Ma.
  destruct l as [addr p req|now f| |j w|j]; cbn [PoolSystem.pstep] in E.
  - injection E as <- <-. rewrite send_eq in *. cbn [s_pool s_queue s_calls s_opened] in *.
    assert (Nw : state_of (length (s_calls s)) s = None).
    { unfold state_of. destruct (nth_error (s_calls s) (length (s_calls s))) eqn:En; [|reflexivity]. assert (L : nth_error (s_calls s) (length (s_calls s)) <> None) by congruence. apply nth_error_Some in L. lia. }
    constructor; cbn [s_pool s_queue s_calls s_opened].
    + rewrite app_length, ncalls_snoc, (fo_calls _ _ _ _ _ Fo). reflexivity.
    + intros p0 Ep. destruct (fo_pool _ _ _ _ _ Fo p0 Ep) as (xs & Q1 & Q2 & Q3 & Q4). exists xs. unfold history in *. rewrite times_snoc, sent_snoc. cbn [times]. rewrite app_nil_r. unfold queue_after. cbn [s_pool]. rewrite Ep.
      rewrite skipn_left by exact Q2. rewrite combine_left by exact Q2. split; [cbn [s_queue]; rewrite <- Q1; unfold one_sent; cbn [sent]; rewrite (fo_calls _ _ _ _ _ Fo); reflexivity|].
      split; [rewrite app_length; lia|]. split; [exact Q3|]. intros i an I. exact (agrees_move i _ _ _ _ tr an (Mv i) (Q4 i an I)).
    + intros Ep. unfold queue_after. cbn [s_pool s_queue]. rewrite Ep. exact (fo_gone _ _ _ _ _ Fo Ep).
    + assert (K : forall a i, In (AcquireConnection a i) (s_queue s) -> let s1 := mkPsys (s_pool s) (queue_after s [AcquireConnection addr (length (s_calls s))]) (s_calls s ++ [mkPcall addr p req (Acquiring None)]) (s_opened s) in
         addr_of i s1 = Some a /\ (state_of i s1 = Some (Acquiring None) \/ state_of i s1 = Some Dropped) /\ own i (tr ++ []) = []).
      { intros a i I. destruct (fo_asks _ _ _ _ _ Fo a i I) as (Q1 & Q2 & Q3). destruct (waits_move i _ _ _ _ a (Mv i) ltac:(discriminate) I Q2) as [W _]. split; [exact (Ma i a Q1)|]. split; [exact W|]. rewrite app_nil_r. exact Q3. }
      intros a i I. unfold queue_after in I. cbn [s_pool s_queue] in I. destruct (s_pool s) eqn:Ep.
      * apply in_app_or in I. destruct I as [I|[[= <- <-]|[]]]; [exact (K a i I)|]. rewrite addr_snoc, state_snoc, Nat.eqb_refl. cbn [c_addr c_state]. split; [reflexivity|]. split; [left; reflexivity|].
        rewrite app_nil_r. exact (fo_new _ _ _ _ _ Fo _ Nw).
      * rewrite (fo_gone _ _ _ _ _ Fo Ep) in I. destruct I.
    + unfold queue_after. cbn [s_pool s_queue]. destruct (s_pool s) eqn:Ep; [|exact (fo_once _ _ _ _ _ Fo)]. rewrite flat_map_app. cbn [flat_map asks app].
      apply (Permutation.Permutation_NoDup (l := length (s_calls s) :: flat_map asks (s_queue s))); [apply Permutation.Permutation_cons_append|]. constructor; [|exact (fo_once _ _ _ _ _ Fo)].
      intros I. apply asks_in in I. destruct I as (a & I). destruct (fo_asks _ _ _ _ _ Fo a _ I) as (Q1 & [Q2|Q2] & _); congruence.
    + intros i Ei. rewrite app_nil_r. apply (fo_new _ _ _ _ _ Fo i). destruct (Mv i) as [E1 _|_ E1 _ _ _|a0 now f0 E0 _ _ _|w0 a0 x x' E0 _ _ _ _|E0 _ _ _]; congruence.
  - destruct (s_pool s) as [p|] eqn:Ep; [|discriminate]. destruct (s_queue s) as [|c q] eqn:Eq; [discriminate|].
    destruct (fo_pool _ _ _ _ _ Fo p Ep) as (xs & Q1 & Q2 & Q3 & Q4). rewrite Eq in Q1. symmetry in Q1. destruct (skipn_next _ _ _ _ Q1) as [Q5 Q6].
    assert (Ht : length (times (lg ++ [(LPool now f, t)])) = S (length (times lg))) by (rewrite times_snoc, app_length; cbn; lia).
    assert (Hs : t = [] -> sent 0 (lg ++ [(LPool now f, t)]) = sent 0 lg) by (intros ->; rewrite sent_snoc; apply app_nil_r).
    assert (Hn : ncalls (lg ++ [(LPool now f, t)]) = ncalls lg) by (rewrite ncalls_snoc; apply Nat.add_0_r).
    destruct (handle_command tmax checks now c p) as [[o p']|e| |] eqn:Eh.
    + assert (Es : after_command s p' q o f = s' /\ t = []) by (injection E as <- <-; auto). destruct Es as [<- ->]. clear E. specialize (Hs eq_refl).
      destruct (PoolSystemInv.after_command_queue s p' q o f) as [Aq Ap].
      assert (Same : forall i, addr_of i (after_command s p' q o f) = addr_of i s) by (intros i; apply after_command_addr).
      assert (Hr := handle_reply tmax checks now c p o p' Eh).
      constructor.
      * rewrite Hn, <- (fo_calls _ _ _ _ _ Fo). unfold after_command. destruct o as [[i a]|]; [|reflexivity].
        destruct (reply_cases i (to_pooled a f) (mkPsys (Some p') q (s_calls s) (s_opened s))) as [->|[_ ->]]; [reflexivity|]. unfold put_state. cbn [s_calls]. apply set_length.
      * intros p0 Ep0. rewrite Ap in Ep0. injection Ep0 as <-. exists (xs ++ match o with Some x => [x] | None => [] end). rewrite Ht, Hs, Aq. split; [symmetry; exact Q5|]. split; [lia|].
        split.
        -- unfold history. rewrite Hs, times_snoc. cbn [times]. rewrite (combine_next _ now _ _ _ Q1), run_app. fold (history lg). rewrite Q3. cbn [bind run]. rewrite Eh. cbn [bind]. destruct o; reflexivity.
        -- intros i an I. apply in_app_or in I. destruct I as [I|I]; [exact (agrees_move i _ _ _ _ tr an (Mv i) (Q4 i an I))|]. destruct o as [[i0 a]|]; [|destruct I]. destruct I as [[= -> ->]|[]].
           destruct c as [b j|b c|b]; try discriminate. destruct Hr as (a' & [= <- <-]). destruct (fo_asks _ _ _ _ _ Fo b i ltac:(rewrite Eq; left; reflexivity)) as (A1 & A2 & A3).
           assert (Ne : nth_error (s_calls s) i <> None) by (unfold state_of in A2; destruct (nth_error (s_calls s) i); [discriminate | destruct A2; discriminate]).
           assert (St : state_of i (after_command s p' q (Some (i, an)) f) = Some (Acquiring (Some (to_pooled an f))) \/ state_of i (after_command s p' q (Some (i, an)) f) = Some Dropped).
           { unfold after_command, reply. cbn [s_calls]. unfold state_of in A2. destruct (nth_error (s_calls s) i) as [pc|] eqn:En; [|congruence]. cbn [option_map] in A2.
             destruct A2 as [[= A2]|[= A2]]; rewrite A2.
             - left. rewrite put_moved, moved_state, Nat.eqb_refl. cbn [s_calls]. rewrite En. reflexivity.
             - right. unfold state_of. cbn [s_calls]. rewrite En. cbn [option_map]. congruence. }
           unfold agrees. rewrite app_nil_r. destruct an as [t|c|]; destruct St as [St|St]; rewrite St; cbn [to_pooled]; try exact I; (split; [unfold turned_down; auto | exact A3]).
      * congruence.
      * rewrite Aq. intros a i I. destruct (fo_asks _ _ _ _ _ Fo a i ltac:(rewrite Eq; right; exact I)) as (A1 & A2 & A3). rewrite Same, app_nil_r. split; [exact A1|]. split; [|exact A3].
        destruct (after_command_state s p' q o f i) as [->|(_ & b & Eo & _)]; [exact A2|]. exfalso. pose proof (fo_once _ _ _ _ _ Fo) as Nd. rewrite Eq in Nd. subst o. destruct c as [b0 j|b0 c|b0]; try discriminate.
        destruct Hr as (a' & [= <- <-]). cbn [flat_map asks app] in Nd. inversion Nd as [|? ? N1 N2]; subst. exact (N1 (in_asks _ _ _ I)).
      * rewrite Aq. pose proof (fo_once _ _ _ _ _ Fo) as Nd. rewrite Eq in Nd. cbn [flat_map] in Nd. destruct c; cbn [asks app] in Nd; [inversion Nd; assumption | exact Nd | exact Nd].
      * intros i Ei. rewrite app_nil_r. apply (fo_new _ _ _ _ _ Fo i). destruct (Mv i) as [E1 _|_ E1 _ _ _|a0 now0 f0 E0 _ E1 _|w0 a0 x x' E0 _ _ _ _|E0 _ _ _]; congruence.
    + assert (Es : s' = pool_gone s /\ t = []) by (injection E as <- <-; auto). destruct Es as [-> ->]. constructor; cbn [pool_gone s_calls s_pool s_queue]; try discriminate; try (intros; contradiction); try reflexivity.
      * rewrite Hn. exact (fo_calls _ _ _ _ _ Fo).
      * constructor.
      * intros i Ei. rewrite app_nil_r. exact (fo_new _ _ _ _ _ Fo i Ei).
    + assert (Es : s' = pool_gone s /\ t = []) by (injection E as <- <-; auto). destruct Es as [-> ->]. constructor; cbn [pool_gone s_calls s_pool s_queue]; try discriminate; try (intros; contradiction); try reflexivity.
      * rewrite Hn. exact (fo_calls _ _ _ _ _ Fo).
      * constructor.
      * intros i Ei. rewrite app_nil_r. exact (fo_new _ _ _ _ _ Fo i Ei).
    + assert (Es : s' = pool_gone s /\ t = []) by (injection E as <- <-; auto). destruct Es as [-> ->]. constructor; cbn [pool_gone s_calls s_pool s_queue]; try discriminate; try (intros; contradiction); try reflexivity.
      * rewrite Hn. exact (fo_calls _ _ _ _ _ Fo).
      * constructor.
      * intros i Ei. rewrite app_nil_r. exact (fo_new _ _ _ _ _ Fo i Ei).
  - destruct (s_pool s); [|discriminate]. injection E as <- <-. constructor; cbn [pool_gone s_calls s_pool s_queue]; try discriminate; try (intros; contradiction); try reflexivity.
    + rewrite ncalls_snoc, (fo_calls _ _ _ _ _ Fo). cbn. lia.
    + constructor.
    + intros i Ei. rewrite app_nil_r. exact (fo_new _ _ _ _ _ Fo i Ei).
  - destruct (nth_error (s_calls s) j) as [pc|] eqn:En; [|discriminate]. destruct (poll_says _ _ _ _ _ _ E) as (x & op & -> & B & N). clear E.
    apply (followed_moved size d lg s tr (LPoll j w) j x op t Fo Mv Ma); try discriminate; try reflexivity.
    intros i Ei. rewrite own_app, (fo_new _ _ _ _ _ Fo i); [|rewrite moved_state in Ei; destruct (Nat.eqb_spec j i) as [->|Nj]; [rewrite En in Ei; discriminate | exact Ei]].
    apply B. intros ->. rewrite moved_state, Nat.eqb_refl, En in Ei. discriminate.
  - destruct (nth_error (s_calls s) j) as [pc|] eqn:En; [|discriminate]. assert (Es : s' = moved j Dropped (flat_map says t) [] s /\ t = []) by (destruct (c_state pc); try discriminate; injection E as <- <-; rewrite put_moved; auto).
    destruct Es as [-> ->]. clear E. apply (followed_moved size d lg s tr (LDrop j) j Dropped [] [] Fo Mv Ma); try discriminate; try reflexivity.
    intros i Ei. rewrite app_nil_r. apply (fo_new _ _ _ _ _ Fo i). rewrite moved_state in Ei. destruct (Nat.eqb_spec j i) as [->|Nj]; [rewrite En in Ei; discriminate | exact Ei].
Qed.
Lemma followed_new size d : followed size d [] (psys_new size d) [].
Proof.
  constructor; try reflexivity; try (cbn; intros; contradiction); try (constructor; fail).
  intros p [= <-]. exists []. repeat split; auto. intros i an [].
Qed.
Lemma followed_run size d ls : forall lg s tr, followed size d lg s tr -> let '(s', t) := prun ls s in followed size d (lg ++ plog ls s) s' (tr ++ t).
Proof.
  induction ls as [|l ls IH]; intros lg s tr Fo; cbn [PoolSystem.prun PoolSystemSpec.plog]; [rewrite !app_nil_r; exact Fo|].
  destruct (pstep l s) as [[s1 t]|] eqn:E; [|exact (IH lg s tr Fo)]. specialize (IH _ _ _ (followed_step size d lg s tr l s1 t Fo E)).
  destruct (prun ls s1) as [s2 t2]. rewrite <- !app_assoc in IH. exact IH.
Qed.
Theorem follows size d ls s tr : prun ls (psys_new size d) = (s, tr) -> followed size d (plog ls (psys_new size d)) s tr.
Proof. intros E. pose proof (followed_run size d ls [] _ _ (followed_new size d)) as Q. rewrite E in Q. exact Q. Qed.

(** ** The theorems *)
Theorem in_order size d ls s tr p : prun ls (psys_new size d) = (s, tr) -> s_pool s = Some p -> let lg := plog ls (psys_new size d) in
  s_queue s = skipn (length (times lg)) (sent 0 lg) /\ (length (times lg) <= length (sent 0 lg))%nat /\ exists xs, run tmax checks (history lg) (pool_new size d) = Ok (xs, p).
Proof. intros E Ep. destruct (fo_pool _ _ _ _ _ (follows size d ls s tr E) p Ep) as (xs & Q1 & Q2 & Q3 & _). split; [exact Q1|]. split; [exact Q2|]. exists xs. exact Q3. Qed.

Theorem suspended_turned_down size d ls s tr p h1 t a mid now i h2 : prun ls (psys_new size d) = (s, tr) -> s_pool s = Some p ->
  history (plog ls (psys_new size d)) = h1 ++ (t, AddToBlacklist a) :: mid ++ (now, AcquireConnection a i) :: h2 ->
  Forall (quiet a (t + d)) mid -> (now < t + d)%Z -> turned_down (state_of i s) /\ own i tr = [].
Proof.
  intros E Ep Eh Fq L. destruct (fo_pool _ _ _ _ _ (follows size d ls s tr E) p Ep) as (xs & _ & _ & Er & Ag). rewrite Eh in Er.
  change (h1 ++ (t, AddToBlacklist a) :: mid ++ (now, AcquireConnection a i) :: h2) with (h1 ++ ((t, AddToBlacklist a) :: mid) ++ (now, AcquireConnection a i) :: h2) in Er. rewrite app_assoc in Er.
  destruct (answer_at tmax checks size d _ now a i h2 xs p Er) as (x & I & Q). rewrite (failed_deadline d a t h1 mid Fq) in Q. apply Z.ltb_lt in L. rewrite L in Q. subst x. exact (Ag i _ I).
Qed.
Theorem otherwise_served size d ls s tr p h1 a now i h2 : prun ls (psys_new size d) = (s, tr) -> s_pool s = Some p ->
  history (plog ls (psys_new size d)) = h1 ++ (now, AcquireConnection a i) :: h2 ->
  (forall t, deadline d a h1 = Some t -> (t <= now)%Z) -> served (state_of i s).
Proof.
  intros E Ep Eh L. destruct (fo_pool _ _ _ _ _ (follows size d ls s tr E) p Ep) as (xs & _ & _ & Er & Ag). rewrite Eh in Er.
  destruct (answer_at tmax checks size d _ now a i h2 xs p Er) as (x & I & Q). specialize (Ag i x I). destruct (deadline d a h1) as [t|].
  - specialize (L t eq_refl). destruct (Z.ltb_spec now t); [lia|]. destruct x; [elim (Q until eq_refl)| |]; exact Ag.
  - destruct x; [elim (Q until eq_refl)| |]; exact Ag.
Qed.
End Report.
