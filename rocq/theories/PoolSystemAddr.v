(** * A call only uses connections opened to its address. *)
From Coq Require Import Sorting.Permutation.
From Verif Require PoolWrapSpec PoolWrap.
From Verif Require Import Base Serde Procedure Router SerRequest DeHeader DeResponse DepUrl Error Client ClientSpec ClientProofs Pool PoolSpec PoolProofs PoolSystem PoolSystemSpec PoolSystemProofs PoolSystemInv.
Open Scope N_scope.

Section Addr.
Context {F : floatlib} {U : urlenv}.
Variables (tmax : Z) (checks : bool).
(** Either the counter of the pool never wraps round, or no two addresses connected to that are alike to the pool look different. *)
Variables (wraps : bool) (X : Type) (view : saddr -> X).
Notation coarse := (coarse tmax checks).

Definition is_fin (pc : pcall) : bool := match c_state pc with Finished _ _ => true | _ => false end.
Definition fins (l : list pcall) : nat := length (filter is_fin l).
Definition rel_cmd (c : command conn) : bool := match c with ReleaseConnection _ _ => true | _ => false end.
Definition rels (q : list (command conn)) : nat := length (filter rel_cmd q).
Lemma fins_le l : (fins l <= length l)%nat.
Proof. unfold fins. induction l as [|x l IH]; cbn; [lia|]. destruct (is_fin x); cbn; lia. Qed.
Lemma fins_set j x l pc : nth_error l j = Some pc -> is_fin pc = false ->
  fins (set_state j x l) = (fins l + match x with Finished _ _ => 1 | _ => 0 end)%nat.
Proof.
  unfold fins. revert j. induction l as [|y l IH]; intros [|j]; cbn [nth_error set_state filter]; try discriminate.
  - intros [= ->] E. rewrite E. unfold is_fin at 1. cbn [c_state]. destruct x; cbn [length]; lia.
  - intros E N. specialize (IH j E N). destruct (is_fin y); cbn [length]; rewrite IH; lia.
Qed.
Lemma rels_app q1 q2 : rels (q1 ++ q2) = (rels q1 + rels q2)%nat.
Proof. unfold rels. rewrite filter_app, app_length. reflexivity. Qed.

Definition opened_to (l : list saddr) (c : conn) (a : saddr) : Prop := exists b, nth_error l c = Some b /\ view b = view a.
Lemma opened_grows l op c a : opened_to l c a -> opened_to (l ++ op) c a.
Proof. intros (b & E & V). exists b. split; [|exact V]. rewrite nth_error_app1; [exact E|]. apply nth_error_Some. congruence. Qed.

Definition pool_ok (op : list saddr) (r f : nat) (p : pool conn) : Prop :=
  if wraps then PoolWrap.invW p /\ p_seq p < 2 ^ 64 /\ forall id c, In (id, c) (p_conns p) -> opened_to op c (id_addr id)
  else exists es, inv p es /\ Forall (fun x => opened_to op (snd (snd x)) (fst (snd x))) es /\ p_seq p + N.of_nat r <= N.of_nat f.
Lemma pool_ok_grows op x r f r' f' p : pool_ok op r f p -> (r' + f <= r + f')%nat -> pool_ok (op ++ x) r' f' p.
Proof.
  unfold pool_ok. destruct wraps.
  - intros (I1 & I2 & I3) _. split; [exact I1|]. split; [exact I2|]. intros id c I. apply opened_grows. eauto.
  - intros (es & I1 & I2 & I3) L. exists es. split; [exact I1|]. split; [eapply Forall_impl; [|exact I2]; intros y; apply opened_grows|]. lia.
Qed.

Record invB (s : psys) (tr : list pevent) : Prop := {
  b_open : forall c a, In (EOpen c a) tr <-> nth_error (s_opened s) c = Some a;
  b_calls : forall i a c, addr_of i s = Some a -> In c (held_at i s) -> opened_to (s_opened s) c a;
  b_queue : forall a c, In (ReleaseConnection a c) (s_queue s) -> opened_to (s_opened s) c a;
  b_acq : forall a i, In (AcquireConnection a i) (s_queue s) -> addr_of i s = Some a;
  b_pool : forall p, s_pool s = Some p -> pool_ok (s_opened s) (rels (s_queue s)) (fins (s_calls s)) p;
  b_acts : forall t1 i a t2, tr = t1 ++ EAct i a :: t2 -> exists addr b, addr_of i s = Some addr /\ In (EOpen (act_conn a) b) t1 /\ view b = view addr;
  b_rels : forall t1 i a c t2, tr = t1 ++ ERelease i a c :: t2 -> addr_of i s = Some a /\ exists b, In (EOpen c b) t1 /\ view b = view a;
  b_once : map fst (opens tr) = seq 0 (length (s_opened s))
}.

(** ** Handling a command *)
Lemma take_in a (l : list (saddr * conn)) c : fst (take a l) = Some c -> In (a, c) l.
Proof.
  induction l as [|[b d] l IH]; cbn [take]; [discriminate|]. destruct (same_endpoint b a).
  - destruct (saddr_eqb_spec b a) as [->|N]; [|discriminate]. intros [= ->]. left. reflexivity.
  - destruct (take a l) as [o r]. cbn [fst] in *. intros E. right. auto.
Qed.
Lemma good_incl (P : saddr * conn -> Prop) (es es' : list (N * (saddr * conn))) :
  Forall (fun x => P (snd x)) es -> incl (map snd es') (map snd es) -> Forall (fun x => P (snd x)) es'.
Proof.
  intros Fa In'. apply Forall_forall. intros x Ix. assert (I : In (snd x) (map snd es)) by (apply In', in_map, Ix).
  apply in_map_iff in I. destruct I as (y & <- & Iy). rewrite Forall_forall in Fa. auto.
Qed.
Lemma handle_addr now c p o p' es (P : saddr * conn -> Prop) : handle_command (C := conn) tmax checks now c p = Ok (o, p') -> inv p es ->
  Forall (fun x => P (snd x)) es -> (forall a d, c = ReleaseConnection a d -> P (a, d)) -> (rel_cmd c = true -> checks = true \/ p_seq p < u64_max) ->
  exists es', inv p' es' /\ Forall (fun x => P (snd x)) es' /\ p_seq p' = p_seq p + (if rel_cmd c then 1 else 0) /\
    (forall i d, o = Some (i, Idle d) -> exists a, c = AcquireConnection a i /\ P (a, d)).
Proof.
  intros E Iv Fa Pc Sq. destruct c as [a i|a x|a]; cbn [handle_command rel_cmd] in *.
  - assert (Ac : forall q x q', inv q es -> p_seq q = p_seq p -> acquire_connection a q = Ok (x, q') -> exists es', inv q' es' /\ Forall (fun x => P (snd x)) es' /\ p_seq q' = p_seq p + 0 /\
       (forall j d, Some (i, x) = Some (j, Idle d) -> exists b, AcquireConnection (C := conn) a i = AcquireConnection b j /\ P (b, d))).
    { intros q x q' Ivq Sq' Eq. destruct (acquire_refines a q es Ivq) as (q2 & es' & E2 & Iv' & Es & _ & _ & _ & S2). rewrite E2 in Eq. injection Eq as <- <-.
      exists es'. split; [exact Iv'|]. split; [eapply good_incl; [exact Fa | rewrite Es; apply take_incl]|]. split; [rewrite S2, Sq'; lia|].
      intros j d [= <- Ed]. exists a. split; [reflexivity|]. destruct (fst (take a (map snd es))) as [d'|] eqn:Et; [|discriminate]. injection Ed as ->.
      apply take_in in Et. apply in_map_iff in Et. destruct Et as (y & Ey & Iy). rewrite Forall_forall in Fa. specialize (Fa y Iy). cbv beta in Fa. rewrite Ey in Fa. exact Fa. }
    destruct (hm_remove a (p_black p)) as [[t|] black].
    + destruct (now <? t)%Z.
      * injection E as <- <-. exists es. split; [exact (inv_black p es _ Iv)|]. split; [exact Fa|]. split; [cbn; lia|]. intros j d [=].
      * destruct (acquire_connection a _) as [[x q]| | |] eqn:Ea; cbn [bind] in E; try discriminate. injection E as <- <-. eapply Ac; [|  |exact Ea]; [exact (inv_black p es _ Iv) | reflexivity].
    + destruct (acquire_connection a _) as [[x q]| | |] eqn:Ea; cbn [bind] in E; try discriminate. injection E as <- <-. eapply Ac; [|  |exact Ea]; [exact (inv_black p es _ Iv) | reflexivity].
  - destruct (N.ltb_spec (p_seq p) u64_max) as [L|L].
    + destruct (release_refines checks a x p es Iv L) as (q & es' & Eq & Iv' & Es & _ & _ & _ & S2). rewrite Eq in E. cbn [bind] in E. injection E as <- <-.
      exists es'. split; [exact Iv'|]. split; [|split; [exact S2 | discriminate]].
      apply Forall_forall. intros y Iy. assert (I : In (snd y) (map snd es')) by (apply in_map, Iy). rewrite Es in I. apply put_incl in I. destruct I as [<-|I]; [apply Pc; reflexivity|].
      apply in_map_iff in I. destruct I as (z & <- & Iz). rewrite Forall_forall in Fa. auto.
    + exfalso. destruct (Sq eq_refl) as [Ck|L']; [|lia]. revert E. unfold release_connection, next_seq. apply N.ltb_ge in L. rewrite L, Ck. discriminate.
  - destruct (now + p_susp p <=? tmax)%Z; [|discriminate]. injection E as <- <-. exists es. split; [exact (inv_black p es _ Iv)|]. split; [exact Fa|]. split; [cbn; lia | discriminate].
Qed.

(** The same whatever the counter is, if no two of the addresses opened are alike to the pool. *)
Definition among (l : list saddr) (a : saddr) : Prop := exists b, In b l /\ view b = view a.
Definition distinct (l : list saddr) : Prop := forall a b, among l a -> among l b -> same_endpoint a b = true -> view a = view b.
Lemma opened_in l c a : opened_to l c a -> among l a.
Proof. intros (b & E & V). exists b. split; [exact (nth_error_In _ _ E) | exact V]. Qed.
Lemma handle_wraps now c p o p' op : handle_command (C := conn) tmax checks now c p = Ok (o, p') -> distinct op ->
  PoolWrap.invW p -> p_seq p < 2 ^ 64 -> (forall id d, In (id, d) (p_conns p) -> opened_to op d (id_addr id)) ->
  (forall a d, c = ReleaseConnection a d -> opened_to op d a) ->
  PoolWrap.invW p' /\ p_seq p' < 2 ^ 64 /\ (forall id d, In (id, d) (p_conns p') -> opened_to op d (id_addr id)) /\
  (forall i d, o = Some (i, Idle d) -> exists a, c = AcquireConnection a i /\ opened_to op d a).
Proof.
  intros E Di Iw Sq Op Rl.
  destruct (PoolWrap.handle_any tmax checks (among op) X view Di now c p Iw (fun id d I => opened_in _ _ _ (Op id d I)) (fun a d Ec => opened_in _ _ _ (Rl a d Ec)) Sq) as (_ & _ & _ & H).
  destruct (H o p' E) as (I1 & _ & _ & _ & I2 & lost & P & Le).
  assert (All : forall y, In y (PoolWrap.seen X view (p_conns p) ++ map (PoolWrap.see X view) (PoolWrapSpec.given [(now, c)])) -> exists b, nth_error op (snd y) = Some b /\ view b = fst y).
  { intros y I. apply in_app_or in I. destruct I as [I|I]; apply in_map_iff in I; destruct I as (z & <- & Iz); cbn [PoolWrap.see fst snd].
    - destruct z as [id d]. exact (Op id d Iz).
    - destruct z as [a d]. apply Rl. unfold PoolWrapSpec.given in Iz. cbn [flat_map snd] in Iz. destruct c; cbn [app] in Iz; try (destruct Iz; fail). destruct Iz as [[= -> ->]|[]]. reflexivity. }
  split; [exact I1|]. split; [rewrite I2; apply N.mod_lt; discriminate|]. split.
  - intros id d I. apply (All (view (id_addr id), d)). apply (Permutation_in _ (Permutation_sym P)). apply in_or_app. right. apply in_or_app. left. apply in_map_iff. exists (id, d). auto.
  - intros i d ->. cbn [length] in Le. destruct c as [a i'|a x|a]; cbn in Le; try discriminate. exists a. split.
    + f_equal. revert E. cbn [handle_command]. destruct (hm_remove a (p_black p)) as [[t|] black]; [destruct (now <? t)%Z; [discriminate|]|]; (destruct (acquire_connection a _) as [[y q]| | |]; cbn [bind]; try discriminate; intros [= ? _ _]; assumption).
    + apply (All (view a, d)). apply (Permutation_in _ (Permutation_sym P)). apply in_or_app. left. left. reflexivity.
Qed.

(** ** Steps *)
Definition small (s : psys) : Prop := if wraps then distinct (s_opened s) else checks = true \/ N.of_nat (length (s_calls s)) <= u64_max.
Lemma handle_ok now c p o p' op q f s : handle_command (C := conn) tmax checks now c p = Ok (o, p') -> small s -> op = s_opened s -> f = fins (s_calls s) ->
  pool_ok op (rels (c :: q)) f p -> (forall a d, c = ReleaseConnection a d -> opened_to op d a) ->
  pool_ok op (rels q) f p' /\ (forall i d, o = Some (i, Idle d) -> exists a, c = AcquireConnection a i /\ opened_to op d a).
Proof.
  unfold small, pool_ok. destruct wraps.
  - intros E Di -> -> (I1 & I2 & I3) Rl. destruct (handle_wraps _ _ _ _ _ _ E Di I1 I2 I3 Rl) as (J1 & J2 & J3 & J4). auto.
  - intros E Sm -> -> (es & I1 & I2 & I3) Rl.
    destruct (handle_addr now c p o p' es (fun y => opened_to (s_opened s) (snd y) (fst y)) E I1 I2) as (es' & J1 & J2 & J3 & J4).
    { exact Rl. }
    { intros R. destruct Sm as [Ck|L]; [auto|]. right. pose proof (fins_le (s_calls s)). unfold rels in I3. cbn [filter] in I3. rewrite R in I3. cbn [length] in I3. lia. }
    split; [|exact J4]. exists es'. split; [exact J1|]. split; [exact J2|]. rewrite J3. unfold rels in *. cbn [filter] in I3. destruct (rel_cmd c); cbn [length] in I3; lia.
Qed.

Lemma coarse_addr s s' t i a : coarse s s' t -> addr_of i s = Some a -> addr_of i s' = Some a.
Proof.
  intros Q E. destruct Q as [addr p req|now f p cm q o p' Ep Eq Eh| |j pc x' cs t En Hx Hc Ht D|j pc c0 x' cs op pre ts rs t En Fa Pe D A].
  - unfold addr_of in *. cbn [s_calls]. rewrite nth_snoc. destruct (Nat.eqb_spec i (length (s_calls s))) as [->|N]; [|exact E].
    replace (nth_error (s_calls s) (length (s_calls s))) with (@None pcall) in E by (symmetry; apply nth_error_None; lia). discriminate.
  - rewrite after_command_addr. exact E.
  - exact E.
  - rewrite moved_addr. exact E.
  - rewrite moved_addr. exact E.
Qed.
Lemma in_queue_after s cs c : In c (queue_after s cs) -> In c (s_queue s) \/ In c cs.
Proof. unfold queue_after. destruct (s_pool s); [apply in_app_or | auto]. Qed.
Lemma rels_after s cs : (rels (queue_after s cs) <= rels (s_queue s) + rels cs)%nat.
Proof. unfold queue_after. destruct (s_pool s); [rewrite rels_app|]; lia. Qed.
Lemma opens_app t1 t2 : opens (t1 ++ t2) = opens t1 ++ opens t2.
Proof. induction t1 as [|[] t1 IH]; cbn [app opens]; congruence. Qed.
Lemma opens_acts i ts : opens (map (EAct i) ts) = [].
Proof. induction ts as [|a ts IH]; cbn; auto. Qed.
Lemma opens_in tr c a : In (c, a) (opens tr) <-> In (EOpen c a) tr.
Proof.
  induction tr as [|e tr IH]; [split; intros []|]. cbn [In]. rewrite <- IH. destruct e; cbn [opens In]; try (split; [auto | intros [E|I]; [discriminate | exact I]]).
  split; (intros [E|I]; [left; congruence | auto]).
Qed.
Lemma held_at_call s q i addr p req : forall c, In c (held_at i (mkPsys (s_pool s) q (s_calls s ++ [mkPcall addr p req (Acquiring None)]) (s_opened s))) -> In c (held_at i s).
Proof.
  intros c. unfold held_at. cbn [s_calls]. rewrite nth_snoc. destruct (Nat.eqb i (length (s_calls s))); [intros [] | auto].
Qed.
Lemma fins_snoc l pc : is_fin pc = false -> fins (l ++ [pc]) = fins l.
Proof. intros E. unfold fins. rewrite filter_app. cbn [filter]. rewrite E, app_nil_r. reflexivity. Qed.
Lemma after_command_fins s p' q o f : fins (s_calls (after_command s p' q o f)) = fins (s_calls s).
Proof.
  unfold after_command. destruct o as [[i a]|]; [|reflexivity]. destruct (reply_cases i (to_pooled a f) (mkPsys (Some p') q (s_calls s) (s_opened s))) as [->|[Es ->]]; [reflexivity|].
  unfold put_state. cbn [s_calls] in *. unfold state_of in Es. cbn [s_calls] in Es. destruct (nth_error (s_calls s) i) as [pc|] eqn:En; [|discriminate]. cbn [option_map] in Es. injection Es as Es.
  rewrite (fins_set i _ _ pc En); [lia|]. unfold is_fin. rewrite Es. reflexivity.
Qed.
Lemma after_command_opened s p' q o f : s_opened (after_command s p' q o f) = s_opened s.
Proof.
  unfold after_command. destruct o as [[i a]|]; [|reflexivity]. destruct (reply_cases i (to_pooled a f) (mkPsys (Some p') q (s_calls s) (s_opened s))) as [->|[Es ->]]; reflexivity.
Qed.

(** Steps that leave the trace without connections. *)
Lemma silent_trace s s' tr t : coarse s s' t -> (t = [] \/ exists j a, t = [EBlacklist j a]) -> s_opened s' = s_opened s -> invB s tr ->
  (forall c a, In (EOpen c a) (tr ++ t) <-> nth_error (s_opened s') c = Some a) /\
  (forall t1 i a t2, tr ++ t = t1 ++ EAct i a :: t2 -> exists addr b, addr_of i s' = Some addr /\ In (EOpen (act_conn a) b) t1 /\ view b = view addr) /\
  (forall t1 i a c t2, tr ++ t = t1 ++ ERelease i a c :: t2 -> addr_of i s' = Some a /\ exists b, In (EOpen c b) t1 /\ view b = view a) /\
  map fst (opens (tr ++ t)) = seq 0 (length (s_opened s')).
Proof.
  intros Q Ht Eo B. rewrite Eo. split; [|split; [|split]].
  - intros c a. rewrite <- (b_open _ _ B), in_app_iff. split; [|auto]. intros [I|I]; [exact I|]. destruct Ht as [-> |(j & b & ->)]; [destruct I | destruct I as [E|[]]; discriminate].
  - intros t1 i a t2 E. apply split_app in E. destruct E as [(m & E & _)|(m & _ & E)].
    + destruct (b_acts _ _ B _ _ _ _ E) as (addr & b & A1 & A2). exists addr, b. split; [exact (coarse_addr _ _ _ _ _ Q A1) | exact A2].
    + exfalso. assert (I : In (EAct i a) t) by (rewrite E; apply in_or_app; right; left; reflexivity). destruct Ht as [-> |(j & b & ->)]; [destruct I | destruct I as [E'|[]]; discriminate].
  - intros t1 i a c t2 E. apply split_app in E. destruct E as [(m & E & _)|(m & _ & E)].
    + destruct (b_rels _ _ B _ _ _ _ _ E) as (A1 & A2). split; [exact (coarse_addr _ _ _ _ _ Q A1) | exact A2].
    + exfalso. assert (I : In (ERelease i a c) t) by (rewrite E; apply in_or_app; right; left; reflexivity). destruct Ht as [-> |(j & b & ->)]; [destruct I | destruct I as [E'|[]]; discriminate].
  - rewrite opens_app. replace (opens t) with (@nil (conn * saddr)) by (destruct Ht as [-> |(j & b & ->)]; reflexivity). rewrite app_nil_r. apply (b_once _ _ B).
Qed.

Theorem invB_step s s' t tr : invB s tr -> coarse s s' t -> small s -> invB s' (tr ++ t).
Proof.
  intros B Q Sm. pose proof Q as Q0. destruct Q as [addr p req|now f p cm q o p' Ep Eq Eh| |j pc x' cs t En Hx Hc Ht D|j pc c0 x' cs op pre ts rs t En Fa Pe D A].
  - destruct (silent_trace _ _ tr [] Q0 ltac:(auto) eq_refl B) as (T1 & T2 & T3 & T4). constructor; try assumption.
    + intros i a c E I. apply held_at_call in I. apply (b_calls _ _ B i a c); [|exact I]. unfold addr_of in *. cbn [s_calls] in E. rewrite nth_snoc in E. unfold held_at in I.
      destruct (Nat.eqb_spec i (length (s_calls s))) as [->|N]; [|exact E]. exfalso. replace (nth_error (s_calls s) (length (s_calls s))) with (@None pcall) in I by (symmetry; apply nth_error_None; lia). destruct I.
    + intros a c I. apply in_queue_after in I. destruct I as [I|[E|[]]]; [exact (b_queue _ _ B a c I) | discriminate].
    + intros a i I. cbn [s_queue] in I. apply in_queue_after in I. destruct I as [I|[[= <- <-]|[]]]; [exact (coarse_addr _ _ _ _ _ Q0 (b_acq _ _ B a i I))|].
      unfold addr_of. cbn [s_calls]. rewrite nth_snoc, Nat.eqb_refl. reflexivity.
    + intros p0 E. cbn [s_pool s_opened s_queue s_calls] in *. rewrite <- (app_nil_r (s_opened s)). eapply pool_ok_grows; [exact (b_pool _ _ B p0 E)|].
      rewrite fins_snoc by reflexivity. pose proof (rels_after s [AcquireConnection addr (length (s_calls s))]) as R. change (rels [AcquireConnection addr (length (s_calls s))]) with 0%nat in R. lia.
  - pose proof (after_command_opened s p' q o f) as Eo. destruct (silent_trace _ _ tr [] Q0 ltac:(auto) Eo B) as (T1 & T2 & T3 & T4).
    pose proof (b_pool _ _ B p Ep) as I1. rewrite Eq in I1.
    destruct (handle_ok now cm p o p' _ q _ s Eh Sm eq_refl eq_refl I1) as (J1 & J4).
    { intros a d ->. apply (b_queue _ _ B). rewrite Eq. left. reflexivity. }
    destruct (after_command_queue s p' q o f) as [Q1 Q2]. constructor; try assumption.
    + intros i a c E I. rewrite Eo. rewrite after_command_addr in E. pose proof (after_command_state s p' q o f i) as Cs. unfold held_at in I.
      destruct (nth_error (s_calls (after_command s p' q o f)) i) as [pc'|] eqn:En'; [|destruct I]. unfold state_of in Cs. rewrite En' in Cs. cbn [option_map] in Cs. rewrite held_eq in I.
      destruct Cs as [Es|(Es & an & Eo' & Es')].
      * apply (b_calls _ _ B i a c E). unfold held_at. destruct (nth_error (s_calls s) i) as [pc|]; [|discriminate]. cbn [option_map] in Es. injection Es as Es. rewrite held_eq, <- Es. exact I.
      * injection Es' as Es'. rewrite Es', to_pooled_held in I. destruct an as [u|d|]; [destruct I | destruct I as [->|[]] | destruct I].
        destruct (J4 i c Eo') as (b & -> & Pb). cbn [snd fst] in Pb. assert (Eb : addr_of i s = Some b) by (apply (b_acq _ _ B); rewrite Eq; left; reflexivity). congruence.
    + intros a c I. rewrite Eo. rewrite Q1 in I. apply (b_queue _ _ B). rewrite Eq. right. exact I.
    + intros a i I. rewrite after_command_addr. rewrite Q1 in I. apply (b_acq _ _ B). rewrite Eq. right. exact I.
    + intros p0 E. rewrite Q2 in E. injection E as <-. rewrite Eo, Q1, after_command_fins. exact J1.
  - destruct (silent_trace _ _ tr [] Q0 ltac:(auto) eq_refl B) as (T1 & T2 & T3 & T4). constructor; try assumption.
    + exact (b_calls _ _ B).
    + intros a c [].
    + intros a i [].
    + discriminate.
  - assert (Eo : s_opened (moved j x' cs [] s) = s_opened s) by (unfold moved; cbn; apply app_nil_r).
    destruct (silent_trace _ _ tr t Q0 ltac:(destruct Ht; eauto) Eo B) as (T1 & T2 & T3 & T4). constructor; try assumption.
    + intros i a c E I. rewrite Eo. rewrite moved_addr in E. rewrite moved_held_at in I. destruct (Nat.eqb j i); [|exact (b_calls _ _ B i a c E I)].
      destruct (nth_error (s_calls s) i); [rewrite Hx in I|]; destruct I.
    + intros a c I. rewrite Eo. apply in_queue_after in I. destruct I as [I|I]; [exact (b_queue _ _ B a c I)|]. destruct Hc as [-> | ->]; [destruct I | destruct I as [E|[]]; discriminate].
    + intros a i I. rewrite moved_addr. apply in_queue_after in I. destruct I as [I|I]; [exact (b_acq _ _ B a i I)|]. destruct Hc as [-> | ->]; [destruct I | destruct I as [E|[]]; discriminate].
    + intros p0 E. unfold moved in E. cbn [s_pool] in E. eapply pool_ok_grows; [exact (b_pool _ _ B p0 E)|].
      unfold moved. cbn [s_queue s_calls]. assert (Nf : is_fin pc = false) by (unfold is_fin; destruct D as [(a & a' & -> & _)|(_ & [(a & ->)|(c & k & ->)])]; reflexivity).
      rewrite (fins_set j x' _ pc En Nf). pose proof (rels_after s cs) as R. replace (rels cs) with 0%nat in R by (destruct Hc as [-> | ->]; reflexivity). lia.
  - assert (Cq : forall a c, In (ReleaseConnection a c) cs -> a = c_addr pc /\ c = c0) by (destruct Fa; intros a c I; try destruct I as [[= <- <-]|[]]; auto; destruct I).
    assert (Ca : forall a i, ~ In (AcquireConnection a i) cs) by (destruct Fa; intros a i I; try destruct I as [I|[]]; try discriminate; destruct I).
    assert (Ao : addr_of j s = Some (c_addr pc)) by (unfold addr_of; rewrite En; reflexivity).
    assert (Oc : opened_to (s_opened s ++ op) c0 (c_addr pc)).
    { destruct D as [(-> & _ & Hp & _)|(-> & _ & -> & _)].
      - rewrite app_nil_r. apply (b_calls _ _ B j); [exact Ao|]. unfold held_at. rewrite En, Hp. left. reflexivity.
      - exists (c_addr pc). rewrite nth_error_app2, Nat.sub_diag by lia. auto. }
    assert (Rr : forall i a c, In (ERelease i a c) t -> i = j /\ a = c_addr pc /\ c = c0).
    { destruct Pe as (-> & _ & _ & Pr & _). intros i a c I. apply in_app_or in I. destruct I as [I|I]; [elim (Pr _ _ _ I)|]. apply in_app_or in I. destruct I as [I|I].
      - apply in_map_iff in I. destruct I as (b & E & _). discriminate.
      - destruct Fa; try destruct I as [[= <- <- <-]|[]]; auto; destruct I. }
    assert (To : opens t = match op with [] => [] | _ => [(c0, c_addr pc)] end).
    { destruct Pe as (-> & _). rewrite !opens_app, opens_acts. assert (Er : opens rs = []) by (destruct Fa; reflexivity). rewrite Er, !app_nil_r. destruct D as [(-> & -> & _)|(-> & -> & _)]; reflexivity. }
    assert (Pre : forall e m t2, (forall c a, e <> EOpen c a) -> t = m ++ e :: t2 -> exists b, In (EOpen c0 b) (tr ++ m) /\ view b = view (c_addr pc)).
    { intros e m t2 Ne E. destruct D as [(-> & _)|(-> & -> & Ec & _)].
      - rewrite app_nil_r in Oc. destruct Oc as (b & Eb & V). exists b. split; [|exact V]. apply in_or_app. left. apply (b_open _ _ B). exact Eb.
      - exists (c_addr pc). split; [|reflexivity]. apply in_or_app. right. destruct Pe as (Et & _). rewrite Et in E. destruct m as [|e' m]; cbn [app] in E; injection E as E1 E2; [elim (Ne _ _ (eq_sym E1))|]. left. congruence. }
    constructor.
    + intros c a. rewrite in_app_iff, (b_open _ _ B). rewrite <- (opens_in t), To. unfold moved. cbn [s_opened]. destruct D as [(-> & _)|(-> & _ & Ec & _)].
      * rewrite app_nil_r. split; [intros [I|[]]; exact I | auto].
      * split.
        -- intros [I|[E|[]]]; [rewrite nth_error_app1; [exact I | apply nth_error_Some; congruence] | injection E as <- <-; rewrite Ec, nth_error_app2, Nat.sub_diag by lia; reflexivity].
        -- intros E. destruct (Nat.lt_ge_cases c (length (s_opened s))) as [L|L]; [left; rewrite nth_error_app1 in E by exact L; exact E|].
           right. rewrite nth_error_app2 in E by exact L. destruct (c - length (s_opened s))%nat as [|n] eqn:En'; [|destruct n; discriminate]. cbn in E. injection E as <-. left. f_equal. lia.
    + intros i a c E I. rewrite moved_addr in E. rewrite moved_held_at in I. unfold moved. cbn [s_opened]. destruct (Nat.eqb_spec j i) as [->|N]; [|apply opened_grows; exact (b_calls _ _ B i a c E I)].
      rewrite En in I. assert (c = c0) by (destruct Fa as [k K|v b|x Dx]; [destruct I as [I|[]]; congruence | destruct I | destruct x; try contradiction; destruct I]). subst c. assert (a = c_addr pc) by congruence. subst a. exact Oc.
    + intros a c I. apply in_queue_after in I. unfold moved. cbn [s_opened]. destruct I as [I|I]; [apply opened_grows; exact (b_queue _ _ B a c I)|]. destruct (Cq a c I) as [-> ->]. exact Oc.
    + intros a i I. rewrite moved_addr. apply in_queue_after in I. destruct I as [I|I]; [exact (b_acq _ _ B a i I) | elim (Ca _ _ I)].
    + intros p0 E. unfold moved in E. cbn [s_pool] in E. eapply pool_ok_grows; [exact (b_pool _ _ B p0 E)|].
      unfold moved. cbn [s_opened s_queue s_calls].
      assert (Nf : is_fin pc = false) by (unfold is_fin; destruct D as [(_ & _ & _ & [-> |[k ->]])|(_ & _ & _ & _ & ->)]; reflexivity).
      rewrite (fins_set j x' _ pc En Nf). pose proof (rels_after s cs) as R. assert (Rc : rels cs = match x' with Finished _ _ => 1%nat | _ => 0%nat end) by (destruct Fa as [k K|v b|x Dx]; try reflexivity; destruct x; try contradiction; reflexivity).
      rewrite Rc in R. lia.
    + intros t1 i a t2 E. rewrite moved_addr. apply split_app in E. destruct E as [(m & E & _)|(m & -> & E)]; [exact (b_acts _ _ B _ _ _ _ E)|].
      assert (I : In (EAct i a) t) by (rewrite E; apply in_or_app; right; left; reflexivity). destruct (poll_events_act _ _ _ _ _ _ _ _ Pe I) as [-> ->].
      destruct (Pre (EAct j a) m t2 ltac:(discriminate) E) as (b & Ib & V). exists (c_addr pc), b. auto.
    + intros t1 i a c t2 E. rewrite moved_addr. apply split_app in E. destruct E as [(m & E & _)|(m & -> & E)]; [exact (b_rels _ _ B _ _ _ _ _ E)|].
      assert (I : In (ERelease i a c) t) by (rewrite E; apply in_or_app; right; left; reflexivity). destruct (Rr i a c I) as (-> & -> & ->).
      split; [exact Ao|]. eapply Pre; [|exact E]. discriminate.
    + rewrite opens_app, map_app, (b_once _ _ B), To. unfold moved. cbn [s_opened]. rewrite app_length, seq_app. f_equal. destruct D as [(-> & _)|(-> & _ & -> & _)]; reflexivity.
Qed.

Lemma invB_new size d : invB (psys_new size d) [].
Proof.
  assert (Nn : forall {A} i, nth_error (@nil A) i = None) by (intros A [|i]; reflexivity).
  constructor.
  - intros c a. unfold psys_new. cbn [s_opened]. rewrite Nn. split; [intros [] | discriminate].
  - intros i a c E. unfold addr_of, psys_new in E. cbn [s_calls] in E. rewrite Nn in E. discriminate.
  - intros a c [].
  - intros a i [].
  - intros p [= <-]. unfold pool_ok. destruct wraps.
    + split; [apply PoolWrap.invW_new|]. split; [reflexivity | intros ? ? []].
    + exists []. split; [apply inv_new|]. split; [constructor|]. vm_compute. discriminate.
  - intros [|] i a t2 E; discriminate.
  - intros [|] i a c t2 E; discriminate.
  - reflexivity.
Qed.

Lemma coarse_length s s' t : coarse s s' t -> (length (s_calls s) <= length (s_calls s'))%nat.
Proof.
  intros Q. destruct Q as [addr p req|now f p cm q o p' Ep Eq Eh| |j pc x' cs t En Hx Hc Ht D|j pc c0 x' cs op pre ts rs t En Fa Pe D A]; try (unfold moved; cbn [s_calls]; rewrite set_length; apply le_n).
  - cbn [s_calls]. rewrite app_length. lia.
  - unfold after_command. destruct o as [[i a]|]; [|apply le_n]. destruct (reply_cases i (to_pooled a f) (mkPsys (Some p') q (s_calls s) (s_opened s))) as [->|[_ ->]]; [apply le_n|].
    unfold put_state. cbn [s_calls]. rewrite set_length. apply le_n.
  - apply le_n.
Qed.
Lemma coarse_opened_incl s s' t : coarse s s' t -> incl (s_opened s) (s_opened s').
Proof.
  intros Q. destruct Q as [addr p req|now f p cm q o p' Ep Eq Eh| |j pc x' cs t En Hx Hc Ht D|j pc c0 x' cs op pre ts rs t En Fa Pe D A]; try apply incl_refl; try (unfold moved; cbn [s_opened]; apply incl_appl, incl_refl).
  rewrite after_command_opened. apply incl_refl.
Qed.
Lemma small_back s s' t : coarse s s' t -> small s' -> small s.
Proof.
  intros Q. unfold small. destruct wraps.
  - intros Di a b (a' & Ia & Va) (b' & Ib & Vb). apply Di; [exists a' | exists b']; (split; [apply (coarse_opened_incl _ _ _ Q)|]); assumption.
  - pose proof (coarse_length _ _ _ Q). intros [Ck|L]; [auto | right; lia].
Qed.
Lemma small_run ls : forall s tr, Forall honest_label ls -> invA s tr -> small (fst (prun tmax checks ls s)) -> small s.
Proof.
  induction ls as [|l ls IH]; intros s tr Fh Iv; cbn [prun fst]; [auto|]. inversion Fh as [|? ? Hl Fh']; subst.
  destruct (pstep tmax checks l s) as [[s1 t]|] eqn:E; [|apply (IH s tr); assumption].
  assert (Q : coarse s s1 t) by (eapply effect_coarse, step_effect; try eassumption; apply (a_keeps _ _ Iv)).
  intros Sm. apply (small_back _ _ _ Q). apply (IH s1 (tr ++ t) Fh' (invA_step _ _ _ _ _ _ Iv Q)). destruct (prun tmax checks ls s1) as [s' t']. exact Sm.
Qed.
Theorem invB_run ls : forall s tr, Forall honest_label ls -> invA s tr -> invB s tr -> small (fst (prun tmax checks ls s)) ->
  let '(s', t) := prun tmax checks ls s in invB s' (tr ++ t).
Proof.
  induction ls as [|l ls IH]; intros s tr Fh Iv B Sm; [cbn [prun]; rewrite app_nil_r; exact B|]. pose proof (small_run _ _ _ Fh Iv Sm) as Sm0. cbn [prun] in *. inversion Fh as [|? ? Hl Fh']; subst.
  destruct (pstep tmax checks l s) as [[s1 t]|] eqn:E; [|apply IH; assumption].
  assert (Q : coarse s s1 t) by (eapply effect_coarse, step_effect; try eassumption; apply (a_keeps _ _ Iv)).
  pose proof (invA_step _ _ _ _ _ _ Iv Q) as Iv1.
  assert (Sm' : small (fst (prun tmax checks ls s1))) by (destruct (prun tmax checks ls s1); exact Sm).
  specialize (IH s1 (tr ++ t) Fh' Iv1 (invB_step _ _ _ _ B Q Sm0) Sm'). destruct (prun tmax checks ls s1) as [s' t']. rewrite app_assoc. exact IH.
Qed.
End Addr.

Section Reached.
Context {F : floatlib} {U : urlenv}.
Variables (tmax : Z) (checks : bool) (size : N) (d : Z) (ls : list plabel) (s : psys) (tr : list pevent).
Hypothesis (Fh : Forall honest_label ls) (Er : prun tmax checks ls (psys_new size d) = (s, tr)).
(** By IP address and port, whatever the counter is. *)
Theorem reached_endpoint : invB true (N * N * N) PoolWrapSpec.endpoint s tr.
Proof.
  pose proof (invB_run tmax checks true (N * N * N) PoolWrapSpec.endpoint ls _ _ Fh (invA_new size d) (invB_new _ _ _ size d)) as Q. rewrite Er in Q. apply Q.
  intros a b _ _ Se. apply same_endpoint_iff in Se. unfold PoolWrapSpec.endpoint. destruct Se as (E1 & E2 & E3). congruence.
Qed.
Theorem reached_addr : told_apart checks s tr -> exists wraps, invB wraps saddr (fun a => a) s tr.
Proof.
  assert (Ap : forall ck, told_apart ck s tr -> small ck (negb (ck || (N.of_nat (length (s_calls s)) <=? 2 ^ 64 - 1))) saddr (fun a => a) s).
  { intros ck Ta. unfold small. destruct ck; [left; reflexivity|]. cbn [orb]. destruct (N.leb_spec (N.of_nat (length (s_calls s))) (2 ^ 64 - 1)) as [L|L]; cbn [negb]; [right; exact L|].
    destruct Ta as [[=]|[L'|Un]]; [lia|]. intros a b (a' & Ia & ->) (b' & Ib & ->) Se. apply same_endpoint_iff in Se. destruct Se as (E1 & E2 & E3).
    apply In_nth_error in Ia. destruct Ia as [c1 Ia]. apply In_nth_error in Ib. destruct Ib as [c2 Ib].
    apply (Un c1 c2); [apply (b_open _ _ _ _ _ reached_endpoint); exact Ia | apply (b_open _ _ _ _ _ reached_endpoint); exact Ib | | |]; assumption. }
  intros Ta. specialize (Ap checks Ta). set (wr := negb _) in Ap. exists wr.
  pose proof (invB_run tmax checks wr saddr (fun a => a) ls _ _ Fh (invA_new size d) (invB_new _ _ _ size d)) as Q. rewrite Er in Q. exact (Q Ap).
Qed.
End Reached.
