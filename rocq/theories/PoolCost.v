(** * A connection costs at most one call (C80). *)
From Verif Require Import Base Serde Procedure Router SerRequest DeHeader DeResponse DepUrl Error Client ClientSpec ClientProofs Pool PoolSpec PoolProofs PoolSystem PoolSystemSpec PoolSystemProofs PoolSystemInv PoolSystemAddr PoolCostSpec.
Open Scope nat_scope.

(** Different calls with different choices are not more than there is to choose from. *)
Lemma chosen {A} (f : nat -> A -> Prop) (l : list A) : forall is, NoDup is -> (forall i, In i is -> exists a, f i a /\ In a l) ->
  (forall i j a, In i is -> In j is -> f i a -> f j a -> i = j) -> length is <= length l.
Proof.
  intros is D E Inj.
  assert (X : exists cs, length cs = length is /\ incl cs l /\ NoDup cs /\ forall c, In c cs -> exists i, In i is /\ f i c).
  { induction is as [|i is IH]; [exists []; split; [reflexivity|]; split; [intros c []|]; split; [constructor | intros c []]|]. inversion D as [|? ? N D']; subst.
    destruct IH as (cs & L & I & Dc & Hc); [exact D' | intros j Ij; apply E; right; exact Ij | intros j k a Ij Ik; apply Inj; right; assumption|].
    destruct (E i (or_introl eq_refl)) as (a & Fa & Ia). exists (a :: cs). split; [cbn; congruence|]. split; [intros c [<-|Ic]; auto|]. split.
    - constructor; [|exact Dc]. intros Ic. destruct (Hc a Ic) as (j & Ij & Fj). rewrite <- (Inj i j a (or_introl eq_refl) (or_intror Ij) Fa Fj) in Ij. contradiction.
    - intros c [<-|Ic]; [exists i; split; [left; reflexivity | exact Fa]|]. destruct (Hc c Ic) as (j & Ij & Fj). exists j. split; [right; exact Ij | exact Fj]. }
  destruct X as (cs & <- & I & Dc & _). apply NoDup_incl_length; assumption.
Qed.

Section PoolCost.
Context {F : floatlib} {U : urlenv}.
Variables (tmax : Z) (checks : bool).
Notation coarse := (coarse tmax checks).

Lemma used_act i c t : In c (used i t) -> exists t1 a t2, t = t1 ++ EAct i a :: t2 /\ act_conn a = c.
Proof.
  induction t as [|e t IH]; [intros []|]. destruct e as [c0 a0|j a0|j a0 c0|j a0]; cbn [used]; try (intros I; destruct (IH I) as (t1 & a & t2 & -> & E); eexists (_ :: t1), a, t2; split; [reflexivity | exact E]).
  destruct (Nat.eqb_spec i j) as [<-|N].
  - intros [E|I]; [exists [], a0, t; auto|]. destruct (IH I) as (t1 & a & t2 & -> & E). exists (EAct i a0 :: t1), a, t2. auto.
  - intros I. destruct (IH I) as (t1 & a & t2 & -> & E). exists (EAct j a0 :: t1), a, t2. auto.
Qed.
Lemma two_splits {A} (t : list A) : forall t1 x t2 s1 y s2, t = t1 ++ x :: t2 -> t = s1 ++ y :: s2 ->
  (exists m, t = t1 ++ x :: m ++ y :: s2) \/ (exists m, t = s1 ++ y :: m ++ x :: t2) \/ x = y.
Proof.
  induction t as [|z t IH]; intros t1 x t2 s1 y s2 E1 E2; [destruct t1; discriminate|].
  destruct t1 as [|z1 t1], s1 as [|w1 s1]; cbn [app] in E1, E2; injection E1 as <- E1; injection E2 as <- E2.
  - right. right. reflexivity.
  - left. exists s1. cbn [app]. rewrite E2. reflexivity.
  - right. left. exists t1. cbn [app]. rewrite E1. reflexivity.
  - destruct (IH _ _ _ _ _ _ E1 E2) as [(m & Q)|[(m & Q)|Q]]; [left; exists m; cbn [app]; rewrite Q at 1; reflexivity | right; left; exists m; cbn [app]; rewrite Q at 1; reflexivity | auto].
Qed.
Lemma lost_keeps s tr i : invA s tr -> lost (state_of i s) -> released i tr = [].
Proof. intros Iv L. pose proof (a_use _ _ Iv i) as Q. unfold use_ok in Q. destruct (state_of i s) as [[]|]; cbn [lost] in L; tauto. Qed.
Theorem one_each s tr i j c : invA s tr -> lost (state_of i s) -> lost (state_of j s) -> In c (used i tr) -> In c (used j tr) -> i = j.
Proof.
  intros Iv Li Lj Ii Ij. destruct (Nat.eq_dec i j) as [|N]; [assumption|]. exfalso.
  destruct (used_act i c tr Ii) as (t1 & a & t2 & E1 & Ea). destruct (used_act j c tr Ij) as (s1 & b & s2 & E2 & Eb).
  destruct (two_splits tr _ _ _ _ _ _ E1 E2) as [(m & E)|[(m & E)|E]].
  - destruct (a_excl _ _ Iv t1 i a m j b s2 E ltac:(congruence) N) as (addr & I). assert (R : In (ERelease i addr (act_conn a)) tr) by (rewrite E; apply in_or_app; right; right; apply in_or_app; left; exact I).
    apply released_in in R. rewrite (lost_keeps s tr i Iv Li) in R. exact R.
  - destruct (a_excl _ _ Iv s1 j b m i a t2 E ltac:(congruence) ltac:(congruence)) as (addr & I). assert (R : In (ERelease j addr (act_conn b)) tr) by (rewrite E; apply in_or_app; right; right; apply in_or_app; left; exact I).
    apply released_in in R. rewrite (lost_keeps s tr j Iv Lj) in R. exact R.
  - congruence.
Qed.
(** Whoever acts on an old connection, it was in someone's hands. *)
Lemma acted_held ls : forall s tr, Forall honest_label ls -> invA s tr -> forall i a, In (EAct i a) (snd (prun tmax checks ls s)) -> act_conn a < length (s_opened s) -> 0 < H s (act_conn a).
Proof.
  induction ls as [|l ls IH]; intros s tr Fh Iv i a I L; [destruct I|]. inversion Fh as [|? ? Hl Fh']; subst. cbn [prun] in I.
  destruct (pstep tmax checks l s) as [[s1 t]|] eqn:E; [|apply (IH s tr Fh' Iv i a I L)].
  assert (Q : coarse s s1 t) by (eapply effect_coarse, step_effect; try eassumption; apply (a_keeps _ _ Iv)).
  destruct (prun tmax checks ls s1) as [s2 t2] eqn:Er. cbn [snd] in I. apply in_app_or in I. destruct I as [I|I].
  - destruct (coarse_act tmax checks _ _ _ _ _ Q I) as (pc & c & x & cs & op & pre & ts & rs & En & Ec & _ & _ & _ & D). destruct D as [Hp|(D & _)]; [|lia].
    pose proof (held_at_le i s (act_conn a)) as Le. unfold held_at in Le. rewrite En, Hp, Ec, cnt_cons, one_self in Le. rewrite Ec. lia.
  - pose proof (coarse_H tmax checks s s1 t (act_conn a) Q L) as Le. enough (0 < H s1 (act_conn a)) by lia. destruct (coarse_opened tmax checks s s1 t Q) as [op Eo].
    apply (IH s1 (tr ++ t) Fh' (invA_step tmax checks s s1 t tr Iv Q) i a); [rewrite Er; exact I | rewrite Eo, app_length; lia].
Qed.
Lemma used_of_act i a t : In (EAct i a) t -> In (act_conn a) (used i t).
Proof. induction t as [|e t IH]; [intros []|]. intros [->|I]; cbn [used]; [rewrite Nat.eqb_refl; left; reflexivity|]. destruct e; auto. destruct (i =? i0); [right|]; auto. Qed.
Lemma used_both i t t' c : In c (used i (t ++ t')) -> In c (used i t) \/ In c (used i t').
Proof.
  intros I. destruct (used_act i c _ I) as (t1 & a & t2 & E & <-). assert (Ia : In (EAct i a) (t ++ t')) by (rewrite E; apply in_or_app; right; left; reflexivity).
  apply in_app_or in Ia. destruct Ia as [Ia|Ia]; [left | right]; apply used_of_act; exact Ia.
Qed.
(** A call that is not over has in its hands, or will take over from someone, what it will have used of the old connections. *)
Theorem old_held ls s tr i c : Forall honest_label ls -> invA s tr -> under_way (state_of i s) -> c < length (s_opened s) ->
  In c (used i (tr ++ snd (prun tmax checks ls s))) -> In c (holders s).
Proof.
  intros Fh Iv W L I. apply cnt_in. rewrite holders_cnt. apply used_both in I. destruct I as [I|I].
  - pose proof (a_use _ _ Iv i) as Q. unfold use_ok in Q. destruct (state_of i s) as [x|] eqn:Es; [|destruct Q as [_ Q]; rewrite Q in I; destruct I].
    destruct x as [x|c0 k| | | |]; try destruct W; [destruct Q as [_ Q]; rewrite Q in I; destruct I|]. destruct Q as (_ & _ & Q). rewrite Forall_forall in Q. specialize (Q c I). subst c0.
    pose proof (held_at_le i s c) as Le. enough (0 < cnt c (held_at i s)) by lia. unfold held_at. unfold state_of in Es. destruct (nth_error (s_calls s) i) as [pc|]; [|discriminate].
    cbn [option_map] in Es. injection Es as Es. rewrite held_eq, Es. cbn [held_in]. rewrite cnt_cons, one_self. lia.
  - destruct (used_act i c _ I) as (t1 & a & t2 & E & <-). apply (acted_held ls s tr Fh Iv i a); [rewrite E; apply in_or_app; right; left; reflexivity | exact L].
Qed.
End PoolCost.
