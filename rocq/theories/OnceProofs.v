(** * Made once, seen by all. *)
From Verif Require Import Base DepUrl Once OnceSpec.
Local Open Scope nat_scope.

Lemma put_same {A} t (x : A) f : at_put t x f t = x.
Proof. unfold at_put. rewrite Nat.eqb_refl. reflexivity. Qed.
Lemma put_other {A} t j (x : A) f : j <> t -> at_put t x f j = f j.
Proof. intros N. unfold at_put. destruct (Nat.eqb_spec t j); [congruence | reflexivity]. Qed.

Section OnceProofs.
Context {U R : Type}.
Variable create : option U.
Variable parse : option U -> ustr -> R.
Notation step := (action create parse).
Notation tick := (tick create parse).
Notation memory := (mem U R).

Lemma actions_snoc l a m : actions create parse (l ++ [a]) m = step a (actions create parse l m).
Proof. unfold actions. rewrite fold_left_app. reflexivity. Qed.
Lemma mem_S sched n : mem_at create parse sched (S n) = step (sched n) (mem_at create parse sched n).
Proof. unfold mem_at. rewrite seq_S, map_app. apply actions_snoc. Qed.

(** ** The creation works *)
Section Works.
Variable b : U.
Hypothesis works : create = Some b.

Definition outside (m : memory) (t : nat) : Prop := m_pc m t = Away \/ exists x, m_pc m t = Entering x.
Definition untouched (m : memory) : Prop := m_cell m = None /\ m_made m = 0 /\ m_written m = 0.
Definition touched (m : memory) : Prop := m_cell m = Some b /\ m_made m = 1 /\ m_written m = 1.
Definition fine (r : ret R) : Prop := r_result r = parse (Some b) (r_target r) /\ r_ordered r = true.
Definition sound (m : memory) : Prop :=
  match m_once m with
  | Incomplete => untouched m /\ m_rets m = [] /\ forall t, outside m t
  | Running => m_rets m = [] /\ exists o, (forall t, t <> o -> outside m t) /\
      ((exists x, m_pc m o = Creating x) /\ untouched m \/ (exists x, m_pc m o = Writing x b) /\ untouched m \/ (exists x, m_pc m o = Leaving x) /\ m_known m o = true /\ touched m)
  | Complete => touched m /\ m_published m = true /\ Forall fine (m_rets m) /\ forall t, outside m t \/ (exists x, m_pc m t = Reading x) /\ m_known m t = true
  | Poisoned => False
  end.

Lemma sound_new : sound mem_new.
Proof. cbn. split; [repeat split|]. split; [reflexivity|]. intros t. left. reflexivity. Qed.

Lemma outside_put m t p : (p = Away \/ exists x, p = Entering x) -> forall o c k mk w r pb j, (j <> t -> outside m j) -> outside (mkMem o pb c k (at_put t p (m_pc m)) mk w r) j.
Proof. intros P o c k mk w r pb j Q. unfold outside. cbn [m_pc]. destruct (Nat.eq_dec j t) as [->|N]; [rewrite put_same; exact P|]. rewrite put_other by exact N. apply Q, N. Qed.
Lemma outside_rest m t p o c k mk w r pb j : j <> t -> outside m j -> outside (mkMem o pb c k (at_put t p (m_pc m)) mk w r) j.
Proof. intros N Q. unfold outside. cbn [m_pc]. rewrite put_other by exact N. exact Q. Qed.

Lemma sound_call t x m : sound m -> sound (step (Calls t x) m).
Proof.
  intros S. cbn [action]. destruct (m_pc m t) eqn:E; try exact S. unfold sound, go in *. cbn [m_once m_rets m_pc m_known m_published] in *.
  assert (P : @Entering U x = Away \/ exists y, @Entering U x = Entering y) by (right; eauto).
  destruct (m_once m).
  - destruct S as (A & B & C). split; [exact A|]. split; [exact B|]. intros j. apply outside_put; auto.
  - destruct S as (A & o & B & C). split; [exact A|]. exists o. assert (N : o <> t) by (intros ->; destruct C as [[[y C] _]|[[[y C] _]|[[y C] _]]]; congruence).
    split; [intros j Nj; apply outside_put; auto|]. rewrite put_other by exact N. exact C.
  - destruct S as (A & B & C & D). split; [exact A|]. split; [exact B|]. split; [exact C|]. intros j. destruct (Nat.eq_dec j t) as [->|N]; [left; unfold outside; cbn [m_pc]; rewrite put_same; exact P|].
    rewrite put_other by exact N. destruct (D j) as [Q|Q]; [left; apply outside_rest; auto | right; exact Q].
  - exact S.
Qed.

Lemma sound_tick t m : sound m -> sound (tick t m).
Proof.
  intros S. unfold Once.tick. destruct (m_pc m t) as [|x|x|x c|x|x|] eqn:E; try exact S.
  - unfold sound in *. destruct (m_once m) eqn:O; cbn [m_once].
    + destruct S as (A & B & C). split; [exact B|]. exists t. split; [intros j N; apply outside_rest; auto|]. left. cbn [m_pc]. rewrite put_same. split; [eauto | exact A].
    + rewrite O. exact S.
    + destruct S as (A & B & C & D). split; [exact A|]. split; [exact B|]. split; [exact C|]. cbn [m_pc m_known]. intros j. destruct (Nat.eq_dec j t) as [->|N].
      * right. rewrite !put_same, B. split; [eauto | apply orb_true_r].
      * rewrite !put_other by exact N. destruct (D j) as [Q|Q]; [left; apply outside_rest; auto | right; exact Q].
    + destruct S.
  - rewrite works. unfold sound, go in *. cbn [m_once]. destruct (m_once m) eqn:O.
    + destruct S as (_ & _ & C). destruct (C t) as [Q|[y Q]]; congruence.
    + destruct S as (A & o & B & C). assert (o = t) by (destruct (Nat.eq_dec o t) as [|N]; [assumption|]; destruct (B t (not_eq_sym N)) as [Q|[y Q]]; congruence). subst o.
      split; [exact A|]. exists t. split; [intros j N; apply outside_rest; auto|]. right. left. cbn [m_pc]. rewrite put_same. split; [eauto|].
      destruct C as [[_ C]|[[[y C] _]|[[y C] _]]]; [exact C | congruence | congruence].
    + destruct S as (_ & _ & _ & D). destruct (D t) as [[Q|[y Q]]|[[y Q] _]]; congruence.
    + destruct S.
  - unfold sound in *. cbn [m_once]. destruct (m_once m) eqn:O.
    + destruct S as (_ & _ & C). destruct (C t) as [Q|[y Q]]; congruence.
    + destruct S as (A & o & B & C). assert (o = t) by (destruct (Nat.eq_dec o t) as [|N]; [assumption|]; destruct (B t (not_eq_sym N)) as [Q|[y Q]]; congruence). subst o.
      split; [exact A|]. exists t. split; [intros j N; apply outside_rest; auto|]. right. right. cbn [m_pc m_known]. rewrite !put_same.
      split; [eauto|]. split; [reflexivity|]. destruct C as [[[y C] _]|[[[y C] (C1 & C2 & C3)]|[[y C] _]]]; [congruence| |congruence].
      unfold touched. cbn. rewrite C2, C3. split; [congruence | auto].
    + destruct S as (_ & _ & _ & D). destruct (D t) as [[Q|[y Q]]|[[y Q] _]]; congruence.
    + destruct S.
  - unfold sound in *. cbn [m_once]. destruct (m_once m) eqn:O.
    + destruct S as (_ & _ & C). destruct (C t) as [Q|[y Q]]; congruence.
    + destruct S as (A & o & B & C). assert (o = t) by (destruct (Nat.eq_dec o t) as [|N]; [assumption|]; destruct (B t (not_eq_sym N)) as [Q|[y Q]]; congruence). subst o.
      destruct C as [[[y C] _]|[[[y C] _]|[_ (C1 & C2)]]]; [congruence | congruence|].
      split; [exact C2|]. cbn [m_published m_rets m_pc m_known]. split; [exact C1|]. split; [rewrite A; constructor|]. intros j. destruct (Nat.eq_dec j t) as [->|N].
      * right. rewrite put_same. split; [eauto | exact C1].
      * left. apply outside_rest; auto.
    + destruct S as (_ & _ & _ & D). destruct (D t) as [[Q|[y Q]]|[[y Q] _]]; congruence.
    + destruct S.
  - unfold sound in *. cbn [m_once]. destruct (m_once m) eqn:O.
    + destruct S as (_ & _ & C). destruct (C t) as [Q|[y Q]]; congruence.
    + destruct S as (A & o & B & C). assert (o = t) by (destruct (Nat.eq_dec o t) as [|N]; [assumption|]; destruct (B t (not_eq_sym N)) as [Q|[y Q]]; congruence). subst o.
      destruct C as [[[y C] _]|[[[y C] _]|[[y C] _]]]; congruence.
    + destruct S as (A & B & C & D). split; [exact A|]. split; [exact B|]. cbn [m_rets m_pc m_known]. destruct (D t) as [[Q|[y Q]]|[_ K]]; [congruence | congruence|]. split.
      * constructor; [|exact C]. split; cbn; [rewrite (proj1 A); reflexivity | exact K].
      * intros j. destruct (Nat.eq_dec j t) as [->|N]; [left; left; cbn [m_pc]; apply put_same|]. rewrite put_other by exact N. destruct (D j) as [Q|Q]; [left; apply outside_rest; auto | right; exact Q].
    + destruct S.
Qed.
Lemma sound_step a m : sound m -> sound (step a m).
Proof. destruct a; [apply sound_call | apply sound_tick]. Qed.
Theorem sound_all l : sound (actions create parse l mem_new).
Proof. induction l as [|a l IH] using rev_ind; [exact sound_new | rewrite actions_snoc; apply sound_step, IH]. Qed.

Theorem rets_fine l r : In r (m_rets (actions create parse l mem_new)) -> r_result r = parse (Some b) (r_target r) /\ r_ordered r = true.
Proof.
  pose proof (sound_all l) as S. unfold sound in S. destruct (m_once _); [destruct S as (_ & -> & _); intros [] | destruct S as (-> & _); intros []| |destruct S].
  destruct S as (_ & _ & C & _). apply (proj1 (Forall_forall _ _) C).
Qed.
Theorem no_race l : ~ data_race (actions create parse l mem_new).
Proof.
  pose proof (sound_all l) as S. intros (t & t' & N & (x & c & W) & Q). unfold sound in S. destruct (m_once _).
  - destruct S as (_ & _ & C). destruct (C t) as [Z|[y Z]]; congruence.
  - destruct S as (_ & o & B & _). destruct (Nat.eq_dec t o) as [->|No].
    + destruct (B t' (not_eq_sym N)) as [Z|[y Z]]; destruct Q as [(y' & c' & Q)|(y' & Q)]; congruence.
    + destruct (B t No) as [Z|[y Z]]; congruence.
  - destruct S as (_ & _ & _ & D). destruct (D t) as [[Z|[y Z]]|[[y Z] _]]; congruence.
  - destruct S.
Qed.
Theorem made_once l : let m := actions create parse l mem_new in m_made m = m_written m /\ m_made m <= 1 /\ m_cell m = (if m_made m then None else Some b) /\ (m_rets m <> [] -> m_made m = 1).
Proof.
  cbv zeta. pose proof (sound_all l) as S. unfold sound, untouched, touched in S. destruct (m_once _).
  - destruct S as ((-> & -> & ->) & -> & _). repeat split; auto. intros Q. destruct (Q eq_refl).
  - destruct S as (-> & o & _ & [[_ (-> & -> & ->)]|[[_ (-> & -> & ->)]|(_ & _ & -> & -> & ->)]]); repeat split; auto; intros Q; destruct (Q eq_refl).
  - destruct S as ((-> & -> & ->) & _). repeat split; auto.
  - destruct S.
Qed.
Theorem cell_stays l l' : m_cell (actions create parse l mem_new) = Some b -> m_cell (actions create parse (l ++ l') mem_new) = Some b.
Proof.
  intros E. induction l' as [|a l' IH] using rev_ind; [rewrite app_nil_r; exact E|]. rewrite app_assoc, actions_snoc.
  destruct a as [t x|t]; cbn [action].
  - destruct (m_pc _ t); exact IH.
  - pose proof (sound_all (l ++ l')) as S. pose proof (sound_tick t _ S) as S'. unfold Once.tick in *.
    destruct (m_pc (actions create parse (l ++ l') mem_new) t) as [|x|x|x c|x|x|]; try exact IH.
    + destruct (m_once _) eqn:O; exact IH.
    + destruct create; exact IH.
    + cbn [m_cell]. unfold sound in S'. cbn [m_once] in S'. destruct (m_once (actions create parse (l ++ l') mem_new)).
      * destruct S' as ((Z & _) & _). discriminate.
      * destruct S' as (_ & o & _ & [[_ (Z & _)]|[[_ (Z & _)]|(_ & _ & Z & _)]]); try discriminate; exact Z.
      * destruct S' as ((Z & _) & _). exact Z.
      * destruct S'.
Qed.
Theorem nobody_unwound l t : m_pc (actions create parse l mem_new) t <> Unwound.
Proof.
  pose proof (sound_all l) as S. unfold sound in S. intros E. destruct (m_once _).
  - destruct S as (_ & _ & C). destruct (C t) as [Z|[y Z]]; congruence.
  - destruct S as (_ & o & B & C). destruct (Nat.eq_dec t o) as [->|No]; [destruct C as [[[y C] _]|[[[y C] _]|[[y C] _]]]; congruence|]. destruct (B t No) as [Z|[y Z]]; congruence.
  - destruct S as (_ & _ & _ & D). destruct (D t) as [[Z|[y Z]]|[[y Z] _]]; congruence.
  - destruct S.
Qed.

(** ** Every call returns *)
Variable sched : nat -> act.
Hypothesis fair : turns_for_all sched.
Notation at_ n := (mem_at create parse sched n).

Lemma at_sound n : sound (at_ n).
Proof. apply sound_all. Qed.
Lemma first_turn t n : exists m, n <= m /\ sched m = Steps t /\ forall k, n <= k < m -> sched k <> Steps t.
Proof.
  destruct (fair t n) as (m & L & E). remember (m - n) as d eqn:D. revert n L D. induction d as [|d IH]; intros n L D.
  - exists m. split; [exact L|]. split; [exact E|]. intros k. lia.
  - assert (C : sched n = Steps t \/ sched n <> Steps t).
    { destruct (sched n) as [j x|j]; [right; discriminate|]. destruct (Nat.eq_dec j t) as [->|N]; [left; reflexivity | right; congruence]. }
    destruct C as [C|C]; [exists n; split; [auto|]; split; [exact C|]; intros k; lia|].
    destruct (IH (S n)) as (m' & L' & E' & Q); [lia | lia|]. exists m'. split; [lia|]. split; [exact E'|]. intros k Lk. destruct (Nat.eq_dec k n) as [->|]; [exact C | apply Q; lia].
Qed.
Lemma pc_other a m t : (forall x, a <> Calls t x) -> a <> Steps t -> m_pc (step a m) t = m_pc m t.
Proof.
  intros C S. destruct a as [j x|j]; cbn [action].
  - assert (N : t <> j) by (intros ->; exact (C x eq_refl)). destruct (m_pc m j); try reflexivity. unfold go. cbn [m_pc]. apply put_other, N.
  - assert (N : t <> j) by (intros ->; exact (S eq_refl)). unfold Once.tick, go. destruct (m_pc m j); try reflexivity; [destruct (m_once m)|destruct create|..]; cbn [m_pc]; try reflexivity; apply put_other, N.
Qed.
Lemma pc_stays t n m : m_pc (at_ n) t <> Away -> n <= m -> (forall k, n <= k < m -> sched k <> Steps t) -> m_pc (at_ m) t = m_pc (at_ n) t.
Proof.
  intros A L Q. induction m as [|m IH]; [replace n with 0 by lia; reflexivity|]. destruct (Nat.eq_dec n (S m)) as [->|N]; [reflexivity|].
  assert (E : m_pc (at_ m) t = m_pc (at_ n) t) by (apply IH; [lia | intros k Lk; apply Q; lia]). rewrite mem_S. destruct (sched m) as [j x|j] eqn:Es.
  - cbn [action]. destruct (m_pc (at_ m) j) eqn:Ej; try exact E. unfold go. cbn [m_pc]. rewrite put_other; [exact E|]. intros ->. congruence.
  - rewrite pc_other; [exact E | discriminate|]. rewrite <- Es. apply Q. lia.
Qed.
(** The next turn of a thread that is in the function finds it where it was. *)
Lemma next_turn t n : m_pc (at_ n) t <> Away -> exists m, n <= m /\ m_pc (at_ m) t = m_pc (at_ n) t /\ at_ (S m) = tick t (at_ m).
Proof.
  intros A. destruct (first_turn t n) as (m & L & E & Q). exists m. split; [exact L|]. split; [apply pc_stays; assumption|]. rewrite mem_S, E. reflexivity.
Qed.
Lemma complete_step a m : m_once m = Complete -> sound m -> m_once (step a m) = Complete.
Proof.
  intros C S. destruct a as [t x|t]; cbn [action]; [destruct (m_pc m t); exact C|]. unfold Once.tick. destruct (m_pc m t) as [|x|x|x c|x|x|] eqn:E; try exact C; try reflexivity.
  - rewrite C. reflexivity.
  - rewrite works. exact C.
Qed.
Lemma complete_stays n m : m_once (at_ n) = Complete -> n <= m -> m_once (at_ m) = Complete.
Proof. intros C L. induction L as [|m L IH]; [exact C|]. rewrite mem_S. apply complete_step; [exact IH | apply at_sound]. Qed.
Lemma returned_step t a m : returned t (m_rets m) <= returned t (m_rets (step a m)).
Proof.
  destruct a as [j x|j]; cbn [action]; [destruct (m_pc m j); reflexivity|]. unfold Once.tick, go. destruct (m_pc m j); try reflexivity; [destruct (m_once m)|destruct create|]; try reflexivity.
  cbn [m_rets]. unfold returned. cbn [filter]. destruct (Nat.eqb _ t); cbn [length]; lia.
Qed.
Lemma returned_stays t n m : n <= m -> returned t (m_rets (at_ n)) <= returned t (m_rets (at_ m)).
Proof. intros L. induction L as [|m L IH]; [auto|]. rewrite mem_S. pose proof (returned_step t (sched m) (at_ m)). lia. Qed.

Lemma from_reading t n x : m_pc (at_ n) t = Reading x -> exists m, n <= m /\ returned t (m_rets (at_ n)) < returned t (m_rets (at_ m)).
Proof.
  intros E. destruct (next_turn t n) as (m & L & Em & Q); [congruence|]. exists (S m). split; [lia|]. rewrite Q. unfold Once.tick. rewrite Em, E. cbn [m_rets]. unfold returned at 2. cbn [filter r_thread]. rewrite Nat.eqb_refl. cbn [length].
  pose proof (returned_stays t n m L). unfold returned in *. lia.
Qed.
Lemma later t n n' : n <= n' -> (exists m, n' <= m /\ returned t (m_rets (at_ n')) < returned t (m_rets (at_ m))) -> exists m, n <= m /\ returned t (m_rets (at_ n)) < returned t (m_rets (at_ m)).
Proof. intros L (m & Lm & Q). exists m. split; [lia|]. pose proof (returned_stays t n n' L). lia. Qed.
Lemma from_complete t n x : m_once (at_ n) = Complete -> m_pc (at_ n) t = Entering x -> exists m, n <= m /\ returned t (m_rets (at_ n)) < returned t (m_rets (at_ m)).
Proof.
  intros C E. destruct (next_turn t n) as (m & L & Em & Q); [congruence|]. apply (later t n (S m)); [lia|]. apply (from_reading t (S m) x). rewrite Q. unfold Once.tick. rewrite Em, E, (complete_stays n m C L). cbn [m_pc]. apply put_same.
Qed.
Lemma from_leaving t n x : m_pc (at_ n) t = Leaving x -> exists m, n <= m /\ m_once (at_ m) = Complete /\ m_pc (at_ m) t = Reading x.
Proof. intros E. destruct (next_turn t n) as (m & L & Em & Q); [congruence|]. exists (S m). rewrite Q. unfold Once.tick. rewrite Em, E. cbn [m_once m_pc]. rewrite put_same. split; [lia | auto]. Qed.
Lemma from_writing t n x c : m_pc (at_ n) t = Writing x c -> exists m, n <= m /\ m_once (at_ m) = Complete /\ m_pc (at_ m) t = Reading x.
Proof.
  intros E. destruct (next_turn t n) as (m & L & Em & Q); [congruence|]. destruct (from_leaving t (S m) x) as (m' & L' & Q').
  - rewrite Q. unfold Once.tick. rewrite Em, E. cbn [m_pc]. apply put_same.
  - exists m'. split; [lia | exact Q'].
Qed.
Lemma from_creating t n x : m_pc (at_ n) t = Creating x -> exists m, n <= m /\ m_once (at_ m) = Complete /\ m_pc (at_ m) t = Reading x.
Proof.
  intros E. destruct (next_turn t n) as (m & L & Em & Q); [congruence|]. destruct (from_writing t (S m) x b) as (m' & L' & Q').
  - rewrite Q. unfold Once.tick. rewrite Em, E, works. cbn [go m_pc]. apply put_same.
  - exists m'. split; [lia | exact Q'].
Qed.
Lemma running_ends n : m_once (at_ n) = Running -> exists m, n <= m /\ m_once (at_ m) = Complete.
Proof.
  intros E. pose proof (at_sound n) as S. unfold sound in S. rewrite E in S. destruct S as (_ & o & _ & [[[x C] _]|[[[x C] _]|[[x C] _]]]).
  - destruct (from_creating o n x C) as (m & L & Q & _). eauto.
  - destruct (from_writing o n x b C) as (m & L & Q & _). eauto.
  - destruct (from_leaving o n x C) as (m & L & Q & _). eauto.
Qed.
(** Where a waiting thread is at a later time: where it was, or done with waiting. *)
Lemma still t n x m : m_pc (at_ n) t = Entering x -> n <= m -> m_pc (at_ m) t = Entering x \/
  exists k, n <= k < m /\ m_pc (at_ k) t = Entering x /\ (m_pc (at_ (S k)) t = Creating x \/ m_pc (at_ (S k)) t = Reading x).
Proof.
  intros E L. induction L as [|m L [IH|(k & Lk & Q)]]; [left; exact E| |right; exists k; split; [lia | exact Q]].
  rewrite mem_S. destruct (sched m) as [j y|j] eqn:Es.
  - left. cbn [action]. destruct (m_pc (at_ m) j) eqn:Ej; try exact IH. unfold go. cbn [m_pc]. rewrite put_other; [exact IH|]. intros ->. congruence.
  - destruct (Nat.eq_dec j t) as [->|N]; [|left; rewrite pc_other; [exact IH | discriminate | congruence]]. cbn [action]. unfold Once.tick. rewrite IH.
    assert (Q : at_ (S m) = tick t (at_ m)) by (rewrite mem_S, Es; reflexivity). unfold Once.tick in Q. rewrite IH in Q. pose proof (at_sound m) as S. unfold sound in S.
    destruct (m_once (at_ m)) eqn:O.
    + right. exists m. split; [lia|]. split; [exact IH|]. left. rewrite Q. cbn [m_pc]. apply put_same.
    + left. exact IH.
    + right. exists m. split; [lia|]. split; [exact IH|]. right. rewrite Q. cbn [m_pc]. apply put_same.
    + destruct S.
Qed.
Lemma from_entering t n x : m_pc (at_ n) t = Entering x -> exists m, n <= m /\ returned t (m_rets (at_ n)) < returned t (m_rets (at_ m)).
Proof.
  intros E.
  assert (D : forall m, n <= m -> m_once (at_ m) = Complete -> exists m', n <= m' /\ returned t (m_rets (at_ n)) < returned t (m_rets (at_ m'))).
  { intros m L C. destruct (still t n x m E L) as [Q|(k & Lk & _ & [Q|Q])].
    - apply (later t n m L). exact (from_complete t m x C Q).
    - destruct (from_creating t (S k) x Q) as (m' & L' & _ & Q'). apply (later t n m'); [lia|]. exact (from_reading t m' x Q').
    - apply (later t n (S k)); [lia|]. exact (from_reading t (S k) x Q). }
  assert (Rn : forall m, n <= m -> m_once (at_ m) = Running -> exists m', n <= m' /\ returned t (m_rets (at_ n)) < returned t (m_rets (at_ m'))).
  { intros m L C. destruct (running_ends m C) as (m' & L' & Q). apply (D m'); [lia | exact Q]. }
  destruct (next_turn t n) as (m & L & Em & Q); [congruence|]. destruct (m_once (at_ m)) eqn:O.
  - apply (Rn (S m)); [lia|]. rewrite Q. unfold Once.tick. rewrite Em, E, O. reflexivity.
  - exact (Rn m L O).
  - exact (D m L O).
  - pose proof (at_sound m) as S. unfold sound in S. rewrite O in S. destruct S.
Qed.
Theorem calls_return t n : m_pc (at_ n) t <> Away -> exists m, n <= m /\ returned t (m_rets (at_ n)) < returned t (m_rets (at_ m)).
Proof.
  intros A. destruct (m_pc (at_ n) t) as [|x|x|x c|x|x|] eqn:E.
  - destruct (A eq_refl).
  - exact (from_entering t n x E).
  - destruct (from_creating t n x E) as (m & L & _ & Q). exact (later t n m L (from_reading t m x Q)).
  - destruct (from_writing t n x c E) as (m & L & _ & Q). exact (later t n m L (from_reading t m x Q)).
  - destruct (from_leaving t n x E) as (m & L & _ & Q). exact (later t n m L (from_reading t m x Q)).
  - exact (from_reading t n x E).
  - exfalso. revert E. apply nobody_unwound.
Qed.
End Works.

(** ** The creation fails: nobody ever reads the cell *)
Definition barren (m : memory) : Prop :=
  m_rets m = [] /\ m_cell m = None /\ m_once m <> Complete /\ forall t, match m_pc m t with Away | Entering _ | Creating _ | Unwound => True | _ => False end.
Lemma barren_step a m : create = None -> barren m -> barren (step a m).
Proof.
  intros N (A & B & C & D). assert (P : forall t p, match p with Away | Entering _ | Creating _ | Unwound => True | _ => False end ->
    forall j, match at_put t p (m_pc m) j with Away | Entering _ | Creating _ | Unwound => True | _ => False end).
  { intros t p Hp j. destruct (Nat.eq_dec j t) as [->|Nj]; [rewrite put_same; exact Hp | rewrite put_other by exact Nj; apply D]. }
  destruct a as [t x|t]; cbn [action].
  - destruct (m_pc m t); try (split; [|split; [|split]]; assumption). unfold barren, go. cbn. split; [exact A|]. split; [exact B|]. split; [exact C|]. apply P. exact I.
  - unfold Once.tick. pose proof (D t) as Dt. destruct (m_pc m t) as [|x|x|x c|x|x|]; try (split; [|split; [|split]]; assumption); try (destruct Dt).
    + destruct (m_once m) eqn:O.
      * unfold barren. cbn. split; [exact A|]. split; [exact B|]. split; [discriminate|]. apply P. exact I.
      * split; [|split; [|split]]; try assumption. rewrite O. discriminate.
      * destruct (C eq_refl).
      * unfold barren, go. cbn. split; [exact A|]. split; [exact B|]. split; [rewrite O; discriminate|]. apply P. exact I.
    + rewrite N. unfold barren. cbn. split; [exact A|]. split; [exact B|]. split; [discriminate|]. apply P. exact I.
Qed.
Theorem barren_all l : create = None -> barren (actions create parse l mem_new).
Proof.
  intros N. induction l as [|a l IH] using rev_ind; [split; [reflexivity|]; split; [reflexivity|]; split; [discriminate | intros t; exact I]|]. rewrite actions_snoc. apply barren_step; assumption.
Qed.
End OnceProofs.

Theorem nothing_read {U R} (parse : option U -> ustr -> R) l : m_rets (actions None parse l mem_new) = [] /\ forall t, ~ about_to_read t (actions None parse l mem_new).
Proof. destruct (barren_all None parse l eq_refl) as (A & _ & _ & D). split; [exact A|]. intros t [x E]. specialize (D t). rewrite E in D. exact D. Qed.

(** "http://foo/" *)
Lemma base_parsable (E : urlenv) : host_ok true (u "foo") = true -> parse_url (u "http://foo/") = Some (mkUrl (Some [[]]) None).
Proof.
  intros Q. cbv -[host_ok trim_segment enc_caret slash_prefix file_url]. change [102%N; 111%N; 111%N] with (u "foo"). rewrite Q. reflexivity.
Qed.
