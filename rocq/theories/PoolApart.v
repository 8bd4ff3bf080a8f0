(** * A pool's addresses do not touch one another, but for the room: proofs (C96). *)
From Verif Require Import Base Pool PoolSpec PoolProofs PoolApartSpec.
From Coq Require Import Permutation.
Open Scope N_scope.

Section Apart.
Context {C : Type}.
Variables (tmax : Z) (checks : bool) (size : N) (d : Z) (b : saddr).
Notation hist := (list (Z * command C)).
Definition of_b (x : saddr * C) : bool := saddr_eqb (fst x) b.

Lemma deadline_snoc a (past : hist) x : deadline d a (past ++ [x]) = deadline_step d a (deadline d a past) x.
Proof. unfold deadline. rewrite fold_left_app. reflexivity. Qed.
Lemma deadline_own (past : hist) : deadline d b (concerning b past) = deadline d b past.
Proof.
  induction past as [|[now c] past IH] using rev_ind; [reflexivity|]. unfold concerning in *. rewrite filter_app, deadline_snoc. cbn [filter snd]. destruct (saddr_eqb (address c) b) eqn:E.
  - rewrite deadline_snoc, IH. reflexivity.
  - rewrite app_nil_r, IH. destruct c as [a i|a c|a]; cbn in *; rewrite ?E; reflexivity.
Qed.
Lemma take_own l : fst (take_exact b (filter of_b l)) = fst (take_exact b l) /\ filter of_b (snd (take_exact b l)) = snd (take_exact b (filter of_b l)).
Proof.
  induction l as [|[a c] l [IH1 IH2]]; [split; reflexivity|]. cbn [take_exact filter]. change (of_b (a, c)) with (saddr_eqb a b). destruct (saddr_eqb a b) eqn:E.
  - cbn [take_exact]. rewrite E. split; reflexivity.
  - destruct (take_exact b l) as [o r]. cbn [fst snd] in *. split; [exact IH1|]. cbn [filter]. change (of_b (a, c)) with (saddr_eqb a b). rewrite E. exact IH2.
Qed.
Lemma take_other a l : saddr_eqb a b = false -> filter of_b (snd (take_exact a l)) = filter of_b (l : list (saddr * C)).
Proof.
  intros N. induction l as [|[a' c] l IH]; [reflexivity|]. cbn [take_exact]. destruct (saddr_eqb_spec a' a) as [->|Ne].
  - cbn [snd filter]. change (of_b (a, c)) with (saddr_eqb a b). rewrite N. reflexivity.
  - destruct (take_exact a l) as [o r]. cbn [snd filter] in *. destruct (of_b (a', c)); rewrite IH; reflexivity.
Qed.
Lemma filter_shorter {A} (f : A -> bool) l : (length (filter f l) <= length l)%nat.
Proof. induction l as [|x l IH]; [apply Nat.le_refl|]. cbn. destruct (f x); cbn; lia. Qed.
Lemma put_room a (c : C) l : N.of_nat (length (l ++ [(a, c)])) <= size -> put size a c l = l ++ [(a, c)].
Proof. intros L. unfold put. replace (length (l ++ [(a, c)]) - N.to_nat size)%nat with 0%nat by lia. reflexivity. Qed.

(** ** With room *)
Lemma apart : forall (h past : hist) l, (forall h1 h2, h = h1 ++ h2 -> N.of_nat (length (idle_after d past h1 l)) <= size) ->
  answers_for b h (fst (spec_run take_exact size d past h l)) = fst (spec_run take_exact size d (concerning b past) (concerning b h) (filter of_b l)) /\
  filter of_b (snd (spec_run take_exact size d past h l)) = snd (spec_run take_exact size d (concerning b past) (concerning b h) (filter of_b l)).
Proof.
  induction h as [|[now c] h IH]; intros past l Rm; [split; reflexivity|].
  assert (Rm' : forall l', idle_after d past [(now, c)] l = l' -> forall h1 h2, h = h1 ++ h2 -> N.of_nat (length (idle_after d (past ++ [(now, c)]) h1 l')) <= size).
  { intros l' <- h1 h2 ->. exact (Rm ((now, c) :: h1) h2 eq_refl). }
  assert (Co : concerning b (past ++ [(now, c)]) = concerning b past ++ if saddr_eqb (address c) b then [(now, c)] else []) by (unfold concerning; rewrite filter_app; reflexivity).
  pose proof (Rm [(now, c)] h eq_refl) as R1. cbn [concerning filter snd]. fold (concerning b h). destruct c as [a i|a c|a]; cbn [address] in *.
  - cbn [idle_after] in Rm', R1. destruct (saddr_eqb_spec a b) as [->|Ne].
    + cbn [spec_run]. rewrite deadline_own. rewrite <- Co. destruct (take_own l) as [T1 T2].
      assert (Sv : (idle_after d past [(now, AcquireConnection b i)] l = snd (take_exact b l)) ->
        answers_for b ((now, AcquireConnection b i) :: h) (fst (let '(o, l0) := take_exact b l in let '(xs, l1) := spec_run take_exact size d (past ++ [(now, AcquireConnection b i)]) h l0 in ((i, match o with Some c => Idle c | None => Connect end) :: xs, l1))) =
        fst (let '(o, l0) := take_exact b (filter of_b l) in let '(xs, l1) := spec_run take_exact size d (concerning b (past ++ [(now, AcquireConnection b i)])) (concerning b h) l0 in ((i, match o with Some c => Idle c | None => Connect end) :: xs, l1)) /\
        filter of_b (snd (let '(o, l0) := take_exact b l in let '(xs, l1) := spec_run take_exact size d (past ++ [(now, AcquireConnection b i)]) h l0 in ((i, match o with Some c => Idle c | None => Connect end) :: xs, l1))) =
        snd (let '(o, l0) := take_exact b (filter of_b l) in let '(xs, l1) := spec_run take_exact size d (concerning b (past ++ [(now, AcquireConnection b i)])) (concerning b h) l0 in ((i, match o with Some c => Idle c | None => Connect end) :: xs, l1))).
      { intros Is. cbn [idle_after] in Is. destruct (take_exact b l) as [o l0] eqn:T. destruct (take_exact b (filter of_b l)) as [o' l0'] eqn:T'. cbn [fst snd] in T1, T2, Is. subst o' l0'.
        destruct (IH (past ++ [(now, AcquireConnection b i)]) l0 (Rm' l0 Is)) as [I1 I2]. destruct (spec_run take_exact size d (past ++ _) h l0) as [xs l1]. destruct (spec_run take_exact size d (concerning b (past ++ _)) _ _) as [ys l1']. cbn [fst snd answers_for] in *.
        rewrite saddr_eqb_refl, I1. split; [reflexivity | exact I2]. }
      cbn [idle_after] in Sv. destruct (deadline d b past) as [t|].
      * destruct (now <? t)%Z; [|exact (Sv eq_refl)]. destruct (IH (past ++ [(now, AcquireConnection b i)]) l (Rm' l eq_refl)) as [I1 I2].
        destruct (spec_run take_exact size d (past ++ _) h l) as [xs l1]. destruct (spec_run take_exact size d (concerning b (past ++ _)) _ _) as [ys l1']. cbn [fst snd answers_for] in *. rewrite saddr_eqb_refl, I1. split; [reflexivity | exact I2].
      * exact (Sv eq_refl).
    + rewrite app_nil_r in Co. rewrite <- Co. cbn [spec_run]. assert (Nb : saddr_eqb a b = false) by (destruct (saddr_eqb_spec a b); [contradiction | reflexivity]).
      assert (Sv : forall l0 x, (idle_after d past [(now, AcquireConnection a i)] l = l0) -> filter of_b l0 = filter of_b l ->
        answers_for b ((now, AcquireConnection a i) :: h) (fst (let '(xs, l1) := spec_run take_exact size d (past ++ [(now, AcquireConnection a i)]) h l0 in ((i, x) :: xs, l1))) =
        fst (spec_run take_exact size d (concerning b (past ++ [(now, AcquireConnection a i)])) (concerning b h) (filter of_b l)) /\
        filter of_b (snd (let '(xs, l1) := spec_run take_exact size d (past ++ [(now, AcquireConnection a i)]) h l0 in ((i, x) :: xs, l1))) =
        snd (spec_run take_exact size d (concerning b (past ++ [(now, AcquireConnection a i)])) (concerning b h) (filter of_b l))).
      { intros l0 x Is Fl. destruct (IH (past ++ [(now, AcquireConnection a i)]) l0 (Rm' l0 Is)) as [I1 I2]. rewrite Fl in I1, I2. rewrite <- I1, <- I2. destruct (spec_run take_exact size d (past ++ _) h l0) as [xs l1]. cbn [fst snd answers_for]. rewrite Nb. split; reflexivity. }
      cbn [idle_after] in Sv. pose proof (take_other a l Nb) as To. destruct (take_exact a l) as [o l0]. cbn [snd] in Sv, To. destruct (deadline d a past) as [t|]; [destruct (now <? t)%Z|]; apply Sv; auto.
  - cbn [idle_after] in Rm', R1. cbn [spec_run answers_for]. rewrite (put_room a c l R1). destruct (IH (past ++ [(now, ReleaseConnection a c)]) (l ++ [(a, c)]) (Rm' _ eq_refl)) as [I1 I2]. rewrite filter_app in I1, I2. cbn [filter] in I1, I2. change (of_b (a, c)) with (saddr_eqb a b) in I1, I2.
    rewrite I1, I2, Co. destruct (saddr_eqb a b) eqn:E; [|rewrite !app_nil_r; split; reflexivity]. cbn [spec_run]. rewrite put_room; [split; reflexivity|].
    rewrite app_length in *. pose proof (filter_shorter of_b l). cbn [length] in *. lia.
  - cbn [idle_after] in Rm', R1. cbn [spec_run answers_for]. destruct (IH (past ++ [(now, AddToBlacklist a)]) l (Rm' l eq_refl)) as [I1 I2]. rewrite I1, I2, Co. destruct (saddr_eqb a b); [split; reflexivity | rewrite app_nil_r; split; reflexivity].
Qed.

(** ** Suspension, whatever the room *)
Lemma apart_suspended : forall (h past : hist) l l',
  map suspension (answers_for b h (fst (spec_run take_exact size d past h l))) = map suspension (fst (spec_run take_exact size d (concerning b past) (concerning b h) l')).
Proof.
  induction h as [|[now c] h IH]; intros past l l'; [reflexivity|].
  assert (Co : concerning b (past ++ [(now, c)]) = concerning b past ++ if saddr_eqb (address c) b then [(now, c)] else []) by (unfold concerning; rewrite filter_app; reflexivity).
  cbn [concerning filter snd]. fold (concerning b h). destruct c as [a i|a c|a]; cbn [address] in *.
  - destruct (saddr_eqb_spec a b) as [->|Ne].
    + cbn [spec_run]. rewrite deadline_own. rewrite <- Co. destruct (take_exact b l) as [o l0]. destruct (take_exact b l') as [o' l0'].
      pose proof (IH (past ++ [(now, AcquireConnection b i)]) l l') as I1. pose proof (IH (past ++ [(now, AcquireConnection b i)]) l0 l0') as I2.
      destruct (spec_run take_exact size d (past ++ _) h l) as [xs l1]. destruct (spec_run take_exact size d (past ++ _) h l0) as [xs0 l2]. destruct (spec_run take_exact size d (concerning b (past ++ _)) _ l') as [ys l1']. destruct (spec_run take_exact size d (concerning b (past ++ _)) _ l0') as [ys0 l2'].
      cbn [fst] in I1, I2. destruct (deadline d b past) as [t|]; [destruct (now <? t)%Z|]; cbn [fst answers_for]; rewrite saddr_eqb_refl; cbn [map]; rewrite ?I1, ?I2; f_equal; destruct o, o'; reflexivity.
    + rewrite app_nil_r in Co. rewrite <- Co. cbn [spec_run]. assert (Nb : saddr_eqb a b = false) by (destruct (saddr_eqb_spec a b); [contradiction | reflexivity]). destruct (take_exact a l) as [o l0].
      rewrite <- (IH (past ++ [(now, AcquireConnection a i)]) l l') at 1.
      pose proof (IH (past ++ [(now, AcquireConnection a i)]) l l') as I1. pose proof (IH (past ++ [(now, AcquireConnection a i)]) l0 l') as I2.
      destruct (spec_run take_exact size d (past ++ _) h l) as [xs l1]. destruct (spec_run take_exact size d (past ++ _) h l0) as [xs0 l2]. cbn [fst] in I1, I2.
      destruct (deadline d a past) as [t|]; [destruct (now <? t)%Z|]; cbn [fst answers_for]; rewrite Nb; congruence.
  - cbn [spec_run answers_for]. destruct (saddr_eqb a b); [cbn [spec_run]; rewrite <- Co; apply IH | rewrite app_nil_r in Co; rewrite <- Co; apply IH].
  - cbn [spec_run answers_for]. destruct (saddr_eqb a b); [cbn [spec_run]; rewrite <- Co; apply IH | rewrite app_nil_r in Co; rewrite <- Co; apply IH].
Qed.

(** ** The pool *)
Lemma concerning_fits (h : hist) : releases h <= u64_max -> representable tmax d h -> unaliased h ->
  releases (concerning b h) <= u64_max /\ representable tmax d (concerning b h) /\ unaliased (concerning b h).
Proof.
  intros R Rp Un. split; [|split].
  - unfold releases in *. assert (L : (length (filter is_release (concerning b h)) <= length (filter is_release h))%nat); [|lia].
    clear. unfold concerning. induction h as [|x h IH]; [apply Nat.le_refl|]. cbn. destruct (saddr_eqb _ _); cbn; destruct (is_release x); cbn; lia.
  - intros now a I. apply filter_In in I. exact (Rp now a (proj1 I)).
  - intros x y Ix Iy. apply filter_In in Ix. apply filter_In in Iy. exact (Un x y (proj1 Ix) (proj1 Iy)).
Qed.
Definition idle_of (p : pool C) : list (saddr * C) := map (fun x => (id_addr (fst x), snd x)) (p_conns p).
Lemma filter_perm {A} (f : A -> bool) l l' : Permutation l l' -> Permutation (filter f l) (filter f l').
Proof.
  induction 1 as [|x l l' P IH|x y l|l l' l'' P1 IH1 P2 IH2]; cbn.
  - constructor.
  - destruct (f x); [constructor|]; exact IH.
  - destruct (f x), (f y); try constructor; apply Permutation_refl.
  - exact (Permutation_trans IH1 IH2).
Qed.
Theorem isolated (h : hist) : releases h <= u64_max -> representable tmax d h -> unaliased h -> roomy size d h -> exists xs p ys q,
  run tmax checks h (pool_new size d) = Ok (xs, p) /\ run tmax checks (concerning b h) (pool_new size d) = Ok (ys, q) /\
  answers_for b h xs = ys /\ Permutation (filter of_b (idle_of p)) (idle_of q).
Proof.
  intros R Rp Un Rm. destruct (concerning_fits h R Rp Un) as (R' & Rp' & Un'). destruct (pool_refines_exact tmax checks size d h R Rp Un) as [p [E P]]. destruct (pool_refines_exact tmax checks size d (concerning b h) R' Rp' Un') as [q [E' P']].
  destruct (apart h [] [] Rm) as [A1 A2]. eexists _, p, _, q. split; [exact E|]. split; [exact E'|]. split; [exact A1|].
  apply (Permutation_trans (filter_perm of_b _ _ P)). rewrite A2. apply Permutation_sym. exact P'.
Qed.
Theorem suspended_alone (h : hist) : releases h <= u64_max -> representable tmax d h -> unaliased h -> exists xs p ys q,
  run tmax checks h (pool_new size d) = Ok (xs, p) /\ run tmax checks (concerning b h) (pool_new size d) = Ok (ys, q) /\
  map suspension (answers_for b h xs) = map suspension ys.
Proof.
  intros R Rp Un. destruct (concerning_fits h R Rp Un) as (R' & Rp' & Un'). destruct (pool_refines_exact tmax checks size d h R Rp Un) as [p [E P]]. destruct (pool_refines_exact tmax checks size d (concerning b h) R' Rp' Un') as [q [E' P']].
  eexists _, p, _, q. split; [exact E|]. split; [exact E'|]. exact (apart_suspended h [] [] []).
Qed.
End Apart.

(** ** Without room *)
Section Crowded.
Context {C : Type}.
Variables (tmax : Z) (checks : bool) (size : N) (d : Z) (a b : saddr) (c c' : C).
Notation give := (0%Z, ReleaseConnection a c').
Lemma fill : forall n (past r : list (Z * command C)) l, N.of_nat (length l + n) <= size ->
  spec_run take_exact size d past (repeat give n ++ r) l = spec_run take_exact size d (past ++ repeat give n) r (l ++ repeat (a, c') n).
Proof.
  induction n as [|n IH]; intros past r l L; cbn [repeat app]; [rewrite !app_nil_r; reflexivity|]. cbn [spec_run]. rewrite put_room by (rewrite app_length; cbn [length]; lia).
  rewrite IH by (rewrite app_length; cbn [length]; lia). rewrite <- !app_assoc. reflexivity.
Qed.
Lemma never_failed x (past : list (Z * command C)) : Forall (fun y => is_release y = true) past -> deadline d x past = None.
Proof.
  induction past as [|[now k] past IH] using rev_ind; intros Fr; [reflexivity|]. apply Forall_app in Fr. destruct Fr as [F1 F2]. rewrite deadline_snoc, (IH F1). inversion F2 as [|y z F3 _]. destruct k; cbn in *; congruence.
Qed.
Definition pushing : list (Z * command C) := (0%Z, ReleaseConnection b c) :: repeat give (N.to_nat size).
Theorem pushed_out : 1 <= size -> size + 1 <= u64_max -> same_endpoint a b = false -> exists p q,
  let h := pushing ++ [(0%Z, AcquireConnection b 0%nat)] in
  unaliased h /\ run tmax checks h (pool_new size d) = Ok ([(0%nat, Connect)], p) /\ run tmax checks (concerning b h) (pool_new size d) = Ok ([(0%nat, Idle c)], q).
Proof.
  intros L1 L2 Ne. cbv zeta. set (h := pushing ++ [(0%Z, AcquireConnection b 0%nat)]). assert (Nab : saddr_eqb a b = false) by (destruct (saddr_eqb_spec a b) as [->|]; [rewrite same_endpoint_refl in Ne; discriminate | reflexivity]).
  assert (Nba : same_endpoint b a = false) by (destruct (same_endpoint b a) eqn:E; [|reflexivity]; apply same_endpoint_iff in E; rewrite <- Ne; symmetry; apply same_endpoint_iff; intuition congruence).
  assert (Ad : forall x, In x h -> address (snd x) = a \/ address (snd x) = b).
  { intros x I. unfold h, pushing in I. apply in_app_iff in I. destruct I as [[<-|I]|[<-|[]]]; [right; reflexivity | apply repeat_spec in I; subst x; left; reflexivity | right; reflexivity]. }
  assert (Un : unaliased h).
  { intros x y Ix Iy. destruct (Ad x Ix) as [-> | ->], (Ad y Iy) as [-> | ->]; intros E; congruence. }
  assert (Rp : representable tmax d h).
  { intros now x I. unfold h, pushing in I. apply in_app_iff in I. destruct I as [[[=]|I]|[[=]|[]]]. apply repeat_spec in I. discriminate. }
  assert (Rl : forall n, filter is_release (repeat give n) = repeat give n) by (induction n as [|n IH]; [reflexivity | cbn; f_equal; exact IH]).
  assert (R : releases h <= u64_max).
  { unfold releases, h, pushing. rewrite filter_app, app_length. cbn [filter is_release snd length]. rewrite Rl, repeat_length. lia. }
  assert (Co : concerning b h = [(0%Z, ReleaseConnection b c); (0%Z, AcquireConnection b 0%nat)]).
  { unfold h, pushing, concerning. cbn [app filter snd address]. rewrite saddr_eqb_refl, filter_app. cbn [filter snd address]. rewrite saddr_eqb_refl. f_equal.
    replace (filter _ (repeat give (N.to_nat size))) with (@nil (Z * command C)); [reflexivity|]. generalize (N.to_nat size). induction n as [|n IH]; [reflexivity|]. cbn [repeat filter snd address]. rewrite Nab. exact IH. }
  destruct (concerning_fits tmax d b h R Rp Un) as (R' & Rp' & Un'). destruct (pool_refines_exact tmax checks size d h R Rp Un) as [p [E _]]. destruct (pool_refines_exact tmax checks size d (concerning b h) R' Rp' Un') as [q [E' _]].
  exists p, q. split; [exact Un|]. rewrite E, E'. split.
  - f_equal. f_equal. unfold h, pushing. replace (N.to_nat size) with (N.to_nat (size - 1) + 1)%nat by lia. rewrite repeat_app. cbn [app spec_run]. rewrite put_room by (cbn; lia). rewrite <- app_assoc. cbn [app]. rewrite fill by (cbn [length]; lia).
    cbn [repeat app spec_run]. rewrite never_failed.
    + set (l := put _ _ _ _). assert (T : take_exact b l = (None, l)).
      { apply take_exact_none. split; [reflexivity|]. intros k I. unfold l, put in I. cbn [app] in I. match type of I with In _ (skipn ?m _) => replace m with 1%nat in I by (cbn [length]; rewrite app_length, repeat_length; cbn [length]; lia) end. cbn [skipn] in I.
        apply in_app_iff in I. destruct I as [I|[I|[]]]; [apply repeat_spec in I|]; injection I as I _; rewrite I, saddr_eqb_refl in Nab; discriminate. }
      rewrite T. reflexivity.
    + cbn [app]. constructor; [reflexivity|]. apply Forall_app. split; [|constructor; [reflexivity | constructor]]. apply Forall_forall. intros x I. apply repeat_spec in I. subst x. reflexivity.
  - rewrite Co. cbn [spec_run]. rewrite put_room by (cbn; lia). cbn [app take_exact]. rewrite saddr_eqb_refl. reflexivity.
Qed.
End Crowded.
