(** * The pool does what PoolSpec.v says. *)
From Coq Require Import Sorting.Sorted Sorting.Permutation.
From Verif Require Import Base Pool PoolSpec.
Open Scope N_scope.

(** ** Addresses *)
Lemma saddr_eqb_spec a b : reflect (a = b) (saddr_eqb a b).
Proof.
  destruct a as [i p|i p f s], b as [i' p'|i' p' f' s']; cbn [saddr_eqb]; try (constructor; discriminate).
  - destruct (N.eqb_spec i i'), (N.eqb_spec p p'); cbn [andb]; constructor; congruence.
  - destruct (N.eqb_spec i i'), (N.eqb_spec p p'), (N.eqb_spec f f'), (N.eqb_spec s s'); cbn [andb]; constructor; congruence.
Qed.
Lemma saddr_eqb_refl a : saddr_eqb a a = true.
Proof. destruct (saddr_eqb_spec a a); [reflexivity | congruence]. Qed.

Definition cid_lt (x y : cid) : Prop :=
  let a := id_addr x in let b := id_addr y in
  ip_fam a < ip_fam b \/ ip_fam a = ip_fam b /\ (ip_of a < ip_of b \/ ip_of a = ip_of b /\
    (port_of a < port_of b \/ port_of a = port_of b /\ id_seq x < id_seq y)).
Definition cid_eqv (x y : cid) : Prop :=
  ip_fam (id_addr x) = ip_fam (id_addr y) /\ ip_of (id_addr x) = ip_of (id_addr y) /\ port_of (id_addr x) = port_of (id_addr y) /\ id_seq x = id_seq y.
Lemma cid_cmp_spec x y : match cid_cmp x y with Lt => cid_lt x y | Eq => cid_eqv x y | Gt => cid_lt y x end.
Proof.
  unfold cid_cmp, cid_lt, cid_eqv, then_cmp.
  destruct (N.compare_spec (ip_fam (id_addr x)) (ip_fam (id_addr y))) as [E1|L1|L1]; try (left; lia).
  destruct (N.compare_spec (ip_of (id_addr x)) (ip_of (id_addr y))) as [E2|L2|L2]; try lia.
  destruct (N.compare_spec (port_of (id_addr x)) (port_of (id_addr y))) as [E3|L3|L3]; try lia.
  destruct (N.compare_spec (id_seq x) (id_seq y)) as [E4|L4|L4]; lia.
Qed.

(** ** Sorted maps *)
Section Maps.
  Context {K V : Type}.
  Variables (cmp : K -> K -> comparison) (lt eqv : K -> K -> Prop).
  Hypotheses (lt_trans : forall x y z, lt x y -> lt y z -> lt x z) (lt_irrefl : forall x, ~ lt x x)
    (eqv_sym : forall x y, eqv x y -> eqv y x)
    (eqv_lt_l : forall x y z, eqv x y -> lt x z -> lt y z)
    (cmp_spec : forall x y, match cmp x y with Lt => lt x y | Eq => eqv x y | Gt => lt y x end).

  Definition sorted (l : list (K * V)) : Prop := StronglySorted (fun a b => lt (fst a) (fst b)) l.

  Lemma sorted_app l1 x l2 : sorted (l1 ++ x :: l2) -> Forall (fun y => lt (fst y) (fst x)) l1 /\ Forall (fun y => lt (fst x) (fst y)) l2 /\ sorted (l1 ++ l2).
  Proof.
    induction l1 as [|y l1 IH]; cbn [app]; intros S; inversion S as [|? ? S1 F]; subst.
    - split; [constructor|]. split; assumption.
    - destruct (IH S1) as (A & B & D). rewrite Forall_app in F. destruct F as [F1 F2]. inversion F2; subst. split; [constructor; assumption|].
      split; [exact B|]. constructor; [exact D|]. apply Forall_app. auto.
  Qed.
  Lemma cmp_gt k k' : lt k' k -> cmp k k' = Gt.
  Proof.
    intros L. pose proof (cmp_spec k k') as S. destruct (cmp k k'); [|exfalso; exact (lt_irrefl _ (lt_trans _ _ _ L S))|reflexivity].
    exfalso. apply eqv_sym in S. apply (lt_irrefl k). eapply eqv_lt_l; eassumption.
  Qed.
  Lemma cmp_refl k : cmp k k = Eq.
  Proof. pose proof (cmp_spec k k) as S. destruct (cmp k k); [reflexivity | elim (lt_irrefl _ S) | elim (lt_irrefl _ S)]. Qed.

  Lemma remove_at k (v : V) l1 l2 : sorted (l1 ++ (k, v) :: l2) -> bt_remove cmp k (l1 ++ (k, v) :: l2) = (Some v, l1 ++ l2).
  Proof.
    induction l1 as [|[k' v'] l1 IH]; intros S; cbn [app bt_remove].
    - rewrite cmp_refl. reflexivity.
    - destruct (sorted_app ((k', v') :: l1) (k, v) l2 S) as (F & _). inversion F as [|? ? L _]; subst. cbn [fst] in L. rewrite (cmp_gt _ _ L).
      inversion S; subst. rewrite IH by assumption. reflexivity.
  Qed.
  Lemma insert_last k (v : V) l : Forall (fun y => lt (fst y) k) l -> bt_insert cmp k v l = l ++ [(k, v)].
  Proof.
    induction 1 as [|[k' v'] l L F IH]; [reflexivity|]. cbn [bt_insert app]. cbn [fst] in L. rewrite (cmp_gt _ _ L), IH. reflexivity.
  Qed.
  Lemma insert_new k (v : V) l : sorted l -> Forall (fun y => ~ eqv k (fst y)) l -> sorted (bt_insert cmp k v l) /\ Permutation (bt_insert cmp k v l) ((k, v) :: l).
  Proof.
    induction l as [|[k' v'] l IH]; intros S F; cbn [bt_insert]; [split; [repeat constructor | reflexivity]|].
    inversion S as [|? ? S1 F1]; subst. inversion F as [|? ? N F2]; subst. cbn [fst] in *. pose proof (cmp_spec k k') as Sp. destruct (cmp k k').
    - contradiction.
    - split; [|reflexivity]. constructor; [exact S|]. constructor; [exact Sp|]. eapply Forall_impl; [|exact F1]. intros y Ly. eapply lt_trans; eassumption.
    - destruct (IH S1 F2) as [A P]. split.
      + constructor; [exact A|]. apply Forall_forall. intros y I. apply (Permutation_in _ P) in I. destruct I as [<-|I]; [exact Sp|].
        rewrite Forall_forall in F1. apply F1, I.
      + rewrite P. apply perm_swap.
  Qed.
  Lemma from_split lower (l : list (K * V)) : exists l1, l = l1 ++ bt_from cmp lower l /\ Forall (fun y => lt (fst y) lower) l1 /\
    match bt_from cmp lower l with [] => True | x :: _ => ~ lt (fst x) lower end.
  Proof.
    induction l as [|[k v] l IH]; cbn [bt_from]; [exists []; repeat split; constructor|].
    pose proof (cmp_spec k lower) as S. destruct (cmp k lower).
    - exists []. repeat split; [constructor|]. intros L. cbn [fst] in L. exact (lt_irrefl _ (eqv_lt_l _ _ _ S L)).
    - destruct IH as (l1 & E & F & M). exists ((k, v) :: l1). split; [cbn; congruence|]. split; [constructor; assumption | exact M].
    - exists []. repeat split; [constructor|]. intros L. exact (lt_irrefl _ (lt_trans _ _ _ L S)).
  Qed.
  Lemma remove_length k (l : list (K * V)) : (length (snd (bt_remove cmp k l)) <= length l)%nat.
  Proof.
    clear lt_trans lt_irrefl eqv_sym eqv_lt_l cmp_spec lt eqv.
    induction l as [|[k' v'] l IH]; cbn [bt_remove]; [apply le_n|]. destruct (cmp k k'); cbn; [lia|lia|].
    destruct (bt_remove cmp k l) as [o r]. cbn in *. lia.
  Qed.
End Maps.

Lemma N_cmp_spec x y : match N.compare x y with Lt => x < y | Eq => x = y | Gt => y < x end.
Proof. destruct (N.compare_spec x y); assumption. Qed.
Lemma cid_lt_trans x y z : cid_lt x y -> cid_lt y z -> cid_lt x z.
Proof. unfold cid_lt. lia. Qed.
Lemma cid_lt_irrefl x : ~ cid_lt x x.
Proof. unfold cid_lt. lia. Qed.
Lemma cid_eqv_sym x y : cid_eqv x y -> cid_eqv y x.
Proof. unfold cid_eqv. lia. Qed.
Lemma cid_eqv_lt x y z : cid_eqv x y -> cid_lt x z -> cid_lt y z.
Proof. unfold cid_eqv, cid_lt. lia. Qed.
Lemma N_eqv_lt (x y z : N) : x = y -> x < z -> y < z.
Proof. lia. Qed.

(** ** The blacklist *)
Fixpoint hm_find (a : saddr) (l : list (saddr * Z)) : option Z :=
  match l with [] => None | (b, t) :: r => if saddr_eqb a b then Some t else hm_find a r end.
Lemma hm_remove_spec a l : fst (hm_remove a l) = hm_find a l /\
  (NoDup (map fst l) -> NoDup (map fst (snd (hm_remove a l))) /\ ~ In a (map fst (snd (hm_remove a l))) /\ hm_find a (snd (hm_remove a l)) = None) /\
  (forall b, b <> a -> hm_find b (snd (hm_remove a l)) = hm_find b l) /\ incl (map fst (snd (hm_remove a l))) (map fst l).
Proof.
  induction l as [|[b t] l IH]; cbn [hm_remove hm_find map fst snd]; [repeat split; auto; intros ? []|].
  destruct (saddr_eqb_spec a b) as [->|N]; cbn [fst snd].
  - repeat split.
    + inversion H; assumption.
    + inversion H; assumption.
    + inversion H as [|? ? N1 N2]; subst. clear - N1. induction l as [|[c t'] l IH]; [reflexivity|]. cbn [hm_find].
      destruct (saddr_eqb_spec b c) as [->|]; [elim N1; left; reflexivity|]. apply IH. intros I. apply N1. right. exact I.
    + intros c Nc. destruct (saddr_eqb_spec c b); [contradiction | reflexivity].
    + intros c I. right. exact I.
  - destruct (hm_remove a l) as [o r]. cbn [fst snd map hm_find] in *. destruct IH as (I1 & I2 & I3 & I4). split; [exact I1|]. split; [|split].
    + intros D. inversion D as [|? ? N1 N2]; subst. destruct (I2 N2) as (J1 & J2 & J3). split; [constructor; [|exact J1]; intros I; apply N1, I4, I|].
      split; [intros [E|I]; [congruence | exact (J2 I)]|]. destruct (saddr_eqb_spec a b); [congruence | exact J3].
    + intros c Nc. destruct (saddr_eqb_spec c b); [reflexivity | apply I3, Nc].
    + intros c [E|I]; [left; exact E | right; apply I4, I].
Qed.
Lemma hm_insert_spec a t l : NoDup (map fst l) -> NoDup (map fst (hm_insert a t l)) /\
  forall b, hm_find b (hm_insert a t l) = if saddr_eqb b a then Some t else hm_find b l.
Proof.
  intros D. unfold hm_insert. destruct (hm_remove_spec a l) as (_ & R2 & R3 & _). destruct (R2 D) as (A & B & _). split; [constructor; assumption|].
  intros b. cbn [hm_find]. destruct (saddr_eqb_spec b a); [reflexivity | apply R3; assumption].
Qed.

(** ** The connections *)
Section Refine.
  Context {C : Type}.
  Variables (tmax : Z) (checks : bool).

  (** The idle connections with the numbers of their releases. *)
  Local Notation entry := (N * (saddr * C))%type.
  Definition entry_id (x : entry) : cid := mkCid (fst (snd x)) (fst x).
  Definition by_seq (l : list entry) : Prop := StronglySorted (fun x y => fst x < fst y) l.
  Definition inv (p : pool C) (l : list entry) : Prop :=
    p_lru p = map (fun x => (fst x, fst (snd x))) l /\ by_seq l /\ Forall (fun x => fst x < p_seq p) l /\
    sorted cid_lt (p_conns p) /\ Permutation (p_conns p) (map (fun x => (entry_id x, snd (snd x))) l).

  Lemma by_seq_inj l x y : by_seq l -> In x l -> In y l -> fst x = fst y -> x = y.
  Proof.
    induction l as [|z l IH]; intros S Ix Iy E; [contradiction|]. inversion S as [|? ? S1 F]; subst. rewrite Forall_forall in F.
    destruct Ix as [->|Ix], Iy as [->|Iy]; auto.
    - specialize (F y Iy). cbv beta in F. lia.
    - specialize (F x Ix). cbv beta in F. lia.
  Qed.
  Lemma by_seq_app l1 x l2 : by_seq (l1 ++ x :: l2) -> Forall (fun y => fst y < fst x) l1 /\ by_seq (l1 ++ l2).
  Proof.
    intros S. unfold by_seq in *. induction l1 as [|y l1 IH]; cbn [app] in *; inversion S as [|? ? S1 F]; subst; [split; [constructor | exact S1]|].
    destruct (IH S1) as (A & B). rewrite Forall_app in F. destruct F as [F1 F2]. inversion F2; subst. split; [constructor; assumption|].
    constructor; [exact B|]. apply Forall_app. auto.
  Qed.
  Lemma lru_sorted l : by_seq l -> sorted (V := saddr) N.lt (map (fun x : entry => (fst x, fst (snd x))) l).
  Proof.
    intros S. induction S as [|x l S IH F]; [constructor|]. constructor; [exact IH|]. apply Forall_forall. intros y I. apply in_map_iff in I.
    destruct I as (z & <- & I). rewrite Forall_forall in F. apply F, I.
  Qed.

  (** Taking one entry out of both maps. *)
  Lemma inv_remove p l1 x l2 black : inv p (l1 ++ x :: l2) ->
    exists conns, bt_remove cid_cmp (entry_id x) (p_conns p) = (Some (snd (snd x)), conns) /\
      inv (mkPool (p_size p) conns (snd (bt_remove N.compare (fst x) (p_lru p))) (p_seq p) black (p_susp p)) (l1 ++ l2) /\
      length (p_conns p) = S (length conns).
  Proof.
    intros (L & S & B & Sc & P).
    assert (I : In (entry_id x, snd (snd x)) (p_conns p)).
    { apply (Permutation_in _ (Permutation_sym P)). apply in_map_iff. exists x. split; [reflexivity|]. apply in_or_app. right. left. reflexivity. }
    apply in_split in I. destruct I as (c1 & c2 & E). rewrite E in *.
    pose proof (remove_at cid_cmp cid_lt cid_eqv cid_lt_trans cid_lt_irrefl cid_eqv_sym cid_eqv_lt cid_cmp_spec (entry_id x) (snd (snd x)) c1 c2 Sc) as R.
    exists (c1 ++ c2). split; [exact R|]. split; [|rewrite !app_length; cbn; lia].
    destruct (sorted_app cid_lt c1 _ c2 Sc) as (_ & _ & Sc'). destruct (by_seq_app _ _ _ S) as (F1 & S').
    split; [|split; [exact S'|split; [|split; [exact Sc'|]]]]; cbn [p_lru p_seq p_conns].
    - rewrite L, map_app. cbn [map]. rewrite (remove_at N.compare N.lt eq N.lt_trans N.lt_irrefl (@eq_sym N) N_eqv_lt N_cmp_spec (fst x) (fst (snd x)));
        [rewrite map_app; reflexivity|]. pose proof (lru_sorted _ S) as Q. rewrite map_app in Q. exact Q.
    - rewrite Forall_app in *. destruct B as [B1 B2]. inversion B2; subst. auto.
    - rewrite map_app in *. cbn [map] in P. apply Permutation_app_inv in P. rewrite P. reflexivity.
  Qed.

  Lemma take_split (a : saddr) (l1 : list entry) x l2 : Forall (fun y => same_endpoint (fst (snd y)) a = false) l1 -> same_endpoint (fst (snd x)) a = true ->
    take a (map snd (l1 ++ x :: l2)) =
      if saddr_eqb (fst (snd x)) a then (Some (snd (snd x)), map snd (l1 ++ l2)) else (None, map snd (l1 ++ x :: l2)).
  Proof.
    intros F E. induction F as [|[s [b c]] l1 N F IH]; cbn [app map take snd fst].
    - destruct x as [s [b c]]. cbn [snd fst] in *. rewrite E. reflexivity.
    - cbn [snd fst] in N. rewrite N. cbn [app map] in IH. rewrite IH. destruct (saddr_eqb (fst (snd x)) a); reflexivity.
  Qed.
  Lemma take_none (a : saddr) (l : list entry) : Forall (fun y => same_endpoint (fst (snd y)) a = false) l -> take a (map snd l) = (None, map snd l).
  Proof. induction 1 as [|[s [b c]] l N F IH]; [reflexivity|]. cbn [map take snd fst] in *. rewrite N, IH. reflexivity. Qed.

  Lemma same_endpoint_iff a b : same_endpoint a b = true <-> ip_fam a = ip_fam b /\ ip_of a = ip_of b /\ port_of a = port_of b.
  Proof. unfold same_endpoint. rewrite !andb_true_iff, !N.eqb_eq. tauto. Qed.
  Lemma same_endpoint_false a b : same_endpoint a b = false <-> ~ (ip_fam a = ip_fam b /\ ip_of a = ip_of b /\ port_of a = port_of b).
  Proof. rewrite <- same_endpoint_iff. destruct (same_endpoint a b); split; congruence. Qed.

  Lemma acquire_refines a p l : inv p l -> exists p' l',
    acquire_connection a p = Ok (match fst (take a (map snd l)) with Some c => Idle c | None => Connect end, p') /\ inv p' l' /\
    map snd l' = snd (take a (map snd l)) /\ p_size p' = p_size p /\ p_black p' = p_black p /\ p_susp p' = p_susp p /\ p_seq p' = p_seq p.
  Proof.
    intros Iv. pose proof Iv as (L & S & B & Sc & P). unfold acquire_connection.
    destruct (from_split cid_cmp cid_lt cid_eqv cid_lt_trans cid_lt_irrefl cid_eqv_lt cid_cmp_spec (mkCid a 0) (p_conns p)) as (c1 & E & F & M).
    assert (Low : forall y, In y l -> same_endpoint (fst (snd y)) a = true -> In (entry_id y, snd (snd y)) (bt_from cid_cmp (mkCid a 0) (p_conns p))).
    { intros y I Se. assert (J : In (entry_id y, snd (snd y)) (p_conns p)).
      { apply (Permutation_in _ (Permutation_sym P)), in_map_iff. exists y. auto. }
      rewrite E in J. apply in_app_or in J. destruct J as [J|J]; [|exact J]. exfalso. rewrite Forall_forall in F. specialize (F _ J).
      cbn [fst] in F. unfold cid_lt, entry_id in F. cbn [id_addr id_seq] in F. apply same_endpoint_iff in Se. lia. }
    destruct (bt_from cid_cmp (mkCid a 0) (p_conns p)) as [|[id c] c2].
    - exists p, l. assert (N : Forall (fun y => same_endpoint (fst (snd y)) a = false) l).
      { apply Forall_forall. intros y I. destruct (same_endpoint (fst (snd y)) a) eqn:Se; [elim (Low y I Se) | reflexivity]. }
      rewrite (take_none a l N). cbn [fst snd]. auto 10.
    - cbn [fst] in M.
      assert (J : In (id, c) (map (fun x : entry => (entry_id x, snd (snd x))) l)).
      { apply (Permutation_in _ P). rewrite E. apply in_or_app. right. left. reflexivity. }
      apply in_map_iff in J. destruct J as (x & [= <- <-] & Ix). cbn [entry_id id_addr id_seq].
      assert (Sc2 : Forall (fun y => cid_lt (entry_id x) (fst y)) c2).
      { rewrite E in Sc. destruct (sorted_app cid_lt c1 _ c2 Sc) as (_ & G & _). exact G. }
      destruct (same_endpoint (fst (snd x)) a) eqn:Se.
      + pose proof Ix as Ix'. apply in_split in Ix'. destruct Ix' as (l1 & l2 & El). subst l.
        assert (N : Forall (fun y => same_endpoint (fst (snd y)) a = false) l1).
        { apply Forall_forall. intros y I. destruct (same_endpoint (fst (snd y)) a) eqn:Sy; [|reflexivity]. exfalso.
          destruct (by_seq_app _ _ _ S) as (F1 & _). rewrite Forall_forall in F1. specialize (F1 y I). cbv beta in F1.
          assert (Iy : In y (l1 ++ x :: l2)) by (apply in_or_app; left; exact I).
          apply same_endpoint_iff in Se. destruct (Low y Iy Sy) as [Ey|Iy2].
          - apply (f_equal (fun q => id_seq (fst q))) in Ey. cbn [fst entry_id id_seq] in Ey. lia.
          - rewrite Forall_forall in Sc2. specialize (Sc2 _ Iy2). cbn [fst] in Sc2. unfold cid_lt, entry_id in Sc2. cbn [id_addr id_seq] in Sc2.
            apply same_endpoint_iff in Sy. lia. }
        rewrite (take_split a l1 x l2 N Se). destruct (saddr_eqb_spec (fst (snd x)) a) as [Ea|Na].
        * destruct (inv_remove p l1 x l2 (p_black p) Iv) as (conns & R & Iv' & _). rewrite R. eexists _, (l1 ++ l2). split; [reflexivity|].
          split; [exact Iv'|]. cbn. auto.
        * exists p, (l1 ++ x :: l2). cbn [fst snd]. auto 10.
      + assert (N : Forall (fun y => same_endpoint (fst (snd y)) a = false) l).
        { apply Forall_forall. intros y I. destruct (same_endpoint (fst (snd y)) a) eqn:Sy; [|reflexivity]. exfalso.
          apply same_endpoint_false in Se. destruct (Low y I Sy) as [Ey|Iy2].
          - apply (f_equal (fun q => id_addr (fst q))) in Ey. cbn [fst entry_id id_addr] in Ey. rewrite Ey in Se. apply same_endpoint_iff in Sy. tauto.
          - rewrite Forall_forall in Sc2. specialize (Sc2 _ Iy2). cbn [fst] in Sc2. unfold cid_lt, entry_id in Sc2, M. cbn [id_addr id_seq] in Sc2, M.
            apply same_endpoint_iff in Sy. lia. }
        rewrite (take_none a l N). destruct (saddr_eqb_spec (fst (snd x)) a) as [Ea|Na].
        * exfalso. apply same_endpoint_false in Se. rewrite Ea in Se. tauto.
        * exists p, l. cbn [fst snd]. auto 10.
  Qed.

  Lemma inv_length p l : inv p l -> length (p_conns p) = length l.
  Proof. intros (_ & _ & _ & _ & P). rewrite (Permutation_length P), map_length. reflexivity. Qed.

  Lemma drop_refines : forall fuel p l, inv p l -> (length l < fuel)%nat -> exists p',
    drop_exceeded fuel p = Ok p' /\ inv p' (skipn (length l - N.to_nat (p_size p)) l) /\
    p_size p' = p_size p /\ p_black p' = p_black p /\ p_susp p' = p_susp p /\ p_seq p' = p_seq p.
  Proof.
    induction fuel as [|fuel IH]; intros p l Iv L; [lia|]. cbn [drop_exceeded]. rewrite (inv_length p l Iv).
    destruct (N.ltb_spec (p_size p) (N.of_nat (length l))) as [Lt|Ge].
    - destruct l as [|x l]; [cbn in Lt; lia|]. pose proof Iv as (El & _). rewrite El. cbn [map].
      destruct (inv_remove p [] x l (p_black p) Iv) as (conns & R & Iv' & _). unfold entry_id in R. rewrite El in Iv'. cbn [map] in Iv'. rewrite R. cbn [snd].
      cbn [app] in Iv'. destruct (IH _ l Iv') as (p' & E & Iv2 & Q); [cbn in L; lia|]. exists p'. split; [exact E|]. split; [|exact Q].
      cbn [p_size] in Iv2. cbn [length] in *. replace (S (length l) - N.to_nat (p_size p))%nat with (S (length l - N.to_nat (p_size p)))%nat by lia.
      exact Iv2.
    - exists p. split; [reflexivity|]. replace (length l - N.to_nat (p_size p))%nat with 0%nat by lia. auto 10.
  Qed.

  Lemma inv_insert p l a c black n : inv p l -> p_seq p < n ->
    inv (mkPool (p_size p) (bt_insert cid_cmp (mkCid a (p_seq p)) c (p_conns p)) (bt_insert N.compare (p_seq p) a (p_lru p)) n black (p_susp p))
        (l ++ [(p_seq p, (a, c))]).
  Proof.
    intros (L & S & B & Sc & P) Ln.
    destruct (insert_new cid_cmp cid_lt cid_eqv cid_lt_trans cid_cmp_spec (mkCid a (p_seq p)) c (p_conns p) Sc) as [A1 A2].
    { apply Forall_forall. intros [id v] I. cbn [fst]. apply (Permutation_in _ P) in I. apply in_map_iff in I. destruct I as (x & [= <- <-] & I).
      rewrite Forall_forall in B. specialize (B x I). cbv beta in B. unfold cid_eqv, entry_id. cbn [id_seq id_addr]. lia. }
    split; [|split; [|split; [|split; [exact A1|]]]]; cbn [p_lru p_seq p_conns].
    - rewrite (insert_last N.compare N.lt eq N.lt_trans N.lt_irrefl (@eq_sym N) N_eqv_lt N_cmp_spec).
      + rewrite L, map_app. reflexivity.
      + rewrite L. apply Forall_forall. intros y I. apply in_map_iff in I. destruct I as (x & <- & I). cbn [fst]. rewrite Forall_forall in B. apply B, I.
    - clear - S B. unfold by_seq in *. induction S as [|x l S IH F]; [repeat constructor|]. inversion B; subst. cbn [app]. constructor; [apply IH; assumption|].
      apply Forall_app. split; [exact F|]. constructor; [assumption | constructor].
    - apply Forall_app. split; [|constructor; [exact Ln | constructor]]. eapply Forall_impl; [|exact B]. intros x Lx. cbv beta in Lx. lia.
    - rewrite A2, map_app, P. cbn [map]. unfold entry_id. cbn [fst snd]. apply Permutation_cons_append.
  Qed.

  Lemma release_refines a c p l : inv p l -> p_seq p < u64_max -> exists p' l',
    release_connection checks a c p = Ok p' /\ inv p' l' /\ map snd l' = put (p_size p) a c (map snd l) /\
    p_size p' = p_size p /\ p_black p' = p_black p /\ p_susp p' = p_susp p /\ p_seq p' = p_seq p + 1.
  Proof.
    intros Iv Ls. unfold release_connection, next_seq. apply N.ltb_lt in Ls. rewrite Ls. cbn [bind id_seq id_addr].
    pose proof (inv_insert p l a c (p_black p) (p_seq p + 1) Iv ltac:(lia)) as Iv'.
    destruct (drop_refines (S (length (bt_insert cid_cmp (mkCid a (p_seq p)) c (p_conns p)))) _ _ Iv') as (p' & E & Iv2 & Q).
    { pose proof (inv_length _ _ Iv') as Q. cbn [p_conns] in Q. rewrite Q. lia. }
    exists p'. eexists. split; [exact E|]. split; [exact Iv2|]. split; [|exact Q].
    unfold put. cbn [p_size].
    assert (Sk : forall n (m : list entry), map snd (skipn n m) = skipn n (map snd m)).
    { induction n; intros [|y m]; cbn; auto. }
    rewrite Sk, map_app, !app_length, map_length. reflexivity.
  Qed.

  (** ** Whole histories *)
  Definition black_ok (p : pool C) (d : Z) (past : list (Z * command C)) : Prop :=
    NoDup (map fst (p_black p)) /\ forall a, hm_find a (p_black p) = deadline d a past.
  Lemma deadline_snoc d a (past : list (Z * command C)) x : deadline d a (past ++ [x]) = deadline_step d a (deadline d a past) x.
  Proof. unfold deadline. rewrite fold_left_app. reflexivity. Qed.

  Lemma inv_black p l b : inv p l -> inv (mkPool (p_size p) (p_conns p) (p_lru p) (p_seq p) b (p_susp p)) l.
  Proof. intros Iv. exact Iv. Qed.

  Theorem run_refines : forall h p l past, inv p l -> black_ok p (p_susp p) past -> p_seq p + releases h <= u64_max -> representable tmax (p_susp p) h ->
    exists p' l', run tmax checks h p = Ok (fst (spec_run take (p_size p) (p_susp p) past h (map snd l)), p') /\
      inv p' l' /\ map snd l' = snd (spec_run take (p_size p) (p_susp p) past h (map snd l)) /\
      black_ok p' (p_susp p) (past ++ h) /\ p_size p' = p_size p /\ p_susp p' = p_susp p /\ p_seq p' = p_seq p + releases h.
  Proof.
    induction h as [|[now c] h IH]; intros p l past Iv Bk Ls Rp.
    - exists p, l. cbn [run spec_run fst snd]. rewrite app_nil_r. unfold releases. cbn. rewrite N.add_0_r. auto 10.
    - assert (Rp' : representable tmax (p_susp p) h) by (intros n a I; apply (Rp n a); right; exact I).
      destruct Bk as [Nd Df]. cbn [run spec_run].
      destruct c as [a i|a c|a].
      + (* acquire *)
        assert (Rl : releases ((now, AcquireConnection a i) :: h) = releases h) by reflexivity. rewrite Rl in *.
        cbn [handle_command]. destruct (hm_remove_spec a (p_black p)) as (R1 & R2 & R3 & _). destruct (R2 Nd) as (R21 & R22 & R23).
        destruct (hm_remove a (p_black p)) as [o black]. cbn [fst snd] in *. rewrite Df in R1. rewrite <- R1.
        assert (Serve : (match o with Some t => (now <? t)%Z = false | None => True end) ->
          exists p' l', ('(o, p) <- ('(an, p1) <- acquire_connection a (mkPool (p_size p) (p_conns p) (p_lru p) (p_seq p) black (p_susp p)) ;; Ok (Some (i, an), p1)) ;;
             '(l0, p) <- run tmax checks h p ;; Ok (match o with Some x => x :: l0 | None => l0 end, p)) =
             Ok (fst (let '(o, l0) := take a (map snd l) in let '(xs, l1) := spec_run take (p_size p) (p_susp p) (past ++ [(now, AcquireConnection a i)]) h l0 in
                      ((i, match o with Some c => Idle c | None => Connect end) :: xs, l1)), p') /\
             inv p' l' /\ map snd l' = snd (let '(o, l0) := take a (map snd l) in let '(xs, l1) := spec_run take (p_size p) (p_susp p) (past ++ [(now, AcquireConnection a i)]) h l0 in
                      ((i, match o with Some c => Idle c | None => Connect end) :: xs, l1)) /\
             black_ok p' (p_susp p) (past ++ (now, AcquireConnection a i) :: h) /\ p_size p' = p_size p /\ p_susp p' = p_susp p /\ p_seq p' = p_seq p + releases h).
        { intros Ot. destruct (acquire_refines a (mkPool (p_size p) (p_conns p) (p_lru p) (p_seq p) black (p_susp p)) l (inv_black p l black Iv))
            as (p1 & l1 & E1 & Iv1 & T1 & Q1 & Q2 & Q3 & Q4). rewrite E1. cbn [bind]. cbn [p_size p_black p_susp p_seq] in *.
          destruct (IH p1 l1 (past ++ [(now, AcquireConnection a i)]) Iv1) as (p2 & l2 & E2 & Iv2 & T2 & B2 & Q5 & Q6 & Q7).
          - unfold black_ok. rewrite Q2, Q3. split; [exact R21|]. intros b. rewrite deadline_snoc. cbn [deadline_step]. destruct (saddr_eqb_spec a b) as [<-|Nb].
            + rewrite R23, <- R1. destruct o as [t|]; [rewrite Ot|]; reflexivity.
            + rewrite R3 by congruence. apply Df.
          - rewrite Q4. exact Ls.
          - rewrite Q3. exact Rp'.
          - rewrite T1, Q1, Q3 in E2, T2. rewrite Q1 in Q5. rewrite Q3 in Q6, B2. rewrite Q4 in Q7. rewrite E2. cbn [bind]. rewrite <- app_assoc in B2. cbn [app] in B2.
            exists p2, l2. destruct (take a (map snd l)) as [o' l0]. cbn [fst snd] in *. destruct (spec_run take _ _ _ h l0) as [xs l3]. cbn [fst snd] in *.
            auto 10. }
        destruct o as [t|]; [|apply Serve; exact I]. destruct (now <? t)%Z eqn:Lt; [apply Z.ltb_lt in Lt | apply Serve; reflexivity].
        cbn [bind]. destruct (hm_insert_spec a t black R21) as [H1 H2].
        destruct (IH (mkPool (p_size p) (p_conns p) (p_lru p) (p_seq p) (hm_insert a t black) (p_susp p)) l (past ++ [(now, AcquireConnection a i)]) (inv_black p l _ Iv))
          as (p2 & l2 & E2 & Iv2 & T2 & B2 & Q5 & Q6 & Q7); [| exact Ls | exact Rp' |].
        { split; [exact H1|]. intros b. cbn [p_black p_susp]. rewrite H2, deadline_snoc. cbn [deadline_step]. destruct (saddr_eqb_spec b a) as [->|Nb].
          - rewrite saddr_eqb_refl, <- R1. apply Z.ltb_lt in Lt. rewrite Lt. reflexivity.
          - destruct (saddr_eqb_spec a b); [congruence|]. rewrite R3 by exact Nb. apply Df. }
        cbn [p_size p_susp p_seq] in *. rewrite E2. cbn [bind]. rewrite <- app_assoc in B2. exists p2, l2.
        destruct (spec_run take _ _ _ h _) as [xs l3]. cbn [fst snd] in *. auto 10.
      + (* release *)
        assert (Rl : releases ((now, ReleaseConnection a c) :: h) = releases h + 1) by (unfold releases; cbn; lia). rewrite Rl in *.
        cbn [handle_command]. destruct (release_refines a c p l Iv ltac:(lia)) as (p1 & l1 & E1 & Iv1 & T1 & Q1 & Q2 & Q3 & Q4). rewrite E1. cbn [bind].
        destruct (IH p1 l1 (past ++ [(now, ReleaseConnection a c)]) Iv1) as (p2 & l2 & E2 & Iv2 & T2 & B2 & Q5 & Q6 & Q7).
        * unfold black_ok. rewrite Q2, Q3. split; [exact Nd|]. intros b. rewrite deadline_snoc. apply Df.
        * lia.
        * rewrite Q3. exact Rp'.
        * rewrite T1, Q1, Q3 in E2, T2. rewrite Q1 in Q5. rewrite Q3 in Q6, B2. rewrite E2. cbn [bind]. rewrite <- app_assoc in B2. exists p2, l2. rewrite Q7, Q4.
          replace (p_seq p + 1 + releases h) with (p_seq p + (releases h + 1)) by lia. auto 10.
      + (* blacklist *)
        assert (Rl : releases ((now, AddToBlacklist a) :: h) = releases h) by reflexivity. rewrite Rl in *.
        cbn [handle_command]. assert (Re : (now + p_susp p <=? tmax)%Z = true) by (apply Z.leb_le, (Rp now a); left; reflexivity). rewrite Re. cbn [bind].
        destruct (hm_insert_spec a (now + p_susp p)%Z (p_black p) Nd) as [H1 H2].
        destruct (IH (mkPool (p_size p) (p_conns p) (p_lru p) (p_seq p) (hm_insert a (now + p_susp p) (p_black p)) (p_susp p)) l (past ++ [(now, AddToBlacklist a)]) (inv_black p l _ Iv))
          as (p2 & l2 & E2 & Iv2 & T2 & B2 & Q5 & Q6 & Q7); [| exact Ls | exact Rp' |].
        { split; [exact H1|]. intros b. cbn [p_black p_susp]. rewrite H2, deadline_snoc. cbn [deadline_step]. destruct (saddr_eqb_spec b a) as [->|Nb].
          - rewrite saddr_eqb_refl. reflexivity.
          - destruct (saddr_eqb_spec a b); [congruence|]. apply Df. }
        cbn [p_size p_susp p_seq] in *. rewrite E2. cbn [bind]. rewrite <- app_assoc in B2. exists p2, l2. auto 10.
  Qed.

  Lemma inv_new size d : inv (pool_new size d) [].
  Proof. repeat split; constructor. Qed.
  Lemma black_new size d : black_ok (pool_new size d) d [].
  Proof. split; [constructor | reflexivity]. Qed.

  Theorem pool_refines size d (h : list (Z * command C)) : releases h <= u64_max -> representable tmax d h -> exists p,
    run tmax checks h (pool_new size d) = Ok (fst (spec_run take size d [] h []), p) /\
    Permutation (map (fun x => (id_addr (fst x), snd x)) (p_conns p)) (snd (spec_run take size d [] h [])).
  Proof.
    intros R Rp. destruct (run_refines h (pool_new size d) [] [] (inv_new size d) (black_new size d) R Rp) as (p & l & E & Iv & T & _).
    exists p. split; [exact E|]. cbn [map] in T. cbn [pool_new p_size p_susp] in T. rewrite <- T. destruct Iv as (_ & _ & _ & _ & P).
    rewrite (Permutation_map (fun x => (id_addr (fst x), snd x)) P), map_map. unfold entry_id. cbn [id_addr fst snd].
    rewrite (map_ext _ snd); [reflexivity|]. intros [s [a c]]. reflexivity.
  Qed.

  (** ** The size bound needs no assumption *)
  Lemma drop_bound : forall fuel (p p' : pool C), drop_exceeded fuel p = Ok p' -> N.of_nat (length (p_conns p')) <= p_size p' /\ p_size p' = p_size p.
  Proof.
    induction fuel as [|fuel IH]; intros p p'; cbn [drop_exceeded]; [discriminate|].
    destruct (N.ltb_spec (p_size p) (N.of_nat (length (p_conns p)))) as [Lt|Ge]; [|intros [= <-]; auto].
    destruct (p_lru p) as [|[s a] r]; [discriminate|]. intros E. destruct (IH _ _ E) as [A B]. split; [exact A | exact B].
  Qed.
  Lemma acquire_bound a (p : pool C) x p' : acquire_connection a p = Ok (x, p') -> (length (p_conns p') <= length (p_conns p))%nat /\ p_size p' = p_size p.
  Proof.
    unfold acquire_connection. destruct (bt_from cid_cmp (mkCid a 0) (p_conns p)) as [|[id c] r]; [intros [= _ <-]; auto|].
    destruct (saddr_eqb (id_addr id) a); [|intros [= _ <-]; auto].
    pose proof (remove_length cid_cmp id (p_conns p)) as L. destruct (bt_remove cid_cmp id (p_conns p)) as [[y|] conns]; [|discriminate].
    intros [= _ <-]. auto.
  Qed.
  Lemma handle_bound now c (p : pool C) o p' : N.of_nat (length (p_conns p)) <= p_size p -> handle_command tmax checks now c p = Ok (o, p') ->
    N.of_nat (length (p_conns p')) <= p_size p' /\ p_size p' = p_size p.
  Proof.
    intros B. destruct c as [a i|a c|a]; cbn [handle_command].
    - destruct (hm_remove a (p_black p)) as [[t|] black].
      + destruct (now <? t)%Z; [intros [= _ <-]; cbn; auto|]. destruct (acquire_connection a _) as [[x q]| | |] eqn:E; cbn [bind]; try discriminate.
        intros [= _ <-]. apply acquire_bound in E. cbn [p_conns p_size] in E. lia.
      + destruct (acquire_connection a _) as [[x q]| | |] eqn:E; cbn [bind]; try discriminate.
        intros [= _ <-]. apply acquire_bound in E. cbn [p_conns p_size] in E. lia.
    - destruct (release_connection checks a c p) as [q| | |] eqn:E; cbn [bind]; try discriminate. intros [= _ <-]. unfold release_connection in E.
      destruct (next_seq checks (p_seq p)); cbn [bind] in E; try discriminate. apply drop_bound in E. exact E.
    - destruct (now + p_susp p <=? tmax)%Z; [|discriminate]. intros [= _ <-]. cbn. auto.
  Qed.
  Theorem run_bound : forall h (p : pool C) l p', N.of_nat (length (p_conns p)) <= p_size p -> run tmax checks h p = Ok (l, p') ->
    N.of_nat (length (p_conns p')) <= p_size p' /\ p_size p' = p_size p.
  Proof.
    induction h as [|[now c] h IH]; intros p l p' B; cbn [run]; [intros [= _ <-]; auto|].
    destruct (handle_command tmax checks now c p) as [[o q]| | |] eqn:E; cbn [bind]; try discriminate.
    destruct (run tmax checks h q) as [[xs q']| | |] eqn:E2; cbn [bind]; try discriminate. intros [= _ <-].
    apply handle_bound in E; [|exact B]. destruct E as [B' S]. destruct (IH q xs q' B' E2) as [B2 S2]. split; [exact B2 | congruence].
  Qed.

  (** ** Unaliased addresses *)
  Lemma same_endpoint_refl a : same_endpoint a a = true.
  Proof. apply same_endpoint_iff. auto. Qed.
  Lemma take_eq a (l : list (saddr * C)) : Forall (fun x => same_endpoint (fst x) a = true -> fst x = a) l -> take a l = take_exact a l.
  Proof.
    induction 1 as [|[b c] l U F IH]; [reflexivity|]. cbn [take take_exact fst] in *. destruct (same_endpoint b a) eqn:Se.
    - rewrite (U eq_refl), saddr_eqb_refl. reflexivity.
    - destruct (saddr_eqb_spec b a) as [->|N]; [rewrite same_endpoint_refl in Se; discriminate|]. rewrite IH. reflexivity.
  Qed.
  Lemma take_incl a (l : list (saddr * C)) : incl (snd (take a l)) l.
  Proof.
    induction l as [|[b c] l IH]; [intros x []|]. cbn [take]. destruct (same_endpoint b a); [destruct (saddr_eqb b a)|].
    - intros x I. right. exact I.
    - apply incl_refl.
    - destruct (take a l) as [o r]. cbn [snd] in *. intros x [E|I]; [left; exact E | right; apply IH, I].
  Qed.
  Lemma skipn_incl {A} n (l : list A) : incl (skipn n l) l.
  Proof. revert l. induction n as [|n IH]; intros [|x l] y I; cbn in *; auto. right. apply IH, I. Qed.
  Lemma put_incl size a c (l : list (saddr * C)) : incl (put size a c l) ((a, c) :: l).
  Proof.
    intros x I. apply skipn_incl in I. apply in_app_or in I. destruct I as [I|[<-|[]]]; [right; exact I | left; reflexivity].
  Qed.

  Lemma spec_run_exact size d : forall h past (l : list (saddr * C)),
    unaliased h -> (forall x y, In x l -> In y h -> same_endpoint (fst x) (address (snd y)) = true -> fst x = address (snd y)) ->
    spec_run take size d past h l = spec_run take_exact size d past h l.
  Proof.
    induction h as [|[now c] h IH]; intros past l Un Ul; [reflexivity|].
    assert (Un' : unaliased h) by (intros x y Ix Iy; apply Un; right; assumption).
    cbn [spec_run]. destruct c as [a i|a c|a].
    - assert (T : take a l = take_exact a l).
      { apply take_eq, Forall_forall. intros x I Se. apply (Ul x (now, AcquireConnection a i) I); [left; reflexivity | exact Se]. }
      rewrite <- T. assert (E : spec_run take size d (past ++ [(now, AcquireConnection a i)]) h l = spec_run take_exact size d (past ++ [(now, AcquireConnection a i)]) h l).
      { apply IH; [exact Un'|]. intros x y Ix Iy. apply Ul; [exact Ix | right; exact Iy]. }
      assert (E2 : spec_run take size d (past ++ [(now, AcquireConnection a i)]) h (snd (take a l)) = spec_run take_exact size d (past ++ [(now, AcquireConnection a i)]) h (snd (take a l))).
      { apply IH; [exact Un'|]. intros x y Ix Iy. apply take_incl in Ix. apply Ul; [exact Ix | right; exact Iy]. }
      destruct (take a l) as [o l0]. cbn [snd] in E2. rewrite E, E2. reflexivity.
    - apply IH; [exact Un'|]. intros x y Ix Iy. apply put_incl in Ix. destruct Ix as [<-|Ix].
      + intros Se. apply (Un (now, ReleaseConnection a c) y); [left; reflexivity | right; exact Iy | exact Se].
      + apply Ul; [exact Ix | right; exact Iy].
    - apply IH; [exact Un'|]. intros x y Ix Iy. apply Ul; [exact Ix | right; exact Iy].
  Qed.

  Theorem pool_refines_exact size d (h : list (Z * command C)) : releases h <= u64_max -> representable tmax d h -> unaliased h -> exists p,
    run tmax checks h (pool_new size d) = Ok (fst (spec_run take_exact size d [] h []), p) /\
    Permutation (map (fun x => (id_addr (fst x), snd x)) (p_conns p)) (snd (spec_run take_exact size d [] h [])).
  Proof.
    intros R Rp Un. rewrite <- (spec_run_exact size d h [] [] Un); [exact (pool_refines size d h R Rp) | intros x y []].
  Qed.

  Theorem take_exact_oldest a (l : list (saddr * C)) c l' : take_exact a l = (Some c, l') <->
    exists l1 l2, l = l1 ++ (a, c) :: l2 /\ l' = l1 ++ l2 /\ forall c', ~ In (a, c') l1.
  Proof.
    revert l'. induction l as [|[b c0] l IH]; intros l'; cbn [take_exact].
    - split; [discriminate|]. intros ([|? l1] & l2 & E & _); discriminate.
    - destruct (saddr_eqb_spec b a) as [->|N].
      + split.
        * intros [= -> ->]. exists [], l'. repeat split. intros c' [].
        * intros ([|y l1] & l2 & E & -> & Nn); [injection E as -> ->; reflexivity|]. injection E as <- _. elim (Nn c0). left. reflexivity.
      + destruct (take_exact a l) as [o r] eqn:E. split.
        * intros [= -> <-]. destruct (proj1 (IH r) eq_refl) as (l1 & l2 & -> & -> & Nn). exists ((b, c0) :: l1), l2. repeat split.
          intros c' [[= Eb _]|I]; [exact (N Eb) | exact (Nn c' I)].
        * intros ([|y l1] & l2 & E2 & -> & Nn); [injection E2 as Eb _; contradiction|]. injection E2 as <- El.
          assert (Q : (o, r) = (Some c, l1 ++ l2)).
          { apply IH. exists l1, l2. split; [exact El|]. split; [reflexivity|]. intros c' I. apply (Nn c'). right. exact I. }
          injection Q as -> ->. reflexivity.
  Qed.
  Theorem take_exact_none a (l l' : list (saddr * C)) : take_exact a l = (None, l') <-> l' = l /\ forall c, ~ In (a, c) l.
  Proof.
    revert l'. induction l as [|[b c0] l IH]; intros l'; cbn [take_exact].
    - split; [intros [= <-]; auto | intros (-> & _); reflexivity].
    - destruct (saddr_eqb_spec b a) as [->|N].
      + split; [discriminate|]. intros (_ & Nn). elim (Nn c0). left. reflexivity.
      + destruct (take_exact a l) as [o r] eqn:E. split.
        * intros [= -> <-]. destruct (proj1 (IH r) eq_refl) as (-> & Nn). split; [reflexivity|]. intros c [[= Eb _]|I]; [exact (N Eb) | exact (Nn c I)].
        * intros (-> & Nn). assert (Q : (o, r) = (None, l)) by (apply IH; split; [reflexivity|]; intros c I; apply (Nn c); right; exact I).
          injection Q as -> ->. reflexivity.
  Qed.
  Theorem take_alias a (l : list (saddr * C)) : fst (take a l) = None <->
    (forall c, ~ In (a, c) l) \/ exists l1 b c l2, l = l1 ++ (b, c) :: l2 /\ b <> a /\ same_endpoint b a = true /\ forall c', ~ In (a, c') l1.
  Proof.
    induction l as [|[b c0] l IH]; cbn [take].
    - split; [intros _; left; intros c [] | reflexivity].
    - destruct (same_endpoint b a) eqn:Se; [destruct (saddr_eqb_spec b a) as [->|N]|].
      + cbn [fst]. split; [discriminate|]. intros [Nn|([|y l1] & b & c & l2 & E & Nb & _ & Nn)].
        * elim (Nn c0). left. reflexivity.
        * injection E as -> _ _. contradiction.
        * injection E as <- _. elim (Nn c0). left. reflexivity.
      + cbn [fst]. split; [|reflexivity]. intros _. right. exists [], b, c0, l. repeat split; [exact N | exact Se | intros c' []].
      + assert (N : b <> a) by (intros ->; rewrite same_endpoint_refl in Se; discriminate).
        destruct (take a l) as [o r]. cbn [fst] in *. rewrite IH. split.
        * intros [Nn|(l1 & b' & c & l2 & -> & Nb & Sb & Nn)].
          -- left. intros c [[= Eb _]|I]; [exact (N Eb) | exact (Nn c I)].
          -- right. exists ((b, c0) :: l1), b', c, l2. repeat split; [exact Nb | exact Sb|]. intros c' [[= Eb _]|I]; [exact (N Eb) | exact (Nn c' I)].
        * intros [Nn|([|y l1] & b' & c & l2 & E & Nb & Sb & Nn)].
          -- left. intros c I. apply (Nn c). right. exact I.
          -- injection E as <- _ _. rewrite Se in Sb. discriminate.
          -- injection E as <- ->. right. exists l1, b', c, l2. repeat split; [exact Nb | exact Sb|]. intros c' I. apply (Nn c'). right. exact I.
  Qed.

  (** ** One more acquisition after a history *)
  Lemma run_app h1 : forall h2 (p : pool C), run tmax checks (h1 ++ h2) p =
    ('(l1, p1) <- run tmax checks h1 p ;; '(l2, p2) <- run tmax checks h2 p1 ;; Ok (l1 ++ l2, p2)).
  Proof.
    induction h1 as [|[now c] h1 IH]; intros h2 p; cbn [app run bind].
    - destruct (run tmax checks h2 p) as [[l q]| | |]; reflexivity.
    - destruct (handle_command tmax checks now c p) as [[o q]| | |]; cbn [bind]; try reflexivity. rewrite IH.
      destruct (run tmax checks h1 q) as [[l1 q1]| | |]; cbn [bind]; try reflexivity.
      destruct (run tmax checks h2 q1) as [[l2 q2]| | |]; cbn [bind]; try reflexivity. destruct o; reflexivity.
  Qed.

  (** What the pool answers to an acquisition after any history, and what remains idle. *)
  Theorem acquire_after size d (h : list (Z * command C)) now a i : releases h <= u64_max -> representable tmax d h -> exists xs p an p',
    run tmax checks h (pool_new size d) = Ok (xs, p) /\
    run tmax checks (h ++ [(now, AcquireConnection a i)]) (pool_new size d) = Ok (xs ++ [(i, an)], p') /\
    ((exists t, deadline d a h = Some t /\ (now < t)%Z /\ an = Suspended t /\ p_conns p' = p_conns p /\ p_lru p' = p_lru p) \/
     (forall t, deadline d a h = Some t -> (t <= now)%Z) /\ (forall t, an <> Suspended t)).
  Proof.
    intros R Rp. destruct (run_refines h (pool_new size d) [] [] (inv_new size d) (black_new size d) R Rp) as (p & l & E & Iv & _ & [Nd Df] & _).
    cbn [pool_new p_size p_susp app] in *. exists (fst (spec_run take size d [] h [])), p. rewrite run_app. cbn [map] in E. rewrite E. cbn [bind run handle_command].
    destruct (hm_remove_spec a (p_black p)) as (R1 & _). destruct (hm_remove a (p_black p)) as [o black]. cbn [fst] in R1. rewrite Df in R1.
    destruct (acquire_refines a (mkPool (p_size p) (p_conns p) (p_lru p) (p_seq p) black (p_susp p)) l (inv_black p l black Iv)) as (p1 & _ & E1 & _).
    rewrite E1. cbn [bind]. assert (NS : forall t, match fst (take a (map snd l)) with Some c => Idle c | None => Connect end <> Suspended t) by (intros t; destruct (fst (take a (map snd l))); discriminate).
    destruct o as [t|]; [destruct (Z.ltb_spec now t)|]; cbn [bind].
    - eexists _, _. split; [reflexivity|]. split; [reflexivity|]. left. exists t. cbn [p_conns p_lru]. auto 10.
    - eexists _, _. split; [reflexivity|]. split; [reflexivity|]. right. split; [|exact NS]. intros t' E'. rewrite <- R1 in E'. injection E' as <-. exact H.
    - eexists _, _. split; [reflexivity|]. split; [reflexivity|]. right. split; [|exact NS]. intros t' E'. rewrite <- R1 in E'. discriminate.
  Qed.

  Lemma quiet_deadline d a t (past mid : list (Z * command C)) : deadline d a past = Some t -> Forall (quiet a t) mid -> deadline d a (past ++ mid) = Some t.
  Proof.
    intros E F. unfold deadline in *. rewrite fold_left_app, E. clear E. induction F as [|[now c] mid Q F IH]; [reflexivity|]. cbn [fold_left].
    replace (deadline_step d a (Some t) (now, c)) with (Some t); [exact IH|]. unfold quiet in Q. cbn [fst snd] in Q.
    destruct c as [b i|b c|b]; cbn [deadline_step address] in *; [|reflexivity|].
    - destruct (saddr_eqb_spec b a) as [->|]; [|reflexivity]. destruct Q as [Q|Q]; [congruence|]. apply Z.ltb_lt in Q. rewrite Q. reflexivity.
    - destruct (saddr_eqb_spec b a) as [->|]; [|reflexivity]. destruct Q as [Q|[]]. congruence.
  Qed.
  Lemma failed_deadline d a t (past mid : list (Z * command C)) : Forall (quiet a (t + d)) mid -> deadline d a (past ++ (t, AddToBlacklist a) :: mid) = Some (t + d)%Z.
  Proof.
    intros F. change ((t, AddToBlacklist a) :: mid) with ([(t, AddToBlacklist a)] ++ mid). rewrite app_assoc. apply quiet_deadline; [|exact F].
    rewrite deadline_snoc. cbn [deadline_step]. rewrite saddr_eqb_refl. reflexivity.
  Qed.

  Theorem suspended size d (past : list (Z * command C)) t a mid now i : let h := past ++ (t, AddToBlacklist a) :: mid in
    releases h <= u64_max -> representable tmax d h -> Forall (quiet a (t + d)) mid -> (now < t + d)%Z -> exists xs p p',
      run tmax checks h (pool_new size d) = Ok (xs, p) /\
      run tmax checks (h ++ [(now, AcquireConnection a i)]) (pool_new size d) = Ok (xs ++ [(i, Suspended (t + d))], p') /\
      p_conns p' = p_conns p /\ p_lru p' = p_lru p.
  Proof.
    intros h R Rp F L. pose proof (failed_deadline d a t past mid F) as D. destruct (acquire_after size d h now a i R Rp) as (xs & p & an & p' & E1 & E2 & [(t' & D' & L' & -> & A & B)|(G & _)]).
    - unfold h in D'. rewrite D in D'. injection D' as <-. exists xs, p, p'. auto.
    - specialize (G _ D). lia.
  Qed.
  Theorem served_again size d (past : list (Z * command C)) t a mid now i : let h := past ++ (t, AddToBlacklist a) :: mid in
    releases h <= u64_max -> representable tmax d h -> Forall (quiet a (t + d)) mid -> (t + d <= now)%Z -> exists xs an p,
      run tmax checks (h ++ [(now, AcquireConnection a i)]) (pool_new size d) = Ok (xs ++ [(i, an)], p) /\ forall u, an <> Suspended u.
  Proof.
    intros h R Rp F L. pose proof (failed_deadline d a t past mid F) as D. destruct (acquire_after size d h now a i R Rp) as (xs & p & an & p' & E1 & E2 & [(t' & D' & L' & _)|(_ & G)]).
    - unfold h in D'. rewrite D in D'. injection D' as <-. lia.
    - exists xs, an, p'. auto.
  Qed.
  (** An answer "suspended" always goes back to a recorded failure of that very address. *)
  Lemma deadline_origin d a : forall (h : list (Z * command C)) t, deadline d a h = Some t -> exists past n mid, h = past ++ (n, AddToBlacklist a) :: mid /\ t = (n + d)%Z /\ Forall (quiet a t) mid.
  Proof.
    induction h as [|[now c] h IH] using rev_ind; intros t; [discriminate|]. rewrite deadline_snoc. intros E.
    assert (K : deadline d a h = Some t -> quiet a t (now, c) -> exists past n mid, h ++ [(now, c)] = past ++ (n, AddToBlacklist a) :: mid /\ t = (n + d)%Z /\ Forall (quiet a t) mid).
    { intros D Q. destruct (IH t D) as (past & n & mid & -> & -> & F). exists past, n, (mid ++ [(now, c)]). split; [rewrite <- app_assoc; reflexivity|].
      split; [reflexivity|]. apply Forall_app. auto. }
    destruct c as [b i|b c|b]; cbn [deadline_step] in E.
    - destruct (saddr_eqb_spec b a) as [->|N]; [|apply K; [exact E | left; exact N]]. destruct (deadline d a h) as [t'|]; [|discriminate].
      destruct (Z.ltb_spec now t'); [|discriminate]. injection E as ->. apply K; [reflexivity | right; assumption].
    - apply K; [exact E | right; exact I].
    - destruct (saddr_eqb_spec b a) as [->|N]; [|apply K; [exact E | left; exact N]]. injection E as <-. exists h, now, []. repeat split. constructor.
  Qed.
  Theorem suspended_only size d (h : list (Z * command C)) now a i xs t p : releases h <= u64_max -> representable tmax d h ->
    run tmax checks (h ++ [(now, AcquireConnection a i)]) (pool_new size d) = Ok (xs ++ [(i, Suspended t)], p) ->
    (now < t)%Z /\ exists past n mid, h = past ++ (n, AddToBlacklist a) :: mid /\ t = (n + d)%Z /\ Forall (quiet a t) mid.
  Proof.
    intros R Rp E. destruct (acquire_after size d h now a i R Rp) as (ys & q & an & q' & E1 & E2 & Q). rewrite E in E2. injection E2 as E2 _.
    apply app_inj_tail in E2. destruct E2 as (_ & [= <-]). destruct Q as [(t' & D & L & [= <-] & _)|(_ & G)]; [|elim (G t eq_refl)].
    split; [exact L | exact (deadline_origin d a h t D)].
  Qed.

  (** ** Panics *)
  Theorem panics_iff size d (h : list (Z * command C)) : releases h <= u64_max ->
    (run tmax checks h (pool_new size d) = Panic <-> exists now a, In (now, AddToBlacklist a) h /\ (tmax < now + d)%Z) /\
    (forall e, run tmax checks h (pool_new size d) <> Err e) /\ run tmax checks h (pool_new size d) <> Diverge.
  Proof.
    intros R.
    assert (Dec : representable tmax d h \/ exists h1 now a h2, h = h1 ++ (now, AddToBlacklist a) :: h2 /\ (tmax < now + d)%Z /\ representable tmax d h1).
    { clear R. unfold representable. induction h as [|[now c] h IH].
      - left. intros ? ? [].
      - assert (Q : (exists a, c = AddToBlacklist a /\ (tmax < now + d)%Z) \/ forall a, c = AddToBlacklist a -> (now + d <= tmax)%Z).
        { destruct c as [a i|a c|a]; try (right; intros ? [=]; fail). destruct (Z.leb_spec (now + d) tmax); [right; auto | left; exists a; auto]. }
        destruct Q as [(a & -> & L)|Q].
        + right. exists [], now, a, h. split; [reflexivity|]. split; [exact L|]. intros ? ? [].
        + destruct IH as [Rp|(h1 & n & a & h2 & -> & L & Rp)].
          * left. intros n a [[= -> ->]|I]; [exact (Q a eq_refl) | exact (Rp n a I)].
          * right. exists ((now, c) :: h1), n, a, h2. split; [reflexivity|]. split; [exact L|]. intros m b [[= -> ->]|I]; [exact (Q b eq_refl) | exact (Rp m b I)]. }
    destruct Dec as [Rp|(h1 & now & a & h2 & -> & L & Rp)].
    - destruct (pool_refines size d h R Rp) as (p & E & _). rewrite E. split; [|split; [intros e|]; discriminate]. split; [discriminate|].
      intros (now & a & I & L). specialize (Rp now a I). lia.
    - assert (R1 : releases h1 <= u64_max) by (unfold releases in *; rewrite filter_app, app_length in R; lia).
      destruct (run_refines h1 (pool_new size d) [] [] (inv_new size d) (black_new size d) R1 Rp) as (p & l & E & _ & _ & _ & _ & Es & _).
      rewrite run_app, E. cbn [bind run handle_command]. rewrite Es. cbn [pool_new p_susp]. replace (now + d <=? tmax)%Z with false by (symmetry; apply Z.leb_gt, L).
      cbn [bind]. split; [|split; [intros e|]; discriminate]. split; [|reflexivity]. intros _. exists now, a. split; [|exact L]. apply in_or_app. right. left. reflexivity.
  Qed.

  Lemma releases_split : forall (h : list (Z * command C)) n, n < releases h -> exists h1 now a c h2, h = h1 ++ (now, ReleaseConnection a c) :: h2 /\ releases h1 = n.
  Proof.
    induction h as [|[now cm] h IH]; intros n L; [unfold releases in L; cbn in L; lia|]. unfold releases in *. cbn [filter] in L. unfold is_release at 1 in L. cbn [snd] in L.
    assert (Go : (forall a c, cm <> ReleaseConnection a c) -> exists h1 now0 a c h2, (now, cm) :: h = h1 ++ (now0, ReleaseConnection a c) :: h2 /\ N.of_nat (length (filter is_release h1)) = n).
    { intros Nc. destruct (IH n) as (h1 & now0 & a & c & h2 & -> & E); [destruct cm as [a i|a c|a]; try exact L; elim (Nc a c); reflexivity|].
      exists ((now, cm) :: h1), now0, a, c, h2. split; [reflexivity|]. destruct cm as [b i|b c0|b]; try exact E. elim (Nc b c0). reflexivity. }
    destruct cm as [a i|a c|a]; [apply Go; discriminate| |apply Go; discriminate]. cbn [length] in L. destruct (N.eq_dec n 0) as [->|Nz].
    - exists [], now, a, c, h. split; reflexivity.
    - destruct (IH (n - 1)) as (h1 & now0 & b & c0 & h2 & -> & E); [lia|]. exists ((now, ReleaseConnection a c) :: h1), now0, b, c0, h2. split; [reflexivity|]. cbn [filter is_release snd length]. lia.
  Qed.
  (** With overflow checks, the counter is the only other cause. *)
  Theorem panics_checked size d (h : list (Z * command C)) : checks = true ->
    (run tmax checks h (pool_new size d) = Panic <-> (exists now a, In (now, AddToBlacklist a) h /\ (tmax < now + d)%Z) \/ u64_max < releases h) /\
    (forall e, run tmax checks h (pool_new size d) <> Err e) /\ run tmax checks h (pool_new size d) <> Diverge.
  Proof.
    intros Ck. destruct (N.le_gt_cases (releases h) u64_max) as [R|R].
    - destruct (panics_iff size d h R) as [I J]. split; [|exact J]. rewrite I. split; [auto|]. intros [X|X]; [exact X | lia].
    - destruct (releases_split h u64_max R) as (h1 & now & a & c & h2 & -> & E1).
      assert (P : run tmax checks (h1 ++ (now, ReleaseConnection a c) :: h2) (pool_new size d) = Panic).
      { destruct (panics_iff size d h1 ltac:(lia)) as (I & NE & ND). rewrite run_app. destruct (run tmax checks h1 (pool_new size d)) as [x|e| |] eqn:E; [|elim (NE e); reflexivity | reflexivity | elim ND; reflexivity].
        assert (Rp : representable tmax d h1).
        { intros n b Ib. destruct (Z.le_gt_cases (n + d) tmax) as [Le|Gt]; [exact Le|]. assert (X : Ok x = Panic) by (apply I; exists n, b; split; [exact Ib | lia]). discriminate. }
        destruct (run_refines h1 (pool_new size d) [] [] (inv_new size d) (black_new size d) ltac:(cbn [pool_new p_seq]; lia) Rp) as (p & l & E' & _ & _ & _ & _ & _ & Es).
        rewrite E in E'. injection E' as ->. cbn [bind run handle_command]. unfold release_connection, next_seq. rewrite Es, E1. cbn [pool_new p_seq]. rewrite N.add_0_l, N.ltb_irrefl, Ck. reflexivity. }
      rewrite P. split; [|split; [intros e|]; discriminate]. split; auto.
  Qed.

  (** ** Connections handed out were released for that address *)
  Lemma take_in a (l : list (saddr * C)) c l' : take a l = (Some c, l') -> In (a, c) l.
  Proof.
    revert l'. induction l as [|[b c0] l IH]; intros l'; cbn [take]; [discriminate|]. destruct (same_endpoint b a); [destruct (saddr_eqb_spec b a) as [->|]|].
    - intros [= -> _]. left. reflexivity.
    - discriminate.
    - destruct (take a l) as [o r]. intros [= -> <-]. right. exact (IH r eq_refl).
  Qed.
  Lemma spec_idle_in size d a c : forall h past (l : list (saddr * C)),
    In (a, c) (snd (spec_run take size d past h l)) -> In (a, c) l \/ exists now, In (now, ReleaseConnection a c) h.
  Proof.
    induction h as [|[now cm] h IH]; intros past l; cbn [spec_run]; [auto|].
    assert (Up : forall l', (In (a, c) l' -> In (a, c) l \/ cm = ReleaseConnection a c) -> In (a, c) (snd (spec_run take size d (past ++ [(now, cm)]) h l')) ->
      In (a, c) l \/ exists n, In (n, ReleaseConnection a c) ((now, cm) :: h)).
    { intros l' Sub J. destruct (IH _ _ J) as [B|(n & B)].
      - destruct (Sub B) as [B'|B']; [left; exact B' | right; exists now; left; congruence].
      - right. exists n. right. exact B. }
    destruct cm as [b i|b c0|b].
    - pose proof (Up l (fun J => or_introl J)) as U1. pose proof (Up (snd (take b l)) (fun J => or_introl (take_incl b l _ J))) as U2.
      destruct (take b l) as [o l0]. cbn [snd] in U2. destruct (spec_run take _ _ _ h l), (spec_run take _ _ _ h l0). cbn [snd] in *.
      destruct (deadline d b past) as [t|]; [destruct (now <? t)%Z|]; assumption.
    - apply Up. intros J. apply put_incl in J. destruct J as [[= -> ->]|J]; auto.
    - apply Up. auto.
  Qed.
  Theorem idle_origin size d (h : list (Z * command C)) now a i xs c p : releases h <= u64_max -> representable tmax d h ->
    run tmax checks (h ++ [(now, AcquireConnection a i)]) (pool_new size d) = Ok (xs ++ [(i, Idle c)], p) ->
    exists now', In (now', ReleaseConnection a c) h.
  Proof.
    intros R Rp. destruct (run_refines h (pool_new size d) [] [] (inv_new size d) (black_new size d) R Rp) as (q & l & E & Iv & T & _).
    cbn [pool_new p_size p_susp map] in *. rewrite run_app, E. cbn [bind run handle_command].
    destruct (hm_remove a (p_black q)) as [o black].
    destruct (acquire_refines a (mkPool (p_size q) (p_conns q) (p_lru q) (p_seq q) black (p_susp q)) l (inv_black q l black Iv)) as (p1 & _ & E1 & _).
    rewrite E1. cbn [bind].
    assert (K : forall ys q', Ok (ys ++ [(i, match fst (take a (map snd l)) with Some c => Idle c | None => Connect end)], q') = Ok (xs ++ [(i, Idle c)], p) ->
      exists now', In (now', ReleaseConnection a c) h).
    { intros ys q' [= E2 _]. apply app_inj_tail in E2. destruct E2 as (_ & [= E2]). pose proof (take_in a (map snd l) c) as Ti.
      destruct (take a (map snd l)) as [[c'|] r]; [|discriminate]. injection E2 as ->. specialize (Ti r eq_refl). rewrite T in Ti.
      destruct (spec_idle_in size d a c h [] [] Ti) as [[]|Q]. exact Q. }
    destruct o as [t|]; [destruct (now <? t)%Z|]; cbn [bind]; try apply K. intros [= E2 _]. apply app_inj_tail in E2. destruct E2 as (_ & [=]).
  Qed.
End Refine.
