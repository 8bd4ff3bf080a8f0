(** * The pool for any number of releases. *)
From Coq Require Import Sorting.Sorted Sorting.Permutation.
From Verif Require Import Base Pool PoolSpec PoolProofs PoolWrapSpec.
Open Scope N_scope.

Section Maps.
  Context {K V : Type}.
  Variables (cmp : K -> K -> comparison) (lt eqv : K -> K -> Prop).
  Hypotheses (lt_trans : forall x y z, lt x y -> lt y z -> lt x z) (lt_irrefl : forall x, ~ lt x x)
    (eqv_sym : forall x y, eqv x y -> eqv y x)
    (eqv_lt_l : forall x y z, eqv x y -> lt x z -> lt y z)
    (cmp_spec : forall x y, match cmp x y with Lt => lt x y | Eq => eqv x y | Gt => lt y x end).
  Notation sorted := (sorted (V := V) lt).

  Lemma insert_any k (v : V) l : sorted l -> sorted (bt_insert cmp k v l) /\
    (Permutation (bt_insert cmp k v l) ((k, v) :: l) \/
     exists l1 k' v' l2, l = l1 ++ (k', v') :: l2 /\ eqv k k' /\ bt_insert cmp k v l = l1 ++ (k', v) :: l2).
  Proof.
    intros S. destruct (List.Exists_dec (fun y => cmp k (fst y) = Eq) l) as [X|X]; [intros y; destruct (cmp k (fst y)); auto; right; discriminate| |].
    - induction l as [|[k' v'] l IH]; [inversion X|]. inversion S as [|? ? S1 F1]; subst. cbn [bt_insert]. cbn [fst] in *. pose proof (cmp_spec k k') as Sp. destruct (cmp k k') eqn:Ec.
      + split; [constructor; [exact S1|]; exact F1|]. right. exists [], k', v', l. auto.
      + exfalso. inversion X as [? ? X1|? ? X1]; subst; [cbn [fst] in X1; congruence|]. apply Exists_exists in X1. destruct X1 as ([k2 v2] & I & E2). cbn [fst] in E2.
        rewrite Forall_forall in F1. specialize (F1 _ I). cbn [fst] in F1. pose proof (cmp_spec k k2) as Sq. rewrite E2 in Sq. apply eqv_sym in Sq.
        (* k2 ~ k < k' < k2 *) apply (lt_irrefl k). eapply lt_trans; [exact Sp|]. apply (lt_trans k' k2 k) in F1; [exact F1|].
        exfalso. apply (lt_irrefl k2). eapply lt_trans; [|exact F1]. eapply eqv_lt_l; [apply eqv_sym; exact Sq | exact Sp].
      + inversion X as [? ? X1|? ? X1]; subst; [cbn [fst] in X1; congruence|]. destruct (IH S1 X1) as [A B]. split.
        * constructor; [exact A|]. apply Forall_forall. intros y I. rewrite Forall_forall in F1. destruct B as [B|(l1 & k2 & v2 & l2 & -> & E2 & B)].
          -- apply (Permutation_in _ B) in I. destruct I as [<-|I]; [exact Sp | exact (F1 _ I)].
          -- rewrite B in I. apply in_app_or in I. destruct I as [I|[<-|I]]; [apply F1, in_or_app; auto| |apply F1, in_or_app; right; right; exact I].
             apply (F1 (k2, v2)). apply in_or_app. right. left. reflexivity.
        * destruct B as [B|(l1 & k2 & v2 & l2 & -> & E2 & B)]; [left; rewrite B; apply perm_swap|]. right. exists ((k', v') :: l1), k2, v2, l2. rewrite B. auto.
    - destruct (insert_new cmp lt eqv lt_trans cmp_spec k v l S) as [A B]; [|auto]. apply Forall_forall. intros y I E. apply X, Exists_exists. exists y. split; [exact I|].
      pose proof (cmp_spec k (fst y)) as Sp. destruct (cmp k (fst y)); [reflexivity| |]; exfalso.
      + apply (lt_irrefl (fst y)). exact (eqv_lt_l _ _ _ E Sp).
      + apply (lt_irrefl k). apply (eqv_lt_l (fst y)); [apply eqv_sym; exact E | exact Sp].
  Qed.

  Lemma remove_eqv k k' (v : V) l1 l2 : sorted (l1 ++ (k', v) :: l2) -> eqv k k' -> bt_remove cmp k (l1 ++ (k', v) :: l2) = (Some v, l1 ++ l2).
  Proof.
    intros S E. induction l1 as [|[k2 v2] l1 IH]; cbn [app bt_remove].
    - pose proof (cmp_spec k k') as Sp. destruct (cmp k k'); [reflexivity| |]; exfalso.
      + apply (lt_irrefl k'). exact (eqv_lt_l _ _ _ E Sp).
      + apply (lt_irrefl k). apply (eqv_lt_l k'); [apply eqv_sym; exact E | exact Sp].
    - destruct (sorted_app lt ((k2, v2) :: l1) (k', v) l2 S) as (F & _). inversion F as [|? ? L _]; subst. cbn [fst] in L.
      inversion S; subst. pose proof (cmp_spec k k2) as Sp. destruct (cmp k k2).
      + exfalso. apply (lt_irrefl k). apply (eqv_lt_l k'); [apply eqv_sym; exact E|]. (* k' < k *) exfalso. apply (lt_irrefl k'). apply (eqv_lt_l k); [exact E|]. apply (eqv_lt_l k2); [apply eqv_sym; exact Sp | exact L].
      + exfalso. apply (lt_irrefl k'). apply (eqv_lt_l k); [exact E|]. eapply lt_trans; [exact Sp | exact L].
      + rewrite IH by assumption. reflexivity.
  Qed.
  Lemma remove_sorted k (l : list (K * V)) : sorted l -> sorted (snd (bt_remove cmp k l)) /\ incl (snd (bt_remove cmp k l)) l /\
    forall y, In y (snd (bt_remove cmp k l)) -> cmp k (fst y) <> Eq.
  Proof.
    induction l as [|[k' v'] l IH]; intros S; cbn [bt_remove snd]; [repeat split; [exact S | apply incl_refl | intros ? []]|].
    inversion S as [|? ? S1 F1]; subst. rewrite Forall_forall in F1. cbn [fst] in F1. destruct (IH S1) as (A & B & D). pose proof (cmp_spec k k') as Sp. destruct (cmp k k') eqn:Ec; cbn [snd].
    - split; [exact S1|]. split; [apply incl_tl, incl_refl|]. intros y I E. pose proof (cmp_spec k (fst y)) as Sq. rewrite E in Sq. specialize (F1 y I).
      apply (lt_irrefl (fst y)). apply (eqv_lt_l k); [exact Sq|]. apply (eqv_lt_l k'); [apply eqv_sym; exact Sp | exact F1].
    - split; [exact S|]. split; [apply incl_refl|]. intros y [<-|I] E; [cbn [fst] in E; congruence|]. pose proof (cmp_spec k (fst y)) as Sq. rewrite E in Sq. specialize (F1 y I).
      apply (lt_irrefl (fst y)). apply (eqv_lt_l k); [exact Sq|]. eapply lt_trans; eassumption.
    - destruct (bt_remove cmp k l) as [o r]. cbn [snd] in *. split; [|split].
      + constructor; [exact A|]. apply Forall_forall. intros y I. apply F1, B, I.
      + intros y [E|I]; [left; exact E | right; apply B, I].
      + intros y [<-|I]; [cbn [fst]; congruence | apply D, I].
  Qed.
End Maps.

Definition cid_insert {C} := @insert_any cid C cid_cmp cid_lt cid_eqv cid_lt_trans cid_lt_irrefl cid_eqv_sym cid_eqv_lt cid_cmp_spec.
Definition cid_remove {C} := @remove_eqv cid C cid_cmp cid_lt cid_eqv cid_lt_trans cid_lt_irrefl cid_eqv_sym cid_eqv_lt cid_cmp_spec.
Definition lru_insert := @insert_any N saddr N.compare N.lt eq N.lt_trans N.lt_irrefl (@eq_sym N) N_eqv_lt N_cmp_spec.
Definition lru_remove := @remove_sorted N saddr N.compare N.lt eq N.lt_trans N.lt_irrefl (@eq_sym N) N_eqv_lt N_cmp_spec.

Lemma perm_replaced {T} (x y : T) l1 l2 : Permutation (x :: l1 ++ y :: l2) ((l1 ++ x :: l2) ++ [y]).
Proof. rewrite <- Permutation_cons_append, <- (Permutation_middle l1 l2 y), perm_swap. apply perm_skip, Permutation_middle. Qed.

Section Wrap.
  Context {C : Type}.
  Variables (tmax : Z) (checks : bool).

  Definition invW (p : pool C) : Prop :=
    sorted cid_lt (p_conns p) /\ sorted N.lt (p_lru p) /\
    (forall s a, In (s, a) (p_lru p) -> exists id c, In (id, c) (p_conns p) /\ cid_eqv (mkCid a s) id) /\
    N.of_nat (length (p_conns p)) <= p_size p.

  (** What becomes of the connections, seen through any view of the addresses that the pool's order respects on [A]. *)
  Variables (A : saddr -> Prop) (X : Type) (view : saddr -> X).
  Hypothesis view_ok : forall a b, A a -> A b -> same_endpoint a b = true -> view a = view b.
  Definition see (x : saddr * C) : X * C := (view (fst x), snd x).
  Definition invA (p : pool C) : Prop := forall id c, In (id, c) (p_conns p) -> A (id_addr id).
  Definition seen (l : list (cid * C)) : list (X * C) := map (fun x => see (id_addr (fst x), snd x)) l.

  Lemma acquire_any a p : invW p -> invA p -> exists an p', acquire_connection a p = Ok (an, p') /\ invW p' /\ invA p' /\ p_size p' = p_size p /\ p_seq p' = p_seq p /\ p_susp p' = p_susp p /\ p_black p' = p_black p /\
    ((an = Connect /\ p_conns p' = p_conns p) \/ exists c, an = Idle c /\ Permutation (seen (p_conns p)) (see (a, c) :: seen (p_conns p'))).
  Proof.
    intros (Sc & Sl & Lk & Sz) Ia. unfold acquire_connection.
    destruct (from_split cid_cmp cid_lt cid_eqv cid_lt_trans cid_lt_irrefl cid_eqv_lt cid_cmp_spec (mkCid a 0) (p_conns p)) as (c1 & E & _ & _).
    destruct (bt_from cid_cmp (mkCid a 0) (p_conns p)) as [|[id c] c2]; [exists Connect, p; unfold invW; auto 12|].
    destruct (saddr_eqb_spec (id_addr id) a) as [Ea|Na]; [|exists Connect, p; unfold invW; auto 12].
    assert (R : bt_remove cid_cmp id (p_conns p) = (Some c, c1 ++ c2)).
    { rewrite E. apply cid_remove; [rewrite <- E; exact Sc | unfold cid_eqv; auto]. }
    rewrite R. eexists _, _. split; [reflexivity|]. destruct (lru_remove (id_seq id) (p_lru p) Sl) as (L1 & L2 & L3).
    split; [|split; [|split; [reflexivity|split; [reflexivity|split; [reflexivity|split; [reflexivity|]]]]]].
    - unfold invW. cbn [p_conns p_lru p_size]. rewrite E in Sc. destruct (sorted_app cid_lt c1 _ c2 Sc) as (_ & _ & Sc'). split; [exact Sc'|]. split; [exact L1|]. split.
      + intros s b I. destruct (Lk s b (L2 _ I)) as (id' & c' & I' & Ev). exists id', c'. split; [|exact Ev]. rewrite E in I'. apply in_or_app. apply in_app_or in I'.
        destruct I' as [I'|[[= <- <-]|I']]; auto. exfalso. specialize (L3 _ I). cbn [fst] in L3. apply L3. destruct Ev as (_ & _ & _ & Ev). cbn [id_seq] in Ev. rewrite <- Ev. apply N.compare_refl.
      + rewrite E in Sz. rewrite app_length in *. cbn [length] in Sz. lia.
    - intros id' c' I. apply (Ia id' c'). rewrite E. apply in_app_or in I. apply in_or_app. destruct I; [left|right; right]; assumption.
    - right. exists c. split; [reflexivity|]. cbn [p_conns]. rewrite E. unfold seen. rewrite !map_app. cbn [map fst snd]. rewrite <- Permutation_middle, Ea. reflexivity.
  Qed.

  Lemma release_any a c p : invW p -> invA p -> A a ->
    (next_seq checks (p_seq p) = Panic -> release_connection checks a c p = Panic) /\
    forall n, next_seq checks (p_seq p) = Ok n -> exists p' dropped, release_connection checks a c p = Ok p' /\ invW p' /\ invA p' /\ p_size p' = p_size p /\ p_susp p' = p_susp p /\
      p_seq p' = n /\ Permutation (see (a, c) :: seen (p_conns p)) (seen (p_conns p') ++ dropped).
  Proof.
    intros (Sc & Sl & Lk & Sz) Ia Aa. unfold release_connection. split; [intros ->; reflexivity|]. intros n ->. cbn [bind id_seq id_addr].
    destruct (cid_insert (mkCid a (p_seq p)) c (p_conns p) Sc) as [Sc' Pc]. destruct (lru_insert (p_seq p) a (p_lru p) Sl) as [Sl' Pl].
    set (conns := bt_insert cid_cmp (mkCid a (p_seq p)) c (p_conns p)) in *. set (lru := bt_insert N.compare (p_seq p) a (p_lru p)) in *.
    assert (New : exists id, In (id, c) conns /\ cid_eqv (mkCid a (p_seq p)) id).
    { destruct Pc as [Pc|(l1 & k' & v' & l2 & _ & Ev & ->)].
      - exists (mkCid a (p_seq p)). split; [apply (Permutation_in _ (Permutation_sym Pc)); left; reflexivity | unfold cid_eqv; auto].
      - exists k'. split; [apply in_or_app; right; left; reflexivity | exact Ev]. }
    assert (Old : forall id v, In (id, v) (p_conns p) -> exists v', In (id, v') conns).
    { intros id v I. destruct Pc as [Pc|(l1 & k' & v' & l2 & E & Ev & ->)].
      - exists v. apply (Permutation_in _ (Permutation_sym Pc)). right. exact I.
      - rewrite E in I. apply in_app_or in I. destruct I as [I|[[= <- <-]|I]]; eexists; apply in_or_app; [left; exact I | right; left; reflexivity | right; right; exact I]. }
    assert (Lk' : forall s b, In (s, b) lru -> exists id v, In (id, v) conns /\ cid_eqv (mkCid b s) id).
    { assert (G : forall s b, In (s, b) (p_lru p) -> exists id v, In (id, v) conns /\ cid_eqv (mkCid b s) id).
      { intros s b I. destruct (Lk s b I) as (id & v & I' & Ev). destruct (Old id v I') as (v' & I2). exists id, v'. auto. }
      intros s b I. destruct New as (id0 & I0 & Ev0). destruct Pl as [Pl|(l1 & k' & v' & l2 & E & Ev & El)].
      - apply (Permutation_in _ Pl) in I. destruct I as [[= <- <-]|I]; [exists id0, c; auto | exact (G s b I)].
      - rewrite El in I. apply in_app_or in I. destruct I as [I|[[= <- <-]|I]].
        + apply G. rewrite E. apply in_or_app. left. exact I.
        + exists id0, c. rewrite <- Ev. auto.
        + apply G. rewrite E. apply in_or_app. right. right. exact I. }
    assert (Nl : exists s b r, lru = (s, b) :: r).
    { destruct lru as [|[s b] r]; [|eauto]. destruct Pl as [Pl|(l1 & k' & v' & l2 & _ & _ & El)]; [apply Permutation_nil in Pl; discriminate | destruct l1; discriminate]. }
    assert (Ac : forall id v, In (id, v) conns -> A (id_addr id)).
    { intros id v I. destruct Pc as [Pc|(l1 & k' & v' & l2 & E & _ & El)].
      - apply (Permutation_in _ Pc) in I. destruct I as [[= <- <-]|I]; [exact Aa | exact (Ia id v I)].
      - rewrite El in I. apply in_app_or in I. destruct I as [I|[[= <- <-]|I]].
        + apply (Ia id v). rewrite E. apply in_or_app. left. exact I.
        + apply (Ia k' v'). rewrite E. apply in_or_app. right. left. reflexivity.
        + apply (Ia id v). rewrite E. apply in_or_app. right. right. exact I. }
    assert (Pv : exists lost, Permutation (see (a, c) :: seen (p_conns p)) (seen conns ++ lost)).
    { destruct Pc as [Pc|(l1 & k' & v' & l2 & E & Ev & El)].
      - exists []. rewrite app_nil_r. unfold seen. rewrite (Permutation_map _ Pc). reflexivity.
      - exists [see (id_addr k', v')]. rewrite E, El. unfold seen. rewrite !map_app. cbn [map fst snd].
        assert (Vw : see (a, c) = see (id_addr k', c)).
        { unfold see. cbn [fst snd]. f_equal. apply view_ok; [exact Aa | apply (Ia k' v'); rewrite E; apply in_or_app; right; left; reflexivity|].
          apply same_endpoint_iff. destruct Ev as (E1 & E2 & E3 & _). cbn [id_addr] in *. auto. }
        rewrite Vw. apply perm_replaced. }
    assert (Ln : N.of_nat (length conns) <= p_size p + 1).
    { destruct Pc as [Pc|(l1 & k' & v' & l2 & E & _ & ->)]; [rewrite (Permutation_length Pc); cbn [length]; lia|]. rewrite E in Sz. rewrite app_length in *. cbn [length] in *. lia. }
    clearbody conns lru. clear Pc Pl. destruct Pv as (lost & Pv). cbn [drop_exceeded p_size p_conns p_lru p_seq p_black p_susp].
    destruct (N.ltb_spec (p_size p) (N.of_nat (length conns))) as [Lt|Ge].
    - destruct Nl as (s & b & r & ->). destruct (Lk' s b ltac:(left; reflexivity)) as (id & v & I & Ev). apply in_split in I. destruct I as (c1 & c2 & E). rewrite E in *.
      rewrite (cid_remove (mkCid b s) id v c1 c2 Sc' Ev). cbn [snd]. pose proof (lru_remove s ((s, b) :: r) Sl') as (L1 & L2 & L3).
      assert (Sz' : N.of_nat (length (c1 ++ c2)) <= p_size p) by (rewrite app_length in *; cbn [length] in Ln; lia).
      destruct (length (c1 ++ (id, v) :: c2)) eqn:El; [rewrite app_length in El; cbn in El; lia|]. cbn [drop_exceeded p_size p_conns].
      replace (p_size p <? N.of_nat (length (c1 ++ c2))) with false by (symmetry; apply N.ltb_ge; exact Sz').
      eexists _, (see (id_addr id, v) :: lost). split; [reflexivity|]. split; [|split; [|split; [reflexivity|split; [reflexivity|split; [reflexivity|]]]]].
      + unfold invW. cbn [p_conns p_lru p_size]. destruct (sorted_app cid_lt c1 _ c2 Sc') as (_ & _ & Sc2). split; [exact Sc2|]. split; [exact L1|]. split; [|exact Sz'].
        intros s' b' I. destruct (Lk' s' b' (L2 _ I)) as (id' & c' & I' & Ev'). exists id', c'. split; [|exact Ev']. apply in_or_app. apply in_app_or in I'.
        destruct I' as [I'|[[= <- <-]|I']]; auto. exfalso. apply (L3 _ I). cbn [fst]. destruct Ev as (_ & _ & _ & Ev). destruct Ev' as (_ & _ & _ & Ev'). cbn [id_seq] in *. rewrite Ev, Ev'. apply N.compare_refl.
      + intros id' c' I. apply (Ac id' c'). apply in_app_or in I. apply in_or_app. destruct I; [left|right; right]; assumption.
      + cbn [p_conns]. rewrite Pv. unfold seen. rewrite !map_app. cbn [map fst snd]. rewrite <- Permutation_middle. rewrite <- app_comm_cons. apply Permutation_middle.
    - eexists _, lost. split; [reflexivity|]. split; [|split; [exact Ac|split; [reflexivity|split; [reflexivity|split; [reflexivity | exact Pv]]]]].
      unfold invW. cbn [p_conns p_lru p_size]. auto.
  Qed.

  (** The counter. *)
  Lemma next_mod s n : s < 2 ^ 64 -> next_seq checks s = Ok n -> n = (s + 1) mod 2 ^ 64.
  Proof.
    intros L. unfold next_seq. destruct (N.ltb_spec s u64_max) as [Lt|Ge].
    - intros [= <-]. symmetry. apply N.mod_small. unfold u64_max in Lt. lia.
    - destruct checks; [discriminate|]. intros [= <-]. assert (s = u64_max) as -> by (unfold u64_max in *; lia). reflexivity.
  Qed.
  Lemma mod_step s k : ((s + 1) mod 2 ^ 64 + k) mod 2 ^ 64 = (s + (1 + k)) mod 2 ^ 64.
  Proof. rewrite N.add_mod_idemp_l by discriminate. f_equal. lia. Qed.

  Lemma handle_any now cm p : invW p -> invA p -> (forall a c, cm = ReleaseConnection a c -> A a) -> p_seq p < 2 ^ 64 ->
    (forall e, handle_command tmax checks now cm p <> Err e) /\ handle_command tmax checks now cm p <> Diverge /\
    (checks = false -> (forall a, cm = AddToBlacklist a -> (now + p_susp p <= tmax)%Z) -> handle_command tmax checks now cm p <> Panic) /\
    forall o p', handle_command tmax checks now cm p = Ok (o, p') -> invW p' /\ invA p' /\ p_size p' = p_size p /\ p_susp p' = p_susp p /\
      p_seq p' = (p_seq p + if is_release (now, cm) then 1 else 0) mod 2 ^ 64 /\
      exists lost, Permutation (seen (p_conns p) ++ map see (given [(now, cm)])) (map see (handed [(now, cm)] (match o with Some x => [x] | None => [] end)) ++ seen (p_conns p') ++ lost) /\
      length (match o with Some x => [x] | None => [] end) = length (wanted [(now, cm)]).
  Proof.
    intros Iw Ia Ar Sq. assert (S0 : p_seq p = (p_seq p + 0) mod 2 ^ 64) by (rewrite N.add_0_r, N.mod_small; [reflexivity | exact Sq]).
    destruct cm as [a i|a c|a]; cbn [handle_command].
    - assert (Ac : forall b, exists an p', acquire_connection a (mkPool (p_size p) (p_conns p) (p_lru p) (p_seq p) b (p_susp p)) = Ok (an, p') /\
        invW p' /\ invA p' /\ p_size p' = p_size p /\ p_susp p' = p_susp p /\ p_seq p' = (p_seq p + 0) mod 2 ^ 64 /\
        exists lost, Permutation (seen (p_conns p) ++ []) (map see (handed [(now, AcquireConnection a i)] [(i, an)]) ++ seen (p_conns p') ++ lost) /\ 1%nat = 1%nat).
      { intros b. destruct (acquire_any a (mkPool (p_size p) (p_conns p) (p_lru p) (p_seq p) b (p_susp p)) Iw Ia) as (an & p' & E & I1 & I2 & I3 & I4 & I5 & _ & I6).
        exists an, p'. cbn [p_size p_seq p_susp p_conns] in *. rewrite I4, <- S0. repeat (split; [assumption || reflexivity|]). exists []. split; [|reflexivity]. rewrite !app_nil_r. destruct I6 as [[-> ->]|(c & -> & P)]; [reflexivity | exact P]. }
      destruct (hm_remove a (p_black p)) as [o black]. destruct (Ac black) as (an & p' & E & Q). rewrite E.
      assert (Susp : forall t b, forall o p', Ok (Some (i, Suspended t), mkPool (p_size p) (p_conns p) (p_lru p) (p_seq p) b (p_susp p)) = Ok (o, p') -> invW p' /\ invA p' /\ p_size p' = p_size p /\ p_susp p' = p_susp p /\
         p_seq p' = (p_seq p + 0) mod 2 ^ 64 /\ exists lost, Permutation (seen (p_conns p) ++ map see (given [(now, AcquireConnection (C := C) a i)])) (map see (handed [(now, AcquireConnection a i)] (match o with Some x => [x] | None => [] end)) ++ seen (p_conns p') ++ lost) /\
           length (match o with Some x => [x] | None => [] end) = length (wanted [(now, AcquireConnection (C := C) a i)])).
      { intros t b o' q [= <- <-]. cbn [p_size p_seq p_susp p_conns]. repeat (split; [assumption || reflexivity|]). exists []. split; [|reflexivity]. rewrite !app_nil_r. reflexivity. }
      destruct o as [t|]; [destruct (now <? t)%Z|]; cbn [bind]; (split; [discriminate|split; [discriminate|split; [discriminate|]]]); [apply Susp | |]; intros o' q [= <- <-]; exact Q.
    - destruct (release_any a c p Iw Ia (Ar a c eq_refl)) as [R1 R2].
      assert (Ns : (forall e, next_seq checks (p_seq p) <> Err e) /\ next_seq checks (p_seq p) <> Diverge /\ (checks = false -> next_seq checks (p_seq p) <> Panic)).
      { unfold next_seq. destruct (p_seq p <? u64_max); [|destruct checks]; repeat split; congruence. }
      destruct Ns as (Ne & Nd & Np). destruct (next_seq checks (p_seq p)) as [n|e| |] eqn:En; [|elim (Ne e eq_refl)| |elim (Nd eq_refl)].
      + destruct (R2 n eq_refl) as (p' & lost & E & I1 & I2 & I3 & I4 & I5 & P). rewrite E. cbn [bind]. split; [discriminate|]. split; [discriminate|]. split; [discriminate|].
        intros o q [= <- <-]. repeat (split; [assumption|]). split; [rewrite I5; exact (next_mod _ _ Sq En)|]. exists lost. split; [|reflexivity]. cbn [given flat_map snd app map handed wanted combine]. rewrite <- Permutation_cons_append. exact P.
      + rewrite (R1 eq_refl). cbn [bind]. split; [discriminate|]. split; [discriminate|]. split; [|discriminate]. intros Ck. elim (Np Ck eq_refl).
    - destruct (Z.leb_spec (now + p_susp p) tmax) as [Le|Gt].
      + split; [discriminate|]. split; [discriminate|]. split; [discriminate|]. intros o q [= <- <-]. cbn [p_size p_seq p_susp p_conns]. repeat (split; [assumption || reflexivity|]). exists []. split; [|reflexivity]. rewrite !app_nil_r. reflexivity.
      + split; [discriminate|]. split; [discriminate|]. split; [|discriminate]. intros _ Q. specialize (Q a eq_refl). lia.
  Qed.

  Lemma handed_cons now cm (h : list (Z * command C)) xs ys : length xs = length (wanted [(now, cm)]) -> handed ((now, cm) :: h) (xs ++ ys) = handed [(now, cm)] xs ++ handed h ys.
  Proof.
    destruct cm as [a i|a c|a]; unfold handed, wanted; cbn [flat_map snd app length].
    - destruct xs as [|x [|x' xs]]; try discriminate. intros _. cbn [app combine flat_map]. rewrite app_nil_r. reflexivity.
    - destruct xs; [|discriminate]. reflexivity.
    - destruct xs; [|discriminate]. reflexivity.
  Qed.
  Lemma perm_steps {T} (a g1 g2 h1 h2 b d l1 l2 : list T) : Permutation (a ++ g1) (h1 ++ b ++ l1) -> Permutation (b ++ g2) (h2 ++ d ++ l2) -> Permutation (a ++ g1 ++ g2) ((h1 ++ h2) ++ d ++ l2 ++ l1).
  Proof.
    intros P1 P2. rewrite app_assoc, P1. rewrite <- !app_assoc. apply Permutation_app_head. rewrite (Permutation_app_comm l1 g2), app_assoc, P2, <- !app_assoc. reflexivity.
  Qed.

  Theorem run_any : forall h p, invW p -> invA p -> (forall now a c, In (now, ReleaseConnection a c) h -> A a) -> p_seq p < 2 ^ 64 ->
    (forall e, run tmax checks h p <> Err e) /\ run tmax checks h p <> Diverge /\ (checks = false -> representable tmax (p_susp p) h -> run tmax checks h p <> Panic) /\
    forall xs p', run tmax checks h p = Ok (xs, p') -> invW p' /\ p_size p' = p_size p /\ p_susp p' = p_susp p /\ p_seq p' = (p_seq p + releases h) mod 2 ^ 64 /\
      exists lost, Permutation (seen (p_conns p) ++ map see (given h)) (map see (handed h xs) ++ seen (p_conns p') ++ lost).
  Proof.
    induction h as [|[now cm] h IH]; intros p Iw Ia Ar Sq; cbn [run].
    - split; [discriminate|]. split; [discriminate|]. split; [discriminate|]. intros xs p' [= <- <-]. split; [exact Iw|]. repeat (split; [reflexivity|]).
      split; [unfold releases; cbn; rewrite N.add_0_r, N.mod_small; [reflexivity | exact Sq]|]. exists []. rewrite !app_nil_r. reflexivity.
    - destruct (handle_any now cm p Iw Ia) as (H1 & H2 & H3 & H4); [intros a c ->; apply (Ar now a c); left; reflexivity | exact Sq|].
      destruct (handle_command tmax checks now cm p) as [[o p1]|e| |]; cbn [bind]; [|elim (H1 e eq_refl)| |elim (H2 eq_refl)].
      + destruct (H4 o p1 eq_refl) as (I1 & I2 & I3 & I4 & I5 & lost & P1 & L1). clear H1 H2 H3 H4.
        destruct (IH p1 I1 I2) as (G1 & G2 & G3 & G4); [intros n a c I; apply (Ar n a c); right; exact I | rewrite I5; apply N.mod_lt; discriminate|]. rewrite I4 in G3.
        assert (Rp : representable tmax (p_susp p) ((now, cm) :: h) -> representable tmax (p_susp p) h) by (intros Rp n a I; apply (Rp n a); right; exact I).
        destruct (run tmax checks h p1) as [[xs2 p2]|e| |]; cbn [bind]; [|elim (G1 e eq_refl)| |elim (G2 eq_refl)].
        * split; [discriminate|]. split; [discriminate|]. split; [discriminate|]. intros xs p' [= <- <-]. destruct (G4 xs2 p2 eq_refl) as (J1 & J2 & J3 & J4 & lost2 & P2).
          split; [exact J1|]. split; [congruence|]. split; [congruence|]. split.
          -- rewrite J4, I5. unfold releases. cbn [filter]. destruct (is_release (now, cm)); cbn [length].
             ++ rewrite mod_step. f_equal. lia.
             ++ rewrite N.add_0_r, (N.mod_small (p_seq p)) by exact Sq. reflexivity.
          -- exists (lost2 ++ lost). assert (Ex : match o with Some x => x :: xs2 | None => xs2 end = (match o with Some x => [x] | None => [] end) ++ xs2) by (destruct o; reflexivity).
             rewrite Ex, (handed_cons now cm h _ xs2 L1). change (given ((now, cm) :: h)) with (given ([(now, cm)] ++ h)). unfold given. rewrite flat_map_app, !map_app.
             exact (perm_steps _ _ _ _ _ _ _ _ _ P1 P2).
        * split; [discriminate|]. split; [discriminate|]. split; [|discriminate]. intros Ck R. elim (G3 Ck (Rp R) eq_refl).
      + split; [discriminate|]. split; [discriminate|]. split; [|discriminate]. intros Ck R. elim (H3 Ck); [|reflexivity]. intros a ->. apply (R now a). left. reflexivity.
  Qed.
End Wrap.

Section Whole.
  Context {C : Type}.
  Variables (tmax : Z) (checks : bool).
  Lemma invW_new size d : invW (pool_new (C := C) size d).
  Proof. unfold invW, pool_new. cbn. split; [constructor|]. split; [constructor|]. split; [intros ? ? [] | lia]. Qed.

  Lemma run_from_new (A : saddr -> Prop) X (view : saddr -> X) size d (h : list (Z * command C)) : (forall a b, A a -> A b -> same_endpoint a b = true -> view a = view b) ->
    (forall now a c, In (now, ReleaseConnection a c) h -> A a) ->
    (forall e, run tmax checks h (pool_new size d) <> Err e) /\ run tmax checks h (pool_new size d) <> Diverge /\ (checks = false -> representable tmax d h -> run tmax checks h (pool_new size d) <> Panic) /\
    forall xs p, run tmax checks h (pool_new size d) = Ok (xs, p) -> p_seq p = releases h mod 2 ^ 64 /\ p_susp p = d /\
      exists lost, Permutation (map (see X view) (given h)) (map (see X view) (handed h xs) ++ map (see X view) (kept p) ++ lost).
  Proof.
    intros V Ar. destruct (run_any tmax checks A X view V h (pool_new size d) (invW_new size d)) as (G1 & G2 & G3 & G4); [intros ? ? [] | exact Ar | reflexivity|].
    split; [exact G1|]. split; [exact G2|]. split; [exact G3|]. intros xs p E. destruct (G4 xs p E) as (_ & _ & J1 & J2 & lost & P). split; [exact J2|]. split; [exact J1|]. exists lost.
    unfold kept. rewrite map_map. exact P.
  Qed.

  Theorem counter_wraps size d (h : list (Z * command C)) xs p : run tmax checks h (pool_new size d) = Ok (xs, p) -> p_seq p = releases h mod 2 ^ 64.
  Proof. intros E. destruct (run_from_new (fun _ => True) unit (fun _ => tt) size d h (fun _ _ _ _ _ => eq_refl) (fun _ _ _ _ => I)) as (_ & _ & _ & G). destruct (G xs p E) as (J & _). exact J. Qed.

  Theorem kept_by_endpoint size d (h : list (Z * command C)) xs p : run tmax checks h (pool_new size d) = Ok (xs, p) ->
    exists lost, Permutation (map at_endpoint (given h)) (map at_endpoint (handed h xs) ++ map at_endpoint (kept p) ++ lost).
  Proof.
    intros E. destruct (run_from_new (fun _ => True) (N * N * N) endpoint size d h) as (_ & _ & _ & G); [|auto|].
    - intros a b _ _ Se. apply same_endpoint_iff in Se. unfold endpoint. destruct Se as (E1 & E2 & E3). congruence.
    - destruct (G xs p E) as (_ & _ & J). exact J.
  Qed.
  Theorem kept_by_address size d (h : list (Z * command C)) xs p : unaliased h -> run tmax checks h (pool_new size d) = Ok (xs, p) ->
    exists lost, Permutation (given h) (handed h xs ++ kept p ++ lost).
  Proof.
    intros Un E. destruct (run_from_new (fun a => exists x, In x h /\ address (snd x) = a) saddr (fun a => a) size d h) as (_ & _ & _ & G).
    - intros a b (x & Ix & <-) (y & Iy & <-) Se. exact (Un x y Ix Iy Se).
    - intros now a c I. exists (now, ReleaseConnection a c). auto.
    - destruct (G xs p E) as (_ & _ & lost & P). exists lost. assert (Id : forall l : list (saddr * C), map (see saddr (fun a => a)) l = l).
      { induction l as [|[a c] l IHl]; [reflexivity|]. cbn [map]. rewrite IHl. reflexivity. }
      rewrite !Id in P. exact P.
  Qed.
End Whole.

Theorem panics_unchecked {C} tmax size d (h : list (Z * command C)) :
  (run tmax false h (pool_new size d) = Panic <-> exists now a, In (now, AddToBlacklist a) h /\ (tmax < now + d)%Z) /\
  (forall e, run tmax false h (pool_new size d) <> Err e) /\ run tmax false h (pool_new size d) <> Diverge.
Proof.
  assert (R : forall h : list (Z * command C), (forall e, run tmax false h (pool_new size d) <> Err e) /\ run tmax false h (pool_new size d) <> Diverge /\ (representable tmax d h -> run tmax false h (pool_new size d) <> Panic) /\
    forall xs p, run tmax false h (pool_new size d) = Ok (xs, p) -> p_susp p = d).
  { intros h'. destruct (run_from_new tmax false (fun _ => True) unit (fun _ => tt) size d h' (fun _ _ _ _ _ => eq_refl) (fun _ _ _ _ => I)) as (G1 & G2 & G3 & G4).
    split; [exact G1|]. split; [exact G2|]. split; [exact (G3 eq_refl)|]. intros xs p E. destruct (G4 xs p E) as (_ & J & _). exact J. }
  destruct (R h) as (G1 & G2 & G3 & _). split; [|auto]. split.
  - intros E. destruct (Exists_dec (fun x => match snd x with AddToBlacklist _ => (tmax < fst x + d)%Z | _ => False end) h) as [X|X].
    + intros [now [a i|a c|a]]; cbn [snd fst]; auto. destruct (Z_lt_dec tmax (now + d)); auto.
    + apply Exists_exists in X. destruct X as ([now cm] & I & L). cbn [snd fst] in L. destruct cm as [a i|a c|a]; try contradiction. exists now, a. auto.
    + exfalso. apply G3; [|exact E]. intros now a I. destruct (Z.le_gt_cases (now + d) tmax) as [Le|Gt]; [exact Le|]. elim X. apply Exists_exists. exists (now, AddToBlacklist a). split; [exact I | cbn; lia].
  - intros (now & a & I & L). apply in_split in I. destruct I as (h1 & h2 & ->). rewrite run_app. destruct (R h1) as (F1 & F2 & _ & F4).
    destruct (run tmax false h1 (pool_new size d)) as [[xs p]|e| |]; cbn [bind]; [|elim (F1 e eq_refl) | reflexivity | elim (F2 eq_refl)].
    cbn [run handle_command]. rewrite (F4 xs p eq_refl). replace (now + d <=? tmax)%Z with false by (symmetry; apply Z.leb_gt; lia). reflexivity.
Qed.
