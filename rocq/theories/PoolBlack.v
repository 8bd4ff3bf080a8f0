(** * What the list of suspended addresses contains (C81). *)
From Verif Require Import Base Serde Procedure Router SerRequest DeHeader DeResponse DepUrl Error Client ClientSpec ClientProofs Pool PoolSpec PoolProofs PoolSystem PoolSystemSpec PoolSystemProofs PoolSystemInv PoolSystemReport PoolBlackSpec.
Open Scope N_scope.

Section Black.
Context {C : Type}.
Variables (tmax : Z) (checks : bool).
Notation hist := (list (Z * command C)).

Lemma acquire_black a (p : pool C) an p' : acquire_connection a p = Ok (an, p') -> p_black p' = p_black p /\ p_susp p' = p_susp p.
Proof.
  unfold acquire_connection. destruct (bt_from cid_cmp (mkCid a 0) (p_conns p)) as [|[id x] l]; [intros [= _ <-]; auto|].
  destruct (saddr_eqb (id_addr id) a); [|intros [= _ <-]; auto]. cbv zeta. destruct (bt_remove cid_cmp id (p_conns p)) as [[c|] conns]; intros [=]; subst; auto.
Qed.
Lemma drop_black n : forall (p p' : pool C), drop_exceeded n p = Ok p' -> p_black p' = p_black p /\ p_susp p' = p_susp p.
Proof.
  induction n as [|n IH]; intros p p'; cbn [drop_exceeded]; [discriminate|]. destruct (p_size p <? N.of_nat (length (p_conns p))); [|intros [= <-]; auto].
  destruct (p_lru p) as [|[q a] l]; [discriminate|]. intros E. apply IH in E. exact E.
Qed.
Lemma release_black a c (p p' : pool C) : release_connection checks a c p = Ok p' -> p_black p' = p_black p /\ p_susp p' = p_susp p.
Proof. unfold release_connection. destruct (next_seq checks (p_seq p)) as [n|e| |]; cbn [bind]; try discriminate. intros E. apply drop_black in E. exact E. Qed.

Lemma command_black now c (p : pool C) o p' past : handle_command tmax checks now c p = Ok (o, p') -> black_ok p (p_susp p) past -> black_ok p' (p_susp p) (past ++ [(now, c)]) /\ p_susp p' = p_susp p.
Proof.
  intros E [Nd Df]. destruct c as [a i|a c|a]; cbn [handle_command] in E.
  - destruct (hm_remove_spec a (p_black p)) as (R1 & R2 & R3 & _). destruct (R2 Nd) as (R21 & R22 & R23). rewrite Df in R1. destruct (hm_remove a (p_black p)) as [o1 black]. cbn [fst snd] in *.
    assert (Q : (forall t, o1 = Some t -> (t <= now)%Z) -> p_black p' = black /\ p_susp p' = p_susp p -> black_ok p' (p_susp p) (past ++ [(now, AcquireConnection a i)]) /\ p_susp p' = p_susp p).
    { intros G [Eb Es]. split; [|exact Es]. unfold black_ok. rewrite Eb. split; [exact R21|]. intros b. rewrite deadline_snoc. cbn [deadline_step]. destruct (saddr_eqb_spec a b) as [<-|Nb].
      - rewrite <- R1, R23. destruct o1 as [t|]; [|reflexivity]. specialize (G t eq_refl). destruct (Z.ltb_spec now t); [lia | reflexivity].
      - rewrite <- Df. apply R3. congruence. }
    destruct o1 as [t|].
    + destruct (Z.ltb_spec now t) as [L|L].
      * injection E as <- <-. split; [|reflexivity]. destruct (hm_insert_spec a t black R21) as [H1 H2]. unfold black_ok. cbn [p_black]. split; [exact H1|]. intros b. rewrite H2, deadline_snoc. cbn [deadline_step].
        destruct (saddr_eqb_spec b a) as [->|Nb]; [rewrite saddr_eqb_refl, <- R1; destruct (Z.ltb_spec now t); [reflexivity | lia]|].
        destruct (saddr_eqb_spec a b) as [->|_]; [congruence|]. rewrite <- Df. apply R3, Nb.
      * destruct (acquire_connection a _) as [[an p1]|e| |] eqn:Ea; cbn [bind] in E; try discriminate. injection E as _ <-. apply acquire_black in Ea. apply Q; [intros t' [= <-]; exact L | exact Ea].
    + destruct (acquire_connection a _) as [[an p1]|e| |] eqn:Ea; cbn [bind] in E; try discriminate. injection E as _ <-. apply acquire_black in Ea. apply Q; [discriminate | exact Ea].
  - destruct (release_connection checks a c p) as [p1|e| |] eqn:Er; cbn [bind] in E; try discriminate. injection E as _ <-. apply release_black in Er. destruct Er as [Eb Es]. split; [|exact Es].
    unfold black_ok. rewrite Eb. split; [exact Nd|]. intros b. rewrite deadline_snoc. apply Df.
  - destruct (now + p_susp p <=? tmax)%Z; [|discriminate]. injection E as _ <-. split; [|reflexivity]. destruct (hm_insert_spec a (now + p_susp p)%Z (p_black p) Nd) as [H1 H2].
    unfold black_ok. cbn [p_black]. split; [exact H1|]. intros b. rewrite H2, deadline_snoc. cbn [deadline_step]. destruct (saddr_eqb_spec b a) as [->|Nb]; [rewrite saddr_eqb_refl; reflexivity|].
    destruct (saddr_eqb_spec a b) as [->|_]; [congruence | apply Df].
Qed.
Lemma run_black : forall (h : hist) (p : pool C) xs p' past, run tmax checks h p = Ok (xs, p') -> black_ok p (p_susp p) past -> black_ok p' (p_susp p) (past ++ h).
Proof.
  induction h as [|[now c] h IH]; intros p xs p' past; cbn [run]; [intros [= _ <-] B; rewrite app_nil_r; exact B|].
  destruct (handle_command tmax checks now c p) as [[o p1]|e| |] eqn:E; cbn [bind]; try discriminate. destruct (run tmax checks h p1) as [[l p2]|e| |] eqn:Er; cbn [bind]; try discriminate. intros [= _ <-] B.
  destruct (command_black now c p o p1 past E B) as [B1 Es]. rewrite <- Es in B1. pose proof (IH p1 l p2 _ Er B1) as Q. rewrite Es, <- app_assoc in Q. exact Q.
Qed.

Lemma find_in a t l : NoDup (map fst l) -> (In (a, t) l <-> hm_find a l = Some t).
Proof.
  induction l as [|[b t'] l IH]; cbn [hm_find map fst]; intros D; [split; [intros [] | discriminate]|]. inversion D as [|? ? N D']; subst. destruct (saddr_eqb_spec a b) as [->|Nb].
  - split; [intros [[= ->]|I]; [reflexivity|]; elim N; apply in_map_iff; exists (b, t); auto | intros [= ->]; left; reflexivity].
  - rewrite <- (IH D'). split; [intros [[= -> _]|I]; [congruence | exact I] | right; assumption].
Qed.
Theorem black_exact size d (h : hist) xs p : run tmax checks h (pool_new size d) = Ok (xs, p) ->
  NoDup (map fst (p_black p)) /\ forall a t, In (a, t) (p_black p) <-> exists past n mid, h = past ++ (n, AddToBlacklist a) :: mid /\ t = (n + d)%Z /\ Forall (quiet a t) mid.
Proof.
  intros E. destruct (run_black h _ xs p [] E (black_new size d)) as [Nd Df]. split; [exact Nd|]. intros a t. rewrite (find_in a t _ Nd), Df. split.
  - apply deadline_origin.
  - intros (past & n & mid & -> & -> & Q). apply failed_deadline. exact Q.
Qed.
Theorem black_bound size d (h : hist) xs p : run tmax checks h (pool_new size d) = Ok (xs, p) -> incl (map fst (p_black p)) (reported h).
Proof.
  intros E a I. apply in_map_iff in I. destruct I as ([b t] & <- & I). apply (black_exact size d h xs p E) in I. destruct I as (past & n & mid & -> & _ & _). unfold reported. rewrite flat_map_app. apply in_or_app. right. left. reflexivity.
Qed.
End Black.
