(** * The connections that calls through a pool use up: proofs (C98). *)
From Verif Require Import Base Serde Procedure Router SerRequest DeHeader DepUrl Error Client ClientSpec Pool PoolSpec PoolProofs PoolSystem PoolSystemSpec PoolSystemProofs PoolLoadSpec PoolLoad EconomySpec.
Open Scope nat_scope.

Section Economy.
Context `{floatlib} `{urlenv}.
Variables (tmax : Z) (checks : bool).

(** Where a call is: waiting for an answer, refused, connecting, with a connection, finished, or lost. *)
Inductive rung := RWait | RRefused | RConn | RHold | RFin | RLost.
Definition rung_eqb (x y : rung) : bool := match x, y with RWait, RWait | RRefused, RRefused | RConn, RConn | RHold, RHold | RFin, RFin | RLost, RLost => true | _, _ => false end.
Definition rung_of (x : cstate) : rung :=
  match x with
  | Acquiring None => RWait | Acquiring (Some PSuspended) => RRefused | Acquiring (Some (PIdle _)) => RHold | Acquiring (Some (PConnect _)) => RConn
  | Talking _ _ => RHold | Finished _ _ => RFin | _ => RLost
  end.
Definition at_rung (a : saddr) (r : rung) (pc : pcall) : bool := saddr_eqb (c_addr pc) a && rung_eqb (rung_of (c_state pc)) r.
Definition num (a : saddr) (r : rung) (l : list pcall) : nat := length (filter (at_rung a r) l).

Lemma num_set a r x l i pc : nth_error l i = Some pc ->
  num a r (set_state i x l) + one (saddr_eqb (c_addr pc) a && rung_eqb (rung_of (c_state pc)) r) = num a r l + one (saddr_eqb (c_addr pc) a && rung_eqb (rung_of x) r).
Proof. exact (count_set (at_rung a r) x l i pc). Qed.

(** Going on is waiting, refused, connecting or with a connection. *)
Lemma going_num a l : length (filter (going_to a) l) = num a RWait l + num a RRefused l + num a RConn l + num a RHold l.
Proof.
  unfold num. induction l as [|pc l IH]; [reflexivity|]. cbn [filter].
  assert (X : one (going_to a pc) = one (at_rung a RWait pc) + one (at_rung a RRefused pc) + one (at_rung a RConn pc) + one (at_rung a RHold pc)).
  { unfold going_to, at_rung, going. destruct (saddr_eqb (c_addr pc) a); [|reflexivity]. destruct (c_state pc) as [[[|c|f]|]|c k| | | |]; reflexivity. }
  unfold one in X. destruct (going_to a pc), (at_rung a RWait pc), (at_rung a RRefused pc), (at_rung a RConn pc), (at_rung a RHold pc); cbn [length]; lia.
Qed.
Lemma lost_num a l : length (filter (lost_to a) l) = num a RLost l.
Proof.
  unfold num. f_equal. apply filter_ext. intros pc. unfold lost_to, at_rung. destruct (saddr_eqb (c_addr pc) a); [|reflexivity].
  destruct (c_state pc) as [[[|c|f]|]|c k| | | |]; reflexivity.
Qed.

(** ** The queue *)
Definition rel_of (a : saddr) (c : command conn) : bool := match c with ReleaseConnection b _ => saddr_eqb b a | _ => false end.
Definition rels (a : saddr) (q : list (command conn)) : nat := length (filter (rel_of a) q).
Definition is_waiting (l : list pcall) (i : nat) : bool := match nth_error l i with Some pc => rung_eqb (rung_of (c_state pc)) RWait | None => false end.
Definition live_of (a : saddr) (l : list pcall) (c : command conn) : bool := match c with AcquireConnection b i => saddr_eqb b a && is_waiting l i | _ => false end.
Definition dead_of (a : saddr) (l : list pcall) (c : command conn) : bool := match c with AcquireConnection b i => saddr_eqb b a && negb (is_waiting l i) | _ => false end.
Definition lives (a : saddr) (l : list pcall) q : nat := length (filter (live_of a l) q).
Definition deads (a : saddr) (l : list pcall) q : nat := length (filter (dead_of a l) q).
Definition asked (c : command conn) : list nat := match c with AcquireConnection _ i => [i] | _ => [] end.

(** When the pool comes to a call that waits for it, the calls with or without connections ahead of it and the connections
    behind it are no more than [k]. *)
Fixpoint fitting (k : nat) (a : saddr) (l : list pcall) (n : nat) (q : list (command conn)) : Prop :=
  match q with
  | [] => True
  | c :: q => if live_of a l c then n + 1 + rels a q <= k /\ fitting k a l (S n) q else fitting k a l n q
  end.
Lemma fitting_less k a l l' : forall q n n', n' <= n -> (forall c, In c q -> live_of a l' c = true -> live_of a l c = true) -> fitting k a l n q -> fitting k a l' n' q.
Proof.
  induction q as [|c q IH]; intros n n' L Lv; cbn [fitting]; [auto|]. assert (Lq : forall c, In c q -> live_of a l' c = true -> live_of a l c = true) by (intros x I; apply Lv; right; exact I).
  specialize (Lv c (or_introl eq_refl)).
  destruct (live_of a l' c) eqn:E'.
  - rewrite (Lv eq_refl). intros [A B]. split; [lia|]. apply (IH (S n)); [lia | exact Lq | exact B].
  - destruct (live_of a l c); [intros [_ B]; apply (IH (S n)); [lia | exact Lq | exact B] | apply (IH n); [lia | exact Lq]].
Qed.
Lemma rels_app a q q' : rels a (q ++ q') = rels a q + rels a q'.
Proof. unfold rels. rewrite filter_app, app_length. reflexivity. Qed.
Lemma fitting_other k a l c : live_of a l c = false -> rel_of a c = false -> forall q n, fitting k a l n q -> fitting k a l n (q ++ [c]).
Proof.
  intros Lc Rc. induction q as [|x q IH]; intros n; cbn [fitting app]; [rewrite Lc; auto|]. rewrite rels_app. replace (rels a [c]) with 0 by (unfold rels; cbn [filter]; rewrite Rc; reflexivity).
  destruct (live_of a l x); [intros [A B]; split; [lia | apply IH, B] | apply IH].
Qed.
Lemma fitting_back k a l b c : forall q n, fitting k a l (S n) q -> fitting k a l n (q ++ [ReleaseConnection b c]).
Proof.
  induction q as [|x q IH]; intros n; cbn [fitting app]; [auto|]. rewrite rels_app. assert (L : rels a [ReleaseConnection b c] <= 1) by (unfold rels; cbn [filter rel_of]; destruct (saddr_eqb b a); cbn [length]; lia).
  destruct (live_of a l x); [|apply IH]. intros [A B]. split; [lia | apply IH, B].
Qed.
Lemma fitting_ask k a l b i : forall q n, n + lives a l q + 1 <= k -> fitting k a l n q -> fitting k a l n (q ++ [AcquireConnection b i]).
Proof.
  induction q as [|x q IH]; intros n; unfold lives; cbn [fitting app filter].
  - cbn [length]. intros L _. destruct (live_of a l _); [|exact I]. split; [unfold rels; cbn; lia | exact I].
  - rewrite rels_app. change (rels a [AcquireConnection b i]) with 0. destruct (live_of a l x); cbn [length]; intros L; [|apply IH; exact L].
    intros [A B]. split; [lia|]. apply IH; [unfold lives; lia | exact B].
Qed.

(** ** What is known of the queue: each call asks once, in its own name *)
Definition named (l : list pcall) (c : command conn) : Prop := match c with AcquireConnection b i => exists pc, nth_error l i = Some pc /\ c_addr pc = b | _ => True end.
Definition tidy (l : list pcall) (q : list (command conn)) : Prop := NoDup (flat_map asked q) /\ Forall (named l) q.
Lemma nth_set_same i x : forall l pc, nth_error l i = Some pc -> nth_error (set_state i x l) i = Some (with_state x pc).
Proof. induction i as [|i IH]; intros [|p l] pc E; cbn in *; try discriminate; [injection E as ->; reflexivity | apply IH, E]. Qed.
Lemma nth_set_other i j x : i <> j -> forall l, nth_error (set_state i x l) j = nth_error l j.
Proof. revert j. induction i as [|i IH]; intros [|j] N [|p l]; cbn; try reflexivity; [contradiction | apply IH; congruence]. Qed.
Lemma named_set l i x c : named l c -> named (set_state i x l) c.
Proof.
  destruct c as [b j|b c|b]; cbn; auto. intros (pc & E & A). destruct (Nat.eq_dec i j) as [->|N]; [exists (with_state x pc); split; [apply nth_set_same, E | exact A] | exists pc; rewrite nth_set_other by exact N; auto].
Qed.
Lemma tidy_set l i x q : tidy l q -> tidy (set_state i x l) q.
Proof. intros [A B]. split; [exact A|]. eapply Forall_impl; [|exact B]. intros c. apply named_set. Qed.
Lemma tidy_more l q c : asked c = [] -> tidy l q -> tidy l (q ++ [c]).
Proof.
  intros E [A B]. split; [rewrite flat_map_app; cbn; rewrite E, app_nil_r; exact A|]. apply Forall_app. split; [exact B|]. constructor; [|constructor]. destruct c; [discriminate | exact I | exact I].
Qed.
Lemma tidy_tail l c q : tidy l (c :: q) -> tidy l q.
Proof. intros [A B]. split; [|inversion B; assumption]. cbn in A. destruct (asked c) as [|i [|]] eqn:E; [exact A | inversion A; assumption | destruct c; discriminate]. Qed.

(** A change of one call, seen from the queue. *)
Lemma waiting_other l i x j : i <> j -> is_waiting (set_state i x l) j = is_waiting l j.
Proof. intros N. unfold is_waiting. rewrite nth_set_other by exact N. reflexivity. Qed.
Lemma waiting_same l i x pc : nth_error l i = Some pc -> is_waiting (set_state i x l) i = rung_eqb (rung_of x) RWait.
Proof. intros E. unfold is_waiting. rewrite (nth_set_same _ _ _ _ E). reflexivity. Qed.
Lemma live_down a l i x pc c : nth_error l i = Some pc -> (rung_of x = RWait -> rung_of (c_state pc) = RWait) -> live_of a (set_state i x l) c = true -> live_of a l c = true.
Proof.
  intros E W. destruct c as [b j|b c|b]; cbn; auto. rewrite !andb_true_iff. intros [A B]. split; [exact A|]. destruct (Nat.eq_dec i j) as [->|N]; [|rewrite waiting_other in B by exact N; exact B].
  rewrite (waiting_same _ _ _ _ E) in B. unfold is_waiting. rewrite E. destruct (rung_of x) eqn:R; try discriminate. rewrite W by reflexivity. reflexivity.
Qed.
(** Nothing dead is added if the call does not stop waiting; at most one ask dies if it does, and none if it did not ask. *)
Lemma deads_same a l i x pc : nth_error l i = Some pc -> (rung_of x = RWait <-> rung_of (c_state pc) = RWait) -> forall q, deads a (set_state i x l) q = deads a l q.
Proof.
  intros E W q. unfold deads. f_equal. apply filter_ext. intros [b j|b c|b]; cbn; auto. f_equal. f_equal. destruct (Nat.eq_dec i j) as [->|N]; [|apply waiting_other, N].
  rewrite (waiting_same _ _ _ _ E). unfold is_waiting. rewrite E. destruct W as [W1 W2]. destruct (rung_of x), (rung_of (c_state pc)); try reflexivity; (specialize (W1 eq_refl); discriminate) || (specialize (W2 eq_refl); discriminate).
Qed.
Lemma deads_silent a l i x q : ~ In i (flat_map asked q) -> deads a (set_state i x l) q = deads a l q.
Proof.
  intros N. unfold deads. induction q as [|c q IH]; [reflexivity|]. cbn [filter flat_map] in *. rewrite in_app_iff in N. assert (X : dead_of a (set_state i x l) c = dead_of a l c).
  { destruct c as [b j|b c|b]; cbn; auto. rewrite waiting_other; [reflexivity|]. intros ->. apply N. left. left. reflexivity. }
  rewrite X. specialize (IH (fun I => N (or_intror I))). destruct (dead_of a l c); cbn [length]; lia.
Qed.
Lemma deads_one a l i x pc q : nth_error l i = Some pc -> tidy l q -> deads a (set_state i x l) q <= deads a l q + one (saddr_eqb (c_addr pc) a).
Proof.
  intros E. unfold deads. induction q as [|c q IH]; intros T; [cbn; lia|]. pose proof (tidy_tail _ _ _ T) as Tq. specialize (IH Tq). cbn [filter].
  destruct c as [b j|b c|b]; cbn [dead_of]; [|exact IH..]. destruct (Nat.eq_dec i j) as [<-|N].
  - destruct T as [Nd Nm]. cbn in Nd. inversion Nd as [|? ? Ni _]; subst. pose proof (Forall_inv Nm) as (pc' & E' & A). rewrite E in E'. injection E' as <-. rewrite <- A.
    pose proof (deads_silent a l i x q Ni) as D. unfold deads in D. unfold one. destruct (saddr_eqb (c_addr pc) a); cbn [andb]; [|lia].
    destruct (negb (is_waiting (set_state i x l) i)), (negb (is_waiting l i)); cbn [length]; lia.
  - rewrite waiting_other by exact N. destruct (saddr_eqb b a && negb (is_waiting l j)); cbn [length]; lia.
Qed.
Lemma lives_num a l q : tidy l q -> lives a l q <= num a RWait l.
Proof.
  intros T. set (ids := flat_map asked (filter (live_of a l) q)).
  assert (L : lives a l q = length ids).
  { unfold lives, ids. clear T. induction q as [|c q IH]; [reflexivity|]. cbn [filter]. destruct (live_of a l c) eqn:E; [|exact IH]. cbn [flat_map length]. rewrite app_length, <- IH. destruct c; [reflexivity | discriminate..]. }
  assert (Nd : NoDup ids).
  { unfold ids. destruct T as [T _]. clear L ids. induction q as [|c q IH]; [constructor|]. cbn [filter flat_map] in *. assert (Tq : NoDup (flat_map asked q)) by (destruct c; [inversion T; assumption | exact T | exact T]).
    destruct (live_of a l c) eqn:E; [|exact (IH Tq)]. destruct c as [b j|b c|b]; [|discriminate..]. cbn in *. inversion T as [|? ? Ni _]; subst. constructor; [|exact (IH Tq)].
    intros I. apply Ni. apply in_flat_map in I. destruct I as (c & I & J). apply filter_In in I. apply in_flat_map. exists c. tauto. }
  assert (X : forall l0 (p0 : list nat), NoDup p0 -> (forall i, In i p0 -> exists pc, nth_error l0 i = Some pc /\ at_rung a RWait pc = true) -> length p0 <= num a RWait l0).
  { clear. induction l0 as [|pc l0 IH]; intros p0 Nd In0.
    - destruct p0 as [|i p0]; [apply le_n|]. destruct (In0 i (or_introl eq_refl)) as (pc & E & _). destruct i; discriminate.
    - specialize (IH (map pred (filter (fun i => negb (Nat.eqb i 0)) p0))). rewrite map_length in IH.
      assert (Y : length p0 <= length (filter (fun i => negb (Nat.eqb i 0)) p0) + one (existsb (fun i => Nat.eqb i 0) p0)).
      { clear - Nd. induction Nd as [|i p0 Ni Nd IH]; [cbn; lia|]. cbn [filter existsb]. destruct i as [|i]; cbn [negb Nat.eqb orb one].
        - assert (Z : filter (fun i => negb (Nat.eqb i 0)) p0 = p0). { clear IH Nd. induction p0 as [|[|j] p0 IH]; cbn; [reflexivity | destruct Ni; left; reflexivity | f_equal; apply IH; intros I; apply Ni; right; exact I]. } rewrite Z. cbn [length]. lia.
        - cbn [length]. lia. }
      unfold num in *. cbn [filter]. assert (Z : one (existsb (fun i => Nat.eqb i 0) p0) <= one (at_rung a RWait pc)).
      { destruct (existsb (fun i => Nat.eqb i 0) p0) eqn:Ex; [|cbn; lia]. apply existsb_exists in Ex. destruct Ex as (i & I & Ei). apply Nat.eqb_eq in Ei. subst i. destruct (In0 0 I) as (pc' & E & A). cbn in E. injection E as <-. rewrite A. apply le_n. }
      assert (W : length (filter (fun i => negb (Nat.eqb i 0)) p0) <= length (filter (at_rung a RWait) l0)).
      { apply IH.
        - clear - Nd. induction Nd as [|i p0 Ni Nd IHn]; [constructor|]. cbn [filter]. destruct i as [|i]; cbn [Nat.eqb negb]; [exact IHn|]. cbn [map pred]. constructor; [|exact IHn].
          intros I. apply in_map_iff in I. destruct I as (j & Ej & I). apply filter_In in I. destruct j as [|j]; [destruct I; discriminate|]. cbn in Ej. subst j. apply Ni, I.
        - intros i I. apply in_map_iff in I. destruct I as (j & Ej & I). apply filter_In in I. destruct j as [|j]; [destruct I; discriminate|]. cbn in Ej. subst j. destruct (In0 (S i) (proj1 I)) as (pc' & E & A). exists pc'. auto. }
      unfold one in *. destruct (at_rung a RWait pc); cbn [length]; lia. }
  rewrite L. apply X; [exact Nd|]. intros i I. unfold ids in I. apply in_flat_map in I. destruct I as (c & I & J). apply filter_In in I. destruct I as [I Lv]. destruct c as [b j|b c|b]; [|discriminate..].
  destruct J as [->|[]]. cbn in Lv. apply andb_true_iff in Lv. destruct Lv as [Eb Wj]. destruct T as [_ Nm]. rewrite Forall_forall in Nm. destruct (Nm _ I) as (pc & E & A). exists pc. split; [exact E|].
  unfold at_rung. rewrite A, Eb. cbn. unfold is_waiting in Wj. rewrite E in Wj. exact Wj.
Qed.

(** ** The moves of a call *)
Inductive climb : rung -> rung -> bool -> bool -> Prop :=
| ClStay r : climb r r false false
| ClLost r : climb r RLost false false
| ClDone : climb RHold RFin false true
| ClOpened : climb RConn RHold true false
| ClOpenedDone : climb RConn RFin true true
| ClOpenedLost : climb RConn RLost true false.
Definition opened_in (t : list pevent) : list saddr := flat_map (fun e => match e with EOpen _ b => [b] | _ => [] end) t.
Lemma opened_acts i t : opened_in (map (EAct i) t) = [].
Proof. induction t as [|x t IH]; [reflexivity | exact IH]. Qed.
Lemma opened_app t t' : opened_in (t ++ t') = opened_in t ++ opened_in t'.
Proof. apply flat_map_app. Qed.
Lemma openings_opened a t : openings_to a t = length (filter (fun b => saddr_eqb b a) (opened_in t)).
Proof.
  unfold openings_to, opened_in. induction t as [|e t IH]; [reflexivity|]. cbn [filter flat_map]. destruct e as [c b|i x|i b c|i b]; [|exact IH..]. cbn [app filter]. destruct (saddr_eqb b a); cbn [length]; lia.
Qed.
Definition sent_on (s : psys) (cs : list (command conn)) : list (command conn) := match s_pool s with Some _ => s_queue s ++ cs | None => s_queue s end.
Definition stepped (i : nat) (x : cstate) (cs : list (command conn)) (op : list saddr) (s : psys) : psys :=
  mkPsys (s_pool s) (sent_on s cs) (set_state i x (s_calls s)) (s_opened s ++ op).
Lemma stepped_none i x s : stepped i x [] [] s = put_state i x s.
Proof. unfold stepped, put_state, sent_on. rewrite !app_nil_r. destruct (s_pool s); reflexivity. Qed.
Lemma stepped_send i x c op s : stepped i x [c] op s = send c (put_state i x (mkPsys (s_pool s) (s_queue s) (s_calls s) (s_opened s ++ op))).
Proof. unfold stepped, send, sent_on, put_state. cbn. destruct (s_pool s) eqn:E; cbn; rewrite ?E; reflexivity. Qed.
(** What a call sends: a release if it gives a connection back, and else nothing or a report. *)
Definition says (a : saddr) (rel : bool) (cs : list (command conn)) : Prop :=
  if rel then exists c, cs = [ReleaseConnection a c] else cs = [] \/ cs = [AddToBlacklist a].

Lemma inner_climb i pc c r s : exists x cs, let '(s', t) := inner_result i pc c r s in
  s' = stepped i x cs [] s /\ opened_in t = [] /\
  ((rung_of x = RHold \/ rung_of x = RLost) /\ says (c_addr pc) false cs \/ rung_of x = RFin /\ says (c_addr pc) true cs).
Proof.
  destruct r as [t o]. unfold inner_result. destruct o as [[k|v b c']|e| |].
  - exists (Talking c k), []. rewrite stepped_none, opened_acts. split; [reflexivity|]. split; [reflexivity|]. left. split; [left; reflexivity | left; reflexivity].
  - exists (Finished v b), [ReleaseConnection (c_addr pc) c']. rewrite opened_app, opened_acts. split.
    + rewrite stepped_send, app_nil_r. destruct s; reflexivity.
    + split; [reflexivity|]. right. split; [reflexivity | exists c'; reflexivity].
  - exists (Broken e), []. rewrite stepped_none, opened_acts. split; [reflexivity|]. split; [reflexivity|]. left. split; [right; reflexivity | left; reflexivity].
  - exists Panicked, []. rewrite stepped_none, opened_acts. split; [reflexivity|]. split; [reflexivity|]. left. split; [right; reflexivity | left; reflexivity].
  - exists Panicked, []. rewrite stepped_none, opened_acts. split; [reflexivity|]. split; [reflexivity|]. left. split; [right; reflexivity | left; reflexivity].
Qed.

Lemma poll_climb i w pc s s' t : nth_error (s_calls s) i = Some pc -> poll_pooled i w pc s = Some (s', t) -> exists x cs (op rel : bool),
  s' = stepped i x cs (if op then [c_addr pc] else []) s /\ opened_in t = (if op then [c_addr pc] else []) /\ climb (rung_of (c_state pc)) (rung_of x) op rel /\ says (c_addr pc) rel cs.
Proof.
  intros En. unfold poll_pooled. destruct (c_state pc) as [a|c k| | | |]; try discriminate.
  - destruct a as [[|c|f]|]; cbn [acquire_poll].
    + intros [= <- <-]. eexists (Broken _), [], false, false. rewrite stepped_none. split; [reflexivity|]. split; [reflexivity|]. split; [apply ClLost|]. left; reflexivity.
    + destruct (inner_result i pc c _ s) as [s2 t2] eqn:E. intros [= <- <-]. pose proof (inner_climb i pc c (poll_call w (c_proc pc) (call_new (c_req pc) (Ready c))) s) as (x & cs & X). rewrite E in X. destruct X as (X1 & X2 & X3).
      destruct X3 as [[[R|R] Sy]|[R Sy]].
      * exists x, cs, false, false. rewrite R. split; [exact X1|]. split; [exact X2|]. split; [apply ClStay|]. exact Sy.
      * exists x, cs, false, false. rewrite R. split; [exact X1|]. split; [exact X2|]. split; [apply ClLost|]. exact Sy.
      * exists x, cs, false, true. rewrite R. split; [exact X1|]. split; [exact X2|]. split; [apply ClDone|]. exact Sy.
    + destruct (fpoll f) as [y|e|f'].
      * set (s1 := mkPsys _ _ _ _). match goal with |- context[inner_result i pc ?c ?r s1] => pose proof (inner_climb i pc c r s1) as (x & cs & X); destruct (inner_result i pc c r s1) as [s2 t2] end.
        intros [= <- <-]. destruct X as (X1 & X2 & X3).
        assert (X1' : s2 = stepped i x cs [c_addr pc] s) by (rewrite X1; unfold stepped, sent_on; subst s1; cbn; rewrite app_nil_r; reflexivity).
        assert (X2' : opened_in (EOpen (length (s_opened s)) (c_addr pc) :: t2) = [c_addr pc]) by (change (c_addr pc :: opened_in t2 = [c_addr pc]); rewrite X2; reflexivity).
        destruct X3 as [[[R|R] Sy]|[R Sy]].
        -- exists x, cs, true, false. rewrite R. split; [exact X1'|]. split; [exact X2'|]. split; [apply ClOpened|]. exact Sy.
        -- exists x, cs, true, false. rewrite R. split; [exact X1'|]. split; [exact X2'|]. split; [apply ClOpenedLost|]. exact Sy.
        -- exists x, cs, true, true. rewrite R. split; [exact X1'|]. split; [exact X2'|]. split; [apply ClOpenedDone|]. exact Sy.
      * intros [= <- <-]. eexists (Broken _), [AddToBlacklist (c_addr pc)], false, false. rewrite stepped_send, app_nil_r. split; [destruct s; reflexivity|]. split; [reflexivity|]. split; [apply ClLost|]. right; reflexivity.
      * intros [= <- <-]. eexists (Acquiring (Some (PConnect f'))), [], false, false. rewrite stepped_none. split; [reflexivity|]. split; [reflexivity|]. split; [apply ClStay|]. left; reflexivity.
    + destruct (pending i (s_queue s)); intros [= <- <-].
      * exists (Acquiring None), [], false, false. rewrite stepped_none. split; [reflexivity|]. split; [reflexivity|]. split; [apply ClStay|]. left; reflexivity.
      * eexists (Broken _), [], false, false. rewrite stepped_none. split; [reflexivity|]. split; [reflexivity|]. split; [apply ClLost|]. left; reflexivity.
  - destruct (inner_result i pc c _ s) as [s2 t2] eqn:E. intros [= <- <-]. pose proof (inner_climb i pc c (poll_call w (c_proc pc) k) s) as (x & cs & X). rewrite E in X. destruct X as (X1 & X2 & X3).
    destruct X3 as [[[R|R] Sy]|[R Sy]].
    * exists x, cs, false, false. rewrite R. split; [exact X1|]. split; [exact X2|]. split; [apply ClStay|]. exact Sy.
    * exists x, cs, false, false. rewrite R. split; [exact X1|]. split; [exact X2|]. split; [apply ClLost|]. exact Sy.
    * exists x, cs, false, true. rewrite R. split; [exact X1|]. split; [exact X2|]. split; [apply ClDone|]. exact Sy.
Qed.

(** ** The idle connections *)
Definition cnt (a : saddr) (l : list (saddr * conn)) : nat := length (filter (fun x => saddr_eqb (fst x) a) l).
Lemma cnt_app a l l' : cnt a (l ++ l') = cnt a l + cnt a l'.
Proof. unfold cnt. rewrite filter_app, app_length. reflexivity. Qed.
Lemma take_some_cnt b : forall l c l', take_exact b l = (Some c, l') -> forall a, cnt a l = cnt a l' + one (saddr_eqb b a).
Proof.
  unfold cnt. induction l as [|[x c0] l IH]; intros c l'; cbn [take_exact]; [discriminate|]. destruct (saddr_eqb_spec x b) as [->|N].
  - intros [= _ <-] a. cbn [filter fst]. destruct (saddr_eqb b a); cbn [length one]; lia.
  - destruct (take_exact b l) as [o r] eqn:E. intros [= -> <-] a. specialize (IH c r eq_refl a). cbn [filter fst]. destruct (saddr_eqb x a); cbn [length]; lia.
Qed.
Lemma take_none_cnt b l l' : take_exact b l = (None, l') -> l' = l /\ cnt b l = 0.
Proof.
  intros E. apply take_exact_none in E. destruct E as [-> N]. split; [reflexivity|]. unfold cnt. induction l as [|[x c] l IH]; [reflexivity|]. cbn [filter fst].
  destruct (saddr_eqb_spec x b) as [->|_]; [destruct (N c); left; reflexivity|]. apply IH. intros c' I. apply (N c'). right. exact I.
Qed.
Lemma cnt_total k al l : NoDup al -> Forall (fun x => In (fst x) al) l -> (forall a, cnt a l <= k a) -> length l <= total k al.
Proof.
  intros Nd Fo B. assert (X : length l = total (fun a => cnt a l) al).
  { clear B k. induction l as [|[x c] l IH].
    - unfold total. clear Fo Nd. induction al as [|a al IH]; [reflexivity | exact IH].
    - inversion Fo as [|? ? I Fo']; subst. cbn [fst] in I. cbn [length]. rewrite (IH Fo'). clear IH Fo Fo'. unfold total. induction Nd as [|y al Ny Nd IH]; [contradiction|]. cbn [map list_sum fold_right].
      unfold list_sum in *. cbn [fold_right map]. destruct (saddr_eqb_spec x y) as [->|N].
      + assert (Y : map (fun a => cnt a ((y, c) :: l)) al = map (fun a => cnt a l) al).
        { apply map_ext_in. intros a Ia. unfold cnt. cbn [filter fst]. destruct (saddr_eqb_spec y a) as [->|_]; [contradiction | reflexivity]. }
        rewrite Y. unfold cnt at 3. cbn [filter fst]. rewrite saddr_eqb_refl. cbn [length]. unfold cnt. lia.
      + destruct I as [->|I]; [contradiction|]. specialize (IH I). unfold cnt at 3. cbn [filter fst]. destruct (saddr_eqb_spec x y); [contradiction|]. unfold cnt at 1. lia. }
  rewrite X. clear - B. unfold total. induction al as [|a al IH]; [apply le_n|]. cbn. specialize (B a). unfold list_sum in IH. lia.
Qed.

(** ** The system *)
Definition opened_at (a : saddr) (l : list saddr) : nat := length (filter (fun b => saddr_eqb b a) l).
Lemma opened_at_app a l l' : opened_at a (l ++ l') = opened_at a l + opened_at a l'.
Proof. unfold opened_at. rewrite filter_app, app_length. reflexivity. Qed.
Variables (size : N) (al : list saddr) (k : saddr -> nat).
Hypothesis Al_once : NoDup al.
Hypothesis Al_apart : no_aliases al.
Hypothesis Room : (N.of_nat (total k al) <= size)%N.

Definition busy (a : saddr) (l : list pcall) : nat := num a RRefused l + num a RConn l + num a RHold l.
Record spare (n : nat) (p : pool conn) (q : list (command conn)) (cs : list pcall) (op : list saddr) (l : list (N * (saddr * conn))) : Prop := mkSpare {
  sp_inv : inv p l; sp_size : p_size p = size; sp_seq : (p_seq p <= N.of_nat n)%N;
  sp_al : Forall (fun x => In (fst x) al) (map snd l);
  sp_tidy : tidy cs q; sp_qal : Forall (fun c => In (address c) al) q;
  sp_fit : forall a, fitting (k a) a cs (busy a cs) q;
  sp_alive : forall a, num a RHold cs + num a RConn cs + cnt a (map snd l) + rels a q <= k a;
  sp_kept : forall a, opened_at a op + deads a cs q <= num a RHold cs + cnt a (map snd l) + rels a q + num a RLost cs
}.
Definition thrifty (n : nat) (s : psys) : Prop :=
  Forall (fun pc => In (c_addr pc) al) (s_calls s) /\
  (forall a, opened_at a (s_opened s) + num a RConn (s_calls s) <= k a + num a RLost (s_calls s)) /\
  forall p, s_pool s = Some p -> exists l, spare n p (s_queue s) (s_calls s) (s_opened s) l.

Lemma num_app a r l l' : num a r (l ++ l') = num a r l + num a r l'.
Proof. unfold num. rewrite filter_app, app_length. reflexivity. Qed.
Lemma waiting_more l pc i : i < length l -> is_waiting (l ++ [pc]) i = is_waiting l i.
Proof. intros L. unfold is_waiting. rewrite nth_error_app1 by exact L. reflexivity. Qed.
Lemma named_below l b i : named l (AcquireConnection b i) -> i < length l.
Proof. intros (pc & E & _). apply nth_error_Some. congruence. Qed.
Lemma deads_more a l pc q : Forall (named l) q -> deads a (l ++ [pc]) q = deads a l q.
Proof.
  intros F. unfold deads. f_equal. apply filter_ext_in. intros c I. rewrite Forall_forall in F. specialize (F c I). destruct c as [b i|b c|b]; cbn; auto. rewrite waiting_more by (apply (named_below _ b), F). reflexivity.
Qed.
Lemma live_more a l pc c : named l c -> live_of a (l ++ [pc]) c = true -> live_of a l c = true.
Proof. intros Nm. destruct c as [b i|b c|b]; cbn; auto. rewrite waiting_more by (apply (named_below _ b), Nm). auto. Qed.
Lemma asked_below l q i : Forall (named l) q -> In i (flat_map asked q) -> i < length l.
Proof.
  intros F I. apply in_flat_map in I. destruct I as (c & I & J). rewrite Forall_forall in F. specialize (F c I). destruct c as [b j|b c|b]; [|contradiction..]. destruct J as [->|[]]. exact (named_below _ _ _ F).
Qed.
Lemma deads_app a l q q' : deads a l (q ++ q') = deads a l q + deads a l q'.
Proof. unfold deads. rewrite filter_app, app_length. reflexivity. Qed.

(** A call is made. *)
Lemma spare_call n p q cs op l b pr req : let cs' := cs ++ [mkPcall b pr req (Acquiring None)] in In b al -> length (filter (going_to b) cs') <= k b ->
  spare n p q cs op l -> spare (S n) p (q ++ [AcquireConnection b (length cs)]) cs' op l.
Proof.
  intros cs' Ib G [I1 I2 I3 I4 [T1 T2] I6 I7 I8 I9]. subst cs'. set (pc := mkPcall _ _ _ _) in *.
  assert (Nu : forall a r, num a r (cs ++ [pc]) = num a r cs + one (saddr_eqb b a && rung_eqb RWait r)).
  { intros a r. rewrite num_app. f_equal. unfold num. cbn [filter]. unfold at_rung. cbn [c_addr c_state pc rung_of]. destruct (saddr_eqb b a && rung_eqb RWait r); reflexivity. }
  assert (Nu' : forall a r, r <> RWait -> num a r (cs ++ [pc]) = num a r cs). { intros a r Nr. rewrite Nu. destruct r; [contradiction|..]; rewrite andb_false_r; cbn; lia. }
  assert (Bu : forall a, busy a (cs ++ [pc]) = busy a cs) by (intros a; unfold busy; rewrite !Nu' by discriminate; reflexivity).
  assert (Fm : Forall (named (cs ++ [pc])) q). { eapply Forall_impl; [|exact T2]. intros [b' i|b' c|b'] Nm; cbn in *; auto. destruct Nm as (pc' & E & A). exists pc'. split; [rewrite nth_error_app1; [exact E | apply nth_error_Some; congruence] | exact A]. }
  assert (Ne : nth_error (cs ++ [pc]) (length cs) = Some pc) by (rewrite nth_error_app2 by apply le_n; rewrite Nat.sub_diag; reflexivity).
  assert (T' : tidy (cs ++ [pc]) q) by (split; assumption).
  split; try assumption.
  - lia.
  - split.
    + rewrite flat_map_app. cbn. apply (Permutation.Permutation_NoDup (l := length cs :: flat_map asked q)); [apply Permutation.Permutation_cons_append|]. constructor; [|exact T1]. intros I. apply (asked_below cs) in I; [lia | exact T2].
    + apply Forall_app. split; [exact Fm|]. constructor; [|constructor]. exists pc. auto.
  - apply Forall_app. split; [exact I6|]. constructor; [exact Ib | constructor].
  - intros a. rewrite Bu. specialize (I7 a). apply (fitting_less _ _ _ (cs ++ [pc]) q _ (busy a cs) (le_n _)) in I7.
    2:{ intros c I. rewrite Forall_forall in T2. apply live_more, T2, I. }
    destruct (saddr_eqb b a) eqn:E; [|apply fitting_other; [cbn; rewrite E; reflexivity | reflexivity | exact I7]].
    apply fitting_ask; [|exact I7]. assert (Eb : b = a) by (destruct (saddr_eqb_spec b a); congruence). subst b.
    pose proof (lives_num a (cs ++ [pc]) q T') as Lv. rewrite going_num in G. unfold busy.
    pose proof (lives_num a cs q (conj T1 T2)) as Lv0. assert (X : lives a (cs ++ [pc]) q <= lives a cs q).
    { unfold lives. clear - T2. induction q as [|c q IH]; [apply le_n|]. inversion T2 as [|? ? Nm F]; subst. specialize (IH F). cbn [filter]. pose proof (live_more a cs pc c Nm) as Lm.
      destruct (live_of a (cs ++ [pc]) c); [rewrite (Lm eq_refl); cbn [length]; lia|]. destruct (live_of a cs c); cbn [length]; lia. }
    rewrite (Nu a RWait) in G. rewrite E in G. cbn in G. rewrite !Nu' in G by discriminate. lia.
  - intros a. rewrite !Nu' by discriminate. rewrite rels_app. specialize (I8 a). change (rels a [AcquireConnection b (length cs)]) with 0. lia.
  - intros a. rewrite !Nu' by discriminate. rewrite rels_app, deads_app. rewrite deads_more by exact T2. specialize (I9 a). change (rels a [AcquireConnection b (length cs)]) with 0.
    assert (X : deads a (cs ++ [pc]) [AcquireConnection b (length cs)] = 0). { unfold deads. cbn. unfold is_waiting. rewrite Ne. cbn. rewrite andb_false_r. reflexivity. } lia.
Qed.

(** A call is polled or dropped. *)
Lemma climb_num i pc x op rel l a : nth_error l i = Some pc -> climb (rung_of (c_state pc)) (rung_of x) op rel -> c_addr pc = a -> let l' := set_state i x l in
  busy a l' + one rel <= busy a l /\ num a RConn l' + one op <= num a RConn l /\
  num a RHold l' + num a RConn l' + one rel <= num a RHold l + num a RConn l /\
  num a RHold l + num a RLost l + one op <= num a RHold l' + num a RLost l' + one rel /\
  num a RLost l <= num a RLost l' /\
  (rung_of (c_state pc) = RWait -> rung_of x <> RWait -> num a RHold l' = num a RHold l /\ num a RLost l' = S (num a RLost l) /\ op = false /\ rel = false).
Proof.
  intros E Cl <- l'. subst l'. unfold busy.
  pose proof (num_set (c_addr pc) RRefused x l i pc E) as N1. pose proof (num_set (c_addr pc) RConn x l i pc E) as N2. pose proof (num_set (c_addr pc) RHold x l i pc E) as N3. pose proof (num_set (c_addr pc) RLost x l i pc E) as N4.
  rewrite saddr_eqb_refl in *. cbn [andb] in *. revert N1 N2 N3 N4 Cl. generalize (rung_of (c_state pc)) (rung_of x). intros r1 r2 N1 N2 N3 N4 Cl.
  destruct Cl as [r|r| | | |]; try (destruct r); cbn in N1, N2, N3, N4 |- *; (repeat split; try lia; intros; try discriminate; try congruence; lia).
Qed.
Lemma climb_num_other i pc x l a r : nth_error l i = Some pc -> c_addr pc <> a -> num a r (set_state i x l) = num a r l.
Proof. intros E N. pose proof (num_set a r x l i pc E) as X. destruct (saddr_eqb_spec (c_addr pc) a); [contradiction|]. cbn in X. lia. Qed.

Lemma says_rels a b rel cs : says b rel cs -> rels a cs = one (saddr_eqb b a && rel).
Proof. unfold says. destruct rel; [intros [c ->] | intros [->| ->]]; unfold rels; cbn; destruct (saddr_eqb b a); reflexivity. Qed.
Lemma says_deads a l b rel cs : says b rel cs -> deads a l cs = 0.
Proof. unfold says. destruct rel; [intros [c ->] | intros [->| ->]]; reflexivity. Qed.
Lemma says_fitting kk a l b rel cs q n : says b rel cs -> fitting kk a l (n + one (saddr_eqb b a && rel)) q -> fitting kk a l n (q ++ cs).
Proof.
  unfold says. destruct rel; [intros [c ->] | intros [->| ->]]; rewrite ?andb_false_r, ?andb_true_r; cbn [one]; rewrite ?Nat.add_0_r, ?app_nil_r; auto.
  - destruct (saddr_eqb b a) eqn:E; cbn [one]; [rewrite Nat.add_1_r; apply fitting_back | rewrite Nat.add_0_r; apply fitting_other; [reflexivity | exact E]].
  - apply fitting_other; reflexivity.
Qed.
Lemma climb_wait r x op rel : climb r x op rel -> x = RWait -> r = RWait.
Proof. intros [] E; congruence. Qed.
Lemma spare_climb n p q cs op l i pc x o rel cm : nth_error cs i = Some pc -> In (c_addr pc) al -> climb (rung_of (c_state pc)) (rung_of x) o rel -> says (c_addr pc) rel cm ->
  spare n p q cs op l -> spare (S n) p (q ++ cm) (set_state i x cs) (op ++ if o then [c_addr pc] else []) l.
Proof.
  intros En Ia Cl Sy [I1 I2 I3 I4 T I6 I7 I8 I9].
  assert (De : forall a, deads a (set_state i x cs) q <= deads a cs q + one (saddr_eqb (c_addr pc) a) /\ ((rung_of (c_state pc) = RWait -> rung_of x = RWait) -> deads a (set_state i x cs) q = deads a cs q)).
  { intros a. split; [exact (deads_one a cs i x pc q En T)|]. intros W. apply (deads_same a cs i x pc En). split; [exact (climb_wait _ _ _ _ Cl) | exact W]. }
  assert (Wd : {rung_of (c_state pc) = RWait /\ rung_of x <> RWait} + {rung_of (c_state pc) = RWait -> rung_of x = RWait}).
  { destruct (rung_of (c_state pc)); try (right; discriminate). destruct (rung_of x); try (left; split; [reflexivity | discriminate]). right. reflexivity. }
  assert (Op : forall a, opened_at a (op ++ if o then [c_addr pc] else []) = opened_at a op + one (saddr_eqb (c_addr pc) a && o)).
  { intros a. rewrite opened_at_app. f_equal. unfold opened_at. destruct o; cbn; [|rewrite andb_false_r; reflexivity]. rewrite andb_true_r. destruct (saddr_eqb (c_addr pc) a); reflexivity. }
  split; try assumption.
  - lia.
  - assert (T' := tidy_set cs i x q T). unfold says in Sy. destruct rel; [destruct Sy as [c ->]; apply tidy_more; [reflexivity | exact T'] | destruct Sy as [->| ->]; [rewrite app_nil_r; exact T' | apply tidy_more; [reflexivity | exact T']]].
  - apply Forall_app. split; [exact I6|]. unfold says in Sy. destruct rel; [destruct Sy as [c ->] | destruct Sy as [->| ->]]; repeat constructor; exact Ia.
  - intros a. apply (says_fitting _ _ _ _ _ _ _ _ Sy). eapply fitting_less; [|intros c _; apply (live_down a cs i x pc c En); exact (climb_wait _ _ _ _ Cl)|exact (I7 a)].
    destruct (saddr_eqb_spec (c_addr pc) a) as [Ea|Na]; cbn [andb one].
    + destruct (climb_num i pc x o rel cs a En Cl Ea) as (B & _). exact B.
    + unfold busy. rewrite !(climb_num_other i pc x cs a _ En Na). lia.
  - intros a. rewrite rels_app, (says_rels a _ _ _ Sy). specialize (I8 a). destruct (saddr_eqb_spec (c_addr pc) a) as [Ea|Na]; cbn [andb one].
    + destruct (climb_num i pc x o rel cs a En Cl Ea) as (_ & _ & B & _). lia.
    + rewrite !(climb_num_other i pc x cs a _ En Na). lia.
  - intros a. rewrite rels_app, deads_app, (says_rels a _ _ _ Sy), (says_deads a _ _ _ _ Sy), Op. specialize (I9 a). destruct (De a) as [D1 D2]. destruct (saddr_eqb_spec (c_addr pc) a) as [Ea|Na]; cbn [andb one] in *.
    + destruct (climb_num i pc x o rel cs a En Cl Ea) as (_ & _ & _ & B & _ & W). destruct Wd as [[W1 W2]|W1].
      * destruct (W W1 W2) as (W3 & W4 & -> & ->). cbn in *. lia.
      * rewrite (D2 W1). lia.
    + rewrite !(climb_num_other i pc x cs a _ En Na). lia.
Qed.

(** The pool handles a command. *)
Lemma acquire_found now b i (p : pool conn) (l : list (N * (saddr * conn))) : inv p l -> Forall (fun x => In (fst x) al) (map snd l) -> In b al -> exists an p' l', handle_command tmax checks now (AcquireConnection b i) p = Ok (Some (i, an), p') /\
  inv p' l' /\ p_size p' = p_size p /\ p_seq p' = p_seq p /\
  match an with
  | Suspended _ => map snd l' = map snd l
  | Idle c => take_exact b (map snd l) = (Some c, map snd l')
  | Connect => take_exact b (map snd l) = (None, map snd l')
  end.
Proof.
  intros Iv Fa Ib. cbn [handle_command]. destruct (hm_remove b (p_black p)) as [o black].
  assert (X : exists an p' l', ('(a, p0) <- acquire_connection b (mkPool (p_size p) (p_conns p) (p_lru p) (p_seq p) black (p_susp p)) ;; Ok (Some (i, a), p0)) = Ok (Some (i, an), p') /\
    inv p' l' /\ p_size p' = p_size p /\ p_seq p' = p_seq p /\ match an with Suspended _ => map snd l' = map snd l | Idle c => take_exact b (map snd l) = (Some c, map snd l') | Connect => take_exact b (map snd l) = (None, map snd l') end).
  { destruct (acquire_refines b _ l (inv_black p l black Iv)) as (p' & l' & E & Iv' & Ml & S1 & _ & _ & S2). rewrite E. cbn [bind]. exists (match fst (take b (map snd l)) with Some c => Idle c | None => Connect end), p', l'.
    split; [reflexivity|]. split; [exact Iv'|]. split; [exact S1|]. split; [exact S2|]. rewrite <- (take_eq b (map snd l)).
    - destruct (take b (map snd l)) as [[c|] r]; cbn [fst snd] in *; rewrite Ml; reflexivity.
    - eapply Forall_impl; [|exact Fa]. intros y Iy Se. exact (Al_apart _ _ Iy Ib Se). }
  destruct o as [t|]; [|exact X]. destruct (now <? t)%Z; [|exact X]. eexists (Suspended t), _, l. split; [reflexivity|]. repeat split; try reflexivity; apply Iv.
Qed.
Lemma take_exact_incl b (l : list (saddr * conn)) o l' : take_exact b l = (o, l') -> incl l' l.
Proof.
  revert l'. induction l as [|[x c] l IH]; intros l'; cbn [take_exact]; [intros [= _ <-]; apply incl_refl|]. destruct (saddr_eqb x b); [intros [= _ <-]; intros y I; right; exact I|].
  destruct (take_exact b l) as [o' r]. intros [= <- <-]. intros y [<-|I]; [left; reflexivity | right; exact (IH r eq_refl y I)].
Qed.
Lemma spare_pool n now f p c q cs op l : (N.of_nat n < u64_max)%N -> spare n p (c :: q) cs op l ->
  match handle_command tmax checks now c p with
  | Ok (o, p') => exists cs' l', (forall a, opened_at a op + num a RConn cs <= k a + num a RLost cs -> opened_at a op + num a RConn cs' <= k a + num a RLost cs') /\
      Forall2 (fun x y => c_addr x = c_addr y) cs cs' /\ spare (S n) p' q cs' op l' /\
      match o with Some (i, an) => reply i (to_pooled an f) (mkPsys (Some p') q cs op) | None => mkPsys (Some p') q cs op end = mkPsys (Some p') q cs' op
  | _ => True
  end.
Proof.
  intros Ln [I1 I2 I3 I4 T I6 I7 I8 I9]. assert (Same : forall l0 : list pcall, Forall2 (fun x y => c_addr x = c_addr y) l0 l0) by (induction l0; constructor; auto).
  pose proof (Forall_inv I6) as Ib. pose proof (Forall_inv_tail I6) as I6'. pose proof (tidy_tail _ _ _ T) as T'. destruct c as [b i|b c|b]; cbn [address] in Ib.
  - destruct (acquire_found now b i p l I1 I4 Ib) as (an & p' & l' & E & Iv & S1 & S2 & An). rewrite E.
    assert (Cn : forall a, cnt a (map snd l) = cnt a (map snd l') + one (saddr_eqb b a && match an with Idle _ => true | _ => false end)).
    { intros a. destruct an as [t|c|]; rewrite ?andb_false_r, ?andb_true_r; cbn [one]; [rewrite An; lia | exact (take_some_cnt b _ c _ An a) | destruct (take_none_cnt b _ _ An) as [Em _]; rewrite Em; lia]. }
    assert (Fl : Forall (fun x => In (fst x) al) (map snd l')).
    { destruct an as [t|c|]; [rewrite An; exact I4 | |]; (apply Forall_forall; intros y Iy; apply (take_exact_incl b _ _ _ An) in Iy; rewrite Forall_forall in I4; apply I4, Iy). }
    destruct T as [T1 T2]. cbn in T1. inversion T1 as [|? ? Ni _]; subst. pose proof (Forall_inv T2) as (pc & En & Ea). unfold reply. cbn [s_calls]. rewrite En.
    destruct (rung_eqb (rung_of (c_state pc)) RWait) eqn:W.
    + assert (St : c_state pc = Acquiring None) by (destruct (c_state pc) as [[[|c|f0]|]|c k0| | | |]; try discriminate; reflexivity). rewrite St.
      set (x := Acquiring (Some (to_pooled an f))). exists (set_state i x cs), l'.
      assert (Nx : rung_of x <> RWait) by (unfold x; destruct an; discriminate).
      assert (Lv : live_of b cs (AcquireConnection b i) = true) by (cbn; rewrite saddr_eqb_refl; unfold is_waiting; rewrite En, W; reflexivity).
      assert (Lo : forall a, b <> a -> live_of a cs (AcquireConnection b i) = false) by (intros a Na; cbn; destruct (saddr_eqb_spec b a); [contradiction | reflexivity]).
      assert (Do : forall a, deads a cs (AcquireConnection b i :: q) = deads a cs q) by (intros a; unfold deads; cbn [filter dead_of]; unfold is_waiting; rewrite En, W; cbn [negb]; rewrite andb_false_r; reflexivity).
      pose proof (I7 b) as Fb. cbn [fitting] in Fb. rewrite Lv in Fb. destruct Fb as [Fb1 Fb2].
      pose proof (num_set b RRefused x cs i pc En) as N1. pose proof (num_set b RConn x cs i pc En) as N2. pose proof (num_set b RHold x cs i pc En) as N3. pose proof (num_set b RLost x cs i pc En) as N4.
      rewrite Ea, saddr_eqb_refl, St in N1, N2, N3, N4. cbn in N1, N2, N3, N4.
      assert (Nb : forall a r, b <> a -> num a r (set_state i x cs) = num a r cs) by (intros a r Na; apply (climb_num_other i pc x cs a r En); rewrite Ea; exact Na).
      specialize (Cn b) as Cb. rewrite saddr_eqb_refl in Cb. cbn [andb] in Cb.
      assert (Rq : forall a, rels a (AcquireConnection b i :: q) = rels a q) by reflexivity.
      pose proof (I8 b) as Eb. pose proof (I9 b) as Kb. rewrite Rq in Eb, Kb. rewrite Do in Kb.
      assert (Nc : match an with Connect => cnt b (map snd l) = 0 | _ => True end) by (destruct an; auto; exact (proj2 (take_none_cnt b _ _ An))).
      split; [|split; [|split; [|reflexivity]]].
      * intros a. destruct (saddr_eqb_spec b a) as [<-|Na]; [|rewrite !Nb by exact Na; auto]. intros K. unfold busy in Fb1. destruct an as [t|c|]; cbn in N1, N2, N3, N4, Cb; lia.
      * clear - En. revert i En. induction cs as [|z cs IH]; intros [|i] En; try discriminate; cbn [set_state]; constructor; try reflexivity; [clear; induction cs; constructor; auto | apply IH, En].
      * split; try assumption.
        -- congruence.
        -- rewrite S2. lia.
        -- apply tidy_set, T'.
        -- intros a. destruct (saddr_eqb_spec b a) as [<-|Na].
           ++ eapply fitting_less; [|intros c0 _; apply (live_down b cs i x pc c0 En); intros; contradiction | exact Fb2]. unfold busy. destruct an as [t|c|]; cbn in N1, N2, N3; lia.
           ++ specialize (I7 a). cbn [fitting] in I7. rewrite (Lo a Na) in I7. eapply fitting_less; [|intros c0 _; apply (live_down a cs i x pc c0 En); intros; contradiction | exact I7]. unfold busy. rewrite !Nb by exact Na. apply le_n.
        -- intros a. destruct (saddr_eqb_spec b a) as [<-|Na]; [unfold busy in Fb1; destruct an as [t|c|]; cbn in N1, N2, N3, N4, Cb; lia|].
           specialize (I8 a). rewrite Rq in I8. specialize (Cn a). destruct (saddr_eqb_spec b a); [contradiction|]. cbn in Cn. rewrite !Nb by exact Na. lia.
        -- intros a. rewrite deads_silent by exact Ni. destruct (saddr_eqb_spec b a) as [<-|Na]; [destruct an as [t|c|]; cbn in N1, N2, N3, N4, Cb; lia|].
           specialize (I9 a). rewrite Rq, Do in I9. specialize (Cn a). destruct (saddr_eqb_spec b a); [contradiction|]. cbn in Cn. rewrite !Nb by exact Na. lia.
    + exists cs, l'. split; [auto|]. split; [apply Same|]. split; [|destruct (c_state pc) as [[[|c|f0]|]|c k0| | | |]; try discriminate; reflexivity].
      assert (Lo : forall a, live_of a cs (AcquireConnection b i) = false) by (intros a; cbn; unfold is_waiting; rewrite En, W; apply andb_false_r).
      assert (Do : forall a, deads a cs (AcquireConnection b i :: q) = deads a cs q + one (saddr_eqb b a)).
      { intros a. unfold deads. cbn [filter dead_of]. unfold is_waiting. rewrite En, W. cbn [negb]. rewrite andb_true_r. destruct (saddr_eqb b a); cbn [length one]; lia. }
      split; try assumption.
      * congruence.
      * rewrite S2. lia.
      * intros a. specialize (I7 a). cbn [fitting] in I7. rewrite (Lo a) in I7. exact I7.
      * intros a. specialize (I8 a). specialize (Cn a). change (rels a (AcquireConnection b i :: q)) with (rels a q) in I8. lia.
      * intros a. specialize (I9 a). specialize (Cn a). rewrite Do in I9. change (rels a (AcquireConnection b i :: q)) with (rels a q) in I9. destruct (saddr_eqb b a); cbn [andb one] in *; [|lia]. destruct an; cbn in *; lia.
  - cbn [handle_command]. assert (Lq : (p_seq p < u64_max)%N) by lia. destruct (release_refines checks b c p l I1 Lq) as (p' & l' & E & Iv & Ml & S1 & _ & _ & S2). rewrite E. cbn [bind].
    exists cs, l'. split; [auto|]. split; [apply Same|]. split; [|reflexivity].
    assert (Rq : forall a, rels a (ReleaseConnection b c :: q) = one (saddr_eqb b a) + rels a q) by (intros a; unfold rels; cbn [filter rel_of]; destruct (saddr_eqb b a); reflexivity).
    assert (Cl : forall a, cnt a (map snd l ++ [(b, c)]) = cnt a (map snd l) + one (saddr_eqb b a)) by (intros a; rewrite cnt_app; unfold cnt at 2; cbn [filter fst]; destruct (saddr_eqb b a); reflexivity).
    assert (Fl : Forall (fun x => In (fst x) al) (map snd l ++ [(b, c)])) by (apply Forall_app; split; [exact I4 | repeat constructor; exact Ib]).
    assert (Ll : length (map snd l ++ [(b, c)]) <= total k al). { apply cnt_total; [exact Al_once | exact Fl|]. intros a. rewrite Cl. specialize (I8 a). rewrite Rq in I8. lia. }
    assert (Mp : map snd l' = map snd l ++ [(b, c)]). { rewrite Ml. unfold put. rewrite I2. replace (length (map snd l ++ [(b, c)]) - N.to_nat size) with 0 by lia. reflexivity. }
    split; try assumption.
    + congruence.
    + rewrite S2. lia.
    + rewrite Mp. exact Fl.
    + intros a. specialize (I8 a). rewrite Rq in I8. rewrite Mp, Cl. lia.
    + intros a. specialize (I9 a). rewrite Rq in I9. change (deads a cs (ReleaseConnection b c :: q)) with (deads a cs q) in I9. rewrite Mp, Cl. lia.
  - cbn [handle_command]. destruct (now + p_susp p <=? tmax)%Z; [|exact I]. exists cs, l. split; [auto|]. split; [apply Same|]. split; [|reflexivity]. split; try assumption.
    cbn [p_seq]. lia.
Qed.

Definition few (s : psys) : Prop := forall a, length (filter (going_to a) (s_calls s)) <= k a.
Lemma climb_conn i pc x o rel s a : nth_error (s_calls s) i = Some pc -> climb (rung_of (c_state pc)) (rung_of x) o rel ->
  opened_at a (s_opened s) + num a RConn (s_calls s) <= k a + num a RLost (s_calls s) ->
  opened_at a (s_opened s ++ if o then [c_addr pc] else []) + num a RConn (set_state i x (s_calls s)) <= k a + num a RLost (set_state i x (s_calls s)).
Proof.
  intros En Cl K. rewrite opened_at_app. assert (Op : opened_at a (if o then [c_addr pc] else []) = one (saddr_eqb (c_addr pc) a && o)).
  { unfold opened_at. destruct o; cbn; [|rewrite andb_false_r; reflexivity]. rewrite andb_true_r. destruct (saddr_eqb (c_addr pc) a); reflexivity. }
  rewrite Op. destruct (saddr_eqb_spec (c_addr pc) a) as [Ea|Na]; cbn [andb one].
  - destruct (climb_num i pc x o rel (s_calls s) a En Cl Ea) as (_ & B1 & _ & _ & B2 & _). lia.
  - rewrite !(climb_num_other i pc x _ a _ En Na). lia.
Qed.
Lemma set_addrs (P : saddr -> Prop) i x l : Forall (fun pc => P (c_addr pc)) l -> Forall (fun pc => P (c_addr pc)) (set_state i x l).
Proof. intros F. revert i. induction F as [|pc l Pc F IH]; intros [|i]; cbn [set_state]; constructor; auto. Qed.
Lemma step_climb n s i pc x cs o rel : thrifty n s -> nth_error (s_calls s) i = Some pc -> climb (rung_of (c_state pc)) (rung_of x) o rel -> says (c_addr pc) rel cs ->
  thrifty (S n) (stepped i x cs (if o then [c_addr pc] else []) s).
Proof.
  intros (T1 & T2 & T3) En Cl Sy. split; [exact (set_addrs (fun a => In a al) i x _ T1)|]. split; [intros a; apply (climb_conn i pc x o rel s a En Cl (T2 a))|]. unfold stepped, sent_on. cbn [s_pool s_queue s_calls s_opened]. intros p Ep. rewrite Ep. destruct (T3 p Ep) as (l & Sp). exists l.
  apply (spare_climb n p _ _ _ l i pc x o rel cs En); try assumption. rewrite Forall_forall in T1. apply T1. exact (nth_error_In _ _ En).
Qed.
Lemma step_thrifty n lb s s' t : (N.of_nat n < u64_max)%N -> goes_to al lb -> few s' -> thrifty n s -> pstep tmax checks lb s = Some (s', t) ->
  thrifty (S n) s' /\ s_opened s' = s_opened s ++ opened_in t.
Proof.
  intros Ln Go Fw Th. pose proof Th as (T1 & T2 & T3). destruct lb as [b pr req|now f| |i w|i]; cbn [pstep].
  - intros [= <- <-]. cbn [goes_to] in Go. set (s1 := mkPsys _ _ _ _) in *. unfold few in Fw. destruct (send_rest (AcquireConnection b (length (s_calls s))) s1) as [S1 S2]. pose proof (send_pool (AcquireConnection b (length (s_calls s))) s1) as S3.
    split; [|rewrite S2; cbn; rewrite app_nil_r; reflexivity]. unfold thrifty. rewrite S1, S2, S3. rewrite S1 in Fw. subst s1. cbn [s_calls s_opened s_pool] in *. split; [|split].
    + apply Forall_app. split; [exact T1 | constructor; [exact Go | constructor]].
    + intros a. rewrite !num_app. specialize (T2 a). assert (Z : forall r, r <> RWait -> num a r [mkPcall b pr req (Acquiring None)] = 0) by (intros r Nr; unfold num, at_rung; cbn; destruct r; [contradiction|..]; rewrite andb_false_r; reflexivity).
      rewrite !Z by discriminate. lia.
    + intros p Ep. destruct (T3 p Ep) as (l & Sp). exists l. unfold send. cbn [s_pool]. rewrite Ep. cbn [s_queue]. apply spare_call; [exact Go | apply Fw | exact Sp].
  - destruct (s_pool s) as [p|] eqn:Ep; [|discriminate]. destruct (s_queue s) as [|c q] eqn:Q; [discriminate|]. destruct (T3 p eq_refl) as (l & Sp). pose proof (spare_pool n now f p c q (s_calls s) (s_opened s) l Ln Sp) as X.
    assert (Gone : thrifty (S n) (pool_gone s)) by (split; [exact T1|]; split; [exact T2 | discriminate]).
    destruct (handle_command tmax checks now c p) as [[o p']|e| |]; intros [= <- <-]; try (split; [exact Gone | cbn; rewrite app_nil_r; reflexivity]).
    destruct X as (cs' & l' & X1 & X2 & X3 & X4). rewrite X4. split; [|cbn; rewrite app_nil_r; reflexivity]. split; [|split].
    + cbn [s_calls]. clear - T1 X2. induction X2 as [|x y l l' E X2 IH]; [constructor|]. inversion T1; subst. constructor; [rewrite <- E; assumption | apply IH; assumption].
    + intros a. apply X1, T2.
    + cbn. intros p0 [= <-]. exists l'. exact X3.
  - destruct (s_pool s); [|discriminate]. intros [= <- <-]. split; [|cbn; rewrite app_nil_r; reflexivity]. split; [exact T1|]. split; [exact T2 | discriminate].
  - destruct (nth_error (s_calls s) i) as [pc|] eqn:En; [|discriminate]. intros E. destruct (poll_climb i w pc s s' t En E) as (x & cs & o & rel & -> & Ot & Cl & Sy). split; [|cbn; rewrite Ot; reflexivity].
    apply (step_climb n s i pc x cs o rel Th En Cl Sy).
  - destruct (nth_error (s_calls s) i) as [pc|] eqn:En; [|discriminate]. intros E. assert (Es : s' = put_state i Dropped s /\ t = []) by (destruct (c_state pc); try discriminate; injection E as <- <-; auto). destruct Es as [-> ->].
    split; [|cbn; rewrite app_nil_r; reflexivity]. rewrite <- stepped_none. apply (step_climb n s i pc Dropped [] false false Th En); [apply ClLost | left; reflexivity].
Qed.
Lemma run_thrifty : forall ls n s s' tr, (N.of_nat (n + length ls) <= u64_max)%N -> Forall (goes_to al) ls -> (forall m, few (fst (prun tmax checks (firstn m ls) s))) -> thrifty n s -> prun tmax checks ls s = (s', tr) ->
  (exists m, thrifty m s') /\ s_opened s' = s_opened s ++ opened_in tr.
Proof.
  induction ls as [|lb ls IH]; intros n s s' tr Ln Go Fw Th; cbn [prun]; [intros [= <- <-]; split; [exists n; exact Th | rewrite app_nil_r; reflexivity]|]. cbn [length] in Ln. inversion Go as [|? ? G1 G2]; subst.
  destruct (pstep tmax checks lb s) as [[s1 t1]|] eqn:E.
  - destruct (prun tmax checks ls s1) as [s2 t2] eqn:E2. intros [= <- <-].
    assert (F1 : forall m, few (fst (prun tmax checks (firstn m ls) s1))).
    { intros m. specialize (Fw (S m)). cbn [firstn prun] in Fw. rewrite E in Fw. destruct (prun tmax checks (firstn m ls) s1). exact Fw. }
    destruct (step_thrifty n lb s s1 t1) as [Th1 O1]; [lia | exact G1 | exact (F1 0) | exact Th | exact E|].
    destruct (IH (S n) s1 s2 t2) as [Th2 O2]; [lia | exact G2 | exact F1 | exact Th1 | exact E2|]. split; [exact Th2|]. rewrite O2, O1, opened_app, app_assoc. reflexivity.
  - intros E2. apply (IH n s s' tr); [lia | exact G2 | | exact Th | exact E2]. intros m. specialize (Fw (S m)). cbn [firstn prun] in Fw. rewrite E in Fw. exact Fw.
Qed.
Theorem economy d ls s tr : prun tmax checks ls (psys_new size d) = (s, tr) -> (N.of_nat (length ls) <= u64_max)%N -> Forall (goes_to al) ls ->
  (forall m a, how_many (going_to a) (fst (prun tmax checks (firstn m ls) (psys_new size d))) <= k a) ->
  forall a, openings_to a tr <= k a + how_many (lost_to a) s.
Proof.
  intros E Ln Go Fw a. destruct (run_thrifty ls 0 (psys_new size d) s tr) as [(m & _ & T & _) O]; try assumption.
  - split; [constructor|]. split; [intros b; cbn; lia|]. intros p [= <-]. exists []. split; [apply inv_new | reflexivity | apply N.le_refl | constructor | split; constructor | constructor | intros b; exact I | intros b; apply Nat.le_0_l | intros b; apply le_n].
  - specialize (T a). rewrite openings_opened. unfold how_many. rewrite lost_num. rewrite O in T. cbn [psys_new s_opened app] in T. unfold opened_at in T. lia.
Qed.
End Economy.

Section One.
Context `{floatlib} `{urlenv}.
Variables (tmax : Z) (checks : bool) (size : N) (al : list saddr).
Theorem one_connection : NoDup al -> no_aliases al -> (N.of_nat (length al) <= size)%N -> forall d ls s tr, prun tmax checks ls (psys_new size d) = (s, tr) -> (N.of_nat (length ls) <= u64_max)%N -> Forall (goes_to al) ls ->
  (forall m a, how_many (going_to a) (fst (prun tmax checks (firstn m ls) (psys_new size d))) <= 1) -> forall a, how_many (lost_to a) s = 0 -> openings_to a tr <= 1.
Proof.
  intros A B C d ls s tr E Ln Go Fw a L. assert (Ro : (N.of_nat (total (fun _ => 1%nat) al) <= size)%N).
  { replace (total (fun _ => 1) al) with (length al); [exact C|]. unfold total. clear. induction al as [|b bl IH]; [reflexivity|]. cbn [map list_sum length fold_right] in *. rewrite IH. reflexivity. }
  pose proof (economy tmax checks size al (fun _ => 1) A B Ro d ls s tr E Ln Go Fw a) as X. cbv beta in X. lia.
Qed.
(** That no more than so many calls go on at any moment of a schedule can be looked up. *)
Lemma at_most n (ls : list plabel) s : forallb (fun m => how_many going (fst (prun tmax checks (firstn m ls) s)) <=? n) (seq 0 (S (length ls))) = true ->
  forall m a, how_many (going_to a) (fst (prun tmax checks (firstn m ls) s)) <= n.
Proof.
  intros Fb m a. rewrite forallb_forall in Fb. assert (X : firstn m ls = firstn (Nat.min m (length ls)) ls).
  { destruct (Nat.le_gt_cases m (length ls)) as [L|L]; [rewrite Nat.min_l by exact L; reflexivity|]. rewrite Nat.min_r by lia. rewrite firstn_all, firstn_all2 by lia. reflexivity. }
  rewrite X. specialize (Fb (Nat.min m (length ls))). apply Nat.leb_le in Fb; [|apply in_seq; lia]. eapply Nat.le_trans; [|exact Fb].
  unfold how_many. generalize (s_calls (fst (prun tmax checks (firstn (Nat.min m (length ls)) ls) s))). intros l. unfold going_to. induction l as [|pc l IH]; [apply le_n|]. cbn [filter]. destruct (going pc); [rewrite andb_true_r | rewrite andb_false_r; exact IH].
  destruct (saddr_eqb (c_addr pc) a); cbn [length]; lia.
Qed.
End One.
