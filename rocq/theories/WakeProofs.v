(** * No wake-up is lost. *)
From Verif Require Import Base Serde Procedure Router SerRequest DeHeader DeResponse DepUrl Error Client ClientSpec Pool PoolSystem PoolSystemSpec PoolSystemProofs PoolSystemInv PoolFairSpec PoolFair Wake WakeSpec.
Local Open Scope nat_scope.

Section WakeProofs.
Context `{floatlib} `{urlenv}.

(** ** The polls are the polls of the model without wake-ups *)
Lemma wpoll_poll w p : forall fuel k, let '(t, g, o) := wpoll w p fuel k in poll w p fuel k = (t, o) /\ match o with Ok (Pending _) => g = WithNetwork | _ => True end.
Proof.
  induction fuel as [|fuel IH]; intros k; cbn [wpoll poll]; [split; [reflexivity | exact I]|].
  destruct (phase_poll (k_phase k)) as [[c|c|r|r b]|ph|e]; [| | | |split; [reflexivity | exact I] | split; reflexivity].
  - destruct (on_connected p (k_request k) c) as [[r b]| | |]; try (split; [reflexivity | exact I]).
    specialize (IH (mkCall None (PhB (w_write w r b c)))). destruct (wpoll w p fuel _) as [[t g] o]. destruct IH as [-> IH]. split; [reflexivity | exact IH].
  - specialize (IH (mkCall (k_request k) (PhC (w_head w c)))). destruct (wpoll w p fuel _) as [[t g] o]. destruct IH as [-> IH]. split; [reflexivity | exact IH].
  - destruct (is_head p); [apply IH|].
    specialize (IH (mkCall (k_request k) (PhD (w_body w r)))). destruct (wpoll w p fuel _) as [[t g] o]. destruct IH as [-> IH]. split; [reflexivity | exact IH].
  - split; [reflexivity|]. destruct (on_received p r); exact I.
Qed.
Lemma wacquire_acquire i a s : acquire_poll i a s = fst (wacquire i a s).
Proof. destruct a as [[|c|f]|]; cbn; [reflexivity | reflexivity | destruct (fpoll f); reflexivity | destruct (pending i (s_queue s)); reflexivity]. Qed.
Theorem wpooled_polled i w pc s : poll_pooled i w pc s = option_map fst (wpooled i w pc s).
Proof.
  unfold poll_pooled, wpooled, poll_call. destruct (c_state pc) as [a|c k| | | |]; try reflexivity.
  - rewrite wacquire_acquire. destruct (wacquire i a s) as [[c []|e b|a'] g]; cbn [fst]; try reflexivity.
    + pose proof (wpoll_poll w (c_proc pc) 5 (call_new (c_req pc) (Ready c))) as Q. destruct (wpoll w (c_proc pc) 5 _) as [[t g'] o]. destruct Q as [-> _]. destruct (inner_result i pc c (t, o) _). reflexivity.
    + pose proof (wpoll_poll w (c_proc pc) 5 (call_new (c_req pc) (Ready c))) as Q. destruct (wpoll w (c_proc pc) 5 _) as [[t g'] o]. destruct Q as [-> _]. reflexivity.
  - pose proof (wpoll_poll w (c_proc pc) 5 k) as Q. destruct (wpoll w (c_proc pc) 5 k) as [[t g'] o]. destruct Q as [-> _]. reflexivity.
Qed.

(** A call that is not over after its poll has been noted by somebody. *)
Definition noted (i : nat) (g : reg) (s : psys) : Prop :=
  match state_of i s with
  | Some x => over (Some x) \/ g = WithNetwork \/ g = WithReply /\ x = Acquiring None /\ pending i (s_queue s) = true
  | None => True
  end.
Lemma inner_noted i pc c t g o s : match o with Ok (Pending _) => g = WithNetwork | _ => True end -> noted i g (fst (inner_result i pc c (t, o) s)).
Proof.
  intros Q. unfold noted. destruct o as [[k|v b c']| | |]; cbn [inner_result fst]; try rewrite state_send; rewrite state_put, Nat.eqb_refl; destruct (state_of i s); cbn [option_map]; auto; left; exact I.
Qed.
Theorem wpooled_noted i w pc s s' t g : wpooled i w pc s = Some (s', t, g) -> noted i g s'.
Proof.
  unfold wpooled. destruct (c_state pc) as [a|c k| | | |]; try discriminate.
  - destruct (wacquire i a s) as [[c []|e b|a'] g'] eqn:E.
    + pose proof (wpoll_poll w (c_proc pc) 5 (call_new (c_req pc) (Ready c))) as Q. destruct (wpoll w (c_proc pc) 5 _) as [[t1 g1] o]. destruct Q as [_ Q].
      match goal with |- context [inner_result i pc c (t1, o) ?s1] => pose proof (inner_noted i pc c t1 g1 o s1 Q) as N; destruct (inner_result i pc c (t1, o) s1) end. intros [= <- <- <-]. exact N.
    + pose proof (wpoll_poll w (c_proc pc) 5 (call_new (c_req pc) (Ready c))) as Q. destruct (wpoll w (c_proc pc) 5 _) as [[t1 g1] o]. destruct Q as [_ Q].
      pose proof (inner_noted i pc c t1 g1 o s Q) as N. destruct (inner_result i pc c (t1, o) s). intros [= <- <- <-]. exact N.
    + unfold noted. destruct b; intros [= <- <- <-]; try rewrite state_send; rewrite state_put, Nat.eqb_refl; destruct (state_of i s); cbn; auto.
    + intros [= <- <- <-]. unfold noted. rewrite state_put, Nat.eqb_refl. destruct (state_of i s) as [z|]; [|exact I]. cbn [option_map].
      right. revert E. destruct a as [[|c|f]|]; cbn [wacquire]; try discriminate.
      * destruct (fpoll f); try discriminate. intros [= <- <-]. left. reflexivity.
      * destruct (pending i (s_queue s)) eqn:P; [|discriminate]. intros [= <- <-]. right. auto.
  - pose proof (wpoll_poll w (c_proc pc) 5 k) as Q. destruct (wpoll w (c_proc pc) 5 k) as [[t1 g1] o]. destruct Q as [_ Q].
    pose proof (inner_noted i pc c t1 g1 o s Q) as N. destruct (inner_result i pc c (t1, o) s). intros [= <- <- <-]. exact N.
Qed.

(** ** What steps do to the queue and to a call that is not polled *)
Variables (tmax : Z) (checks : bool).
Notation next := (pnext tmax checks).
Definition plain (c : command conn) : Prop := match c with AcquireConnection _ _ => False | _ => True end.
Lemma send_queue c s : s_queue (send c s) = s_queue s ++ [c] \/ s_queue (send c s) = s_queue s.
Proof. unfold send. destruct (s_pool s); auto. Qed.
Lemma send_calls c s : s_calls (send c s) = s_calls s.
Proof. unfold send. destruct (s_pool s); auto. Qed.
Lemma set_length i x l : length (set_state i x l) = length l.
Proof. revert i. induction l as [|c l IH]; intros [|i]; cbn; auto. Qed.
Definition queue_moves (l : plabel) (s s' : psys) : Prop :=
  (exists a p r, l = LCall a p r /\ length (s_calls s') = S (length (s_calls s)) /\ (s_queue s' = s_queue s ++ [AcquireConnection a (length (s_calls s))] \/ s_queue s' = s_queue s)) \/
  length (s_calls s') = length (s_calls s) /\
  (s_queue s' = s_queue s \/ (exists c, plain c /\ s_queue s' = s_queue s ++ [c]) \/ (exists c, s_queue s = c :: s_queue s') \/ s_queue s' = []).
Lemma inner_moves i pc c r s s' : s_queue s = s_queue s' -> length (s_calls s) = length (s_calls s') -> forall l, queue_moves l s' (fst (inner_result i pc c r s)).
Proof.
  intros E L l. right. destruct r as [t [[k|v b c']| | |]]; cbn [inner_result fst]; try (unfold put_state; cbn [s_calls s_queue]; rewrite set_length; auto).
  rewrite send_calls. unfold put_state at 1. cbn [s_calls]. rewrite set_length. split; [exact L|].
  destruct (send_queue (ReleaseConnection (c_addr pc) c') (put_state i (Finished v b) s)) as [Q|Q]; rewrite Q; unfold put_state; cbn [s_queue]; rewrite E; [|auto]. right. left. eexists. split; [|reflexivity]. exact I.
Qed.
Lemma reply_queue i a s : s_queue (reply i a s) = s_queue s /\ length (s_calls (reply i a s)) = length (s_calls s).
Proof. unfold reply. destruct (nth_error (s_calls s) i) as [c|]; [|auto]. destruct (c_state c) as [[|]| | | | |]; auto. unfold put_state. cbn. rewrite set_length. auto. Qed.
Lemma next_queue l s : queue_moves l s (next l s).
Proof.
  assert (S0 : queue_moves l s s) by (right; auto).
  unfold pnext. destruct l as [addr p req|now f| |j w|j]; cbn [pstep].
  - left. exists addr, p, req. rewrite send_calls. cbn [s_calls]. rewrite app_length. cbn [length]. split; [reflexivity|]. split; [lia|].
    match goal with |- s_queue (send ?c ?s1) = _ \/ _ => destruct (send_queue c s1) as [Q|Q] end; rewrite Q; cbn [s_queue]; auto.
  - destruct (s_pool s) as [p|]; [|exact S0]. destruct (s_queue s) as [|c q] eqn:Eq; [exact S0|].
    destruct (handle_command tmax checks now c p) as [[o p']| | |]; try (right; cbn; auto).
    destruct o as [[j a]|]; cbn [s_calls s_queue].
    + match goal with |- context [reply ?j ?a ?s1] => destruct (reply_queue j a s1) as [R1 R2] end. rewrite R1, R2. cbn [s_calls s_queue]. split; [reflexivity|]. right. right. left. exists c. exact Eq.
    + split; [reflexivity|]. right. right. left. exists c. exact Eq.
  - destruct (s_pool s) as [p|]; [|exact S0]. right. cbn. auto.
  - destruct (nth_error (s_calls s) j) as [pc|] eqn:Nj; [|exact S0]. destruct (poll_pooled j w pc s) as [[s' t]|] eqn:E; [|exact S0]. revert E. unfold poll_pooled.
    assert (R : forall c r s1, s_queue s1 = s_queue s -> length (s_calls s1) = length (s_calls s) -> forall s' t, inner_result j pc c r s1 = (s', t) -> queue_moves (LPoll j w) s s').
    { intros c r s1 E L s2 t2 I. change s2 with (fst (s2, t2)). rewrite <- I. apply inner_moves; assumption. }
    destruct (c_state pc) as [a|c k| | | |]; try discriminate.
    + destruct (acquire_poll j a s) as [c []|e b|a'].
      * destruct (inner_result j pc c _ _) as [s2 t2] eqn:E. intros [= <- <-]. eapply R; [| |exact E]; reflexivity.
      * intros [= E]. eapply R; [| |exact E]; reflexivity.
      * destruct b; intros [= <- <-]; [|right; unfold put_state; cbn; rewrite set_length; auto]. right. rewrite send_calls. unfold put_state at 1. cbn [s_calls]. rewrite set_length. split; [reflexivity|].
        match goal with |- context [send ?c ?s1] => destruct (send_queue c s1) as [Q|Q] end; rewrite Q; [|auto]. right. left. eexists. split; [|reflexivity]. exact I.
      * intros [= <- <-]. right; unfold put_state; cbn; rewrite set_length; auto.
    + intros [= E]. eapply R; [| |exact E]; reflexivity.
  - destruct (nth_error (s_calls s) j) as [pc|]; [|exact S0]. destruct (c_state pc); try exact S0; right; unfold put_state; cbn; rewrite set_length; auto.
Qed.

(** Every call has at most one command in the queue. *)
Definition wanted (q : list (command conn)) : list nat := flat_map (fun c => match c with AcquireConnection _ j => [j] | _ => [] end) q.
Lemma wanted_pending i q : pending i q = true <-> In i (wanted q).
Proof.
  induction q as [|c q IH]; [cbn; split; [discriminate | intros []]|]. unfold pending in *. cbn [existsb]. unfold wanted. cbn [flat_map]. rewrite in_app_iff, orb_true_iff, IH. fold (wanted q).
  destruct c as [a j|a c|a]; cbn; [rewrite Nat.eqb_eq|..]; intuition congruence.
Qed.
Definition single (s : psys) : Prop := NoDup (wanted (s_queue s)) /\ Forall (fun i => i < length (s_calls s)) (wanted (s_queue s)).
Lemma single_next l s : single s -> single (next l s).
Proof.
  intros [N B]. unfold single. destruct (next_queue l s) as [(a & p & r & -> & L & Q)|(L & Q)]; rewrite L.
  - assert (B' : Forall (fun i => i < S (length (s_calls s))) (wanted (s_queue s))) by (eapply Forall_impl; [|exact B]; cbn; lia).
    destruct Q as [-> | ->]; [|auto]. unfold wanted. rewrite flat_map_app. cbn [flat_map app]. fold (wanted (s_queue s)). split.
    + apply (Permutation.Permutation_NoDup (l := length (s_calls s) :: wanted (s_queue s))); [apply Permutation.Permutation_cons_append|]. constructor; [|exact N].
      intros I. apply (proj1 (Forall_forall _ _) B) in I. lia.
    + apply Forall_app. split; [exact B'|]. constructor; [lia | constructor].
  - destruct Q as [-> |[(c & P & ->)|[(c & Q)| ->]]]; [auto| | |].
    + unfold wanted. rewrite flat_map_app. fold (wanted (s_queue s)). replace (flat_map _ [c]) with (@nil nat) by (destruct c; [destruct P|reflexivity..]). rewrite app_nil_r. auto.
    + rewrite Q in N, B. unfold wanted in N, B. cbn [flat_map] in N, B. fold (wanted (s_queue (next l s))) in N, B. apply Forall_app in B. split; [|exact (proj2 B)].
      destruct c; cbn [app] in N; try exact N. inversion N. assumption.
    + cbn. split; constructor.
Qed.

Lemma state_other i l s x : ~ poll_of i l -> state_of i (next l s) = Some x -> ~ over (Some x) ->
  state_of i s = Some x \/ (exists a p r, l = LCall a p r /\ i = length (s_calls s)) \/
  (state_of i s = Some (Acquiring None) /\ exists a, s_queue s = AcquireConnection a i :: s_queue (next l s)).
Proof.
  intros N. unfold pnext. destruct l as [addr p req|now f| |j w|j]; cbn [pstep poll_of] in *.
  - rewrite state_send. unfold state_of. cbn [s_calls]. rewrite nth_snoc. destruct (Nat.eqb_spec i (length (s_calls s))) as [->|D]; [|auto]. intros _ _. right. left. eauto.
  - destruct (s_pool s) as [p|]; [|auto]. destruct (s_queue s) as [|c q] eqn:Eq; [auto|]. destruct (handle_command tmax checks now c p) as [[o p']| | |] eqn:Eh; try (intros E _; left; exact E).
    destruct o as [[j a]|]; [|intros E _; left; exact E].
    pose proof (handle_reply tmax checks now c p _ p' Eh) as R. unfold reply. cbn [s_calls].
    destruct (nth_error (s_calls s) j) as [pc|] eqn:Nj; [|intros E _; left; exact E]. destruct (c_state pc) as [[|]| | | | |] eqn:Ec; try (intros E _; left; exact E).
    rewrite state_put. destruct (Nat.eqb_spec j i) as [->|D]; [|intros E _; left; exact E]. intros _ _. right. right. split; [unfold state_of; rewrite Nj; cbn; rewrite Ec; reflexivity|].
    destruct c as [b k|b k|b]; [|discriminate R..]. destruct R as [y R]. injection R as <- <-. exists b. reflexivity.
  - destruct (s_pool s); intros E _; left; exact E.
  - destruct (nth_error (s_calls s) j) as [pc|]; [|auto]. destruct (poll_pooled j w pc s) as [[s' t]|] eqn:E; [|auto]. destruct (poll_other i j w pc s s' t N E) as [-> _]. auto.
  - destruct (nth_error (s_calls s) j) as [pc|]; [|auto]. assert (Q : state_of i (put_state j Dropped s) = Some x -> ~ over (Some x) -> state_of i s = Some x).
    { rewrite state_put. destruct (Nat.eqb j i); [|auto]. destruct (state_of i s); cbn; [|discriminate]. intros [= <-] O. destruct (O I). }
    destruct (c_state pc); auto.
Qed.

(** ** The invariant *)
Definition ready (i : nat) (x : cstate) (s : psys) (d : nat -> bool) (r : nat -> reg) : Prop :=
  d i = true \/ r i = WithNetwork \/ r i = WithReply /\ x = Acquiring None /\ pending i (s_queue s) = true.
Definition wakeful (y : wsys) : Prop :=
  (y_pool y = PAsleep -> s_queue (y_sys y) = []) /\
  forall i x, state_of i (y_sys y) = Some x -> ~ over (Some x) -> ready i x (y_sys y) (y_due y) (y_reg y).

Lemma react_wakeful y l : single (y_sys y) -> (y_pool y = PAsleep -> s_queue (y_sys y) = []) ->
  (forall i x, state_of i (y_sys y) = Some x -> ~ over (Some x) -> ~ poll_of i l -> ready i x (y_sys y) (y_due y) (y_reg y)) ->
  (forall a p r, l = LCall a p r -> y_due y (length (s_calls (y_sys y))) = true) ->
  (forall i x, state_of i (next l (y_sys y)) = Some x -> ~ over (Some x) -> poll_of i l -> ready i x (next l (y_sys y)) (y_due y) (y_reg y)) ->
  wakeful (react y (next l (y_sys y))).
Proof.
  destruct y as [s t d r]. unfold react, wakeful. cbn [y_sys y_pool y_due y_reg]. intros Sg A W C P. split.
  - destruct t; try discriminate. rewrite (A eq_refl). cbn [length]. destruct (s_queue (next l s)); [reflexivity | discriminate].
  - intros i x E O. assert (D : poll_of i l \/ ~ poll_of i l) by (destruct l as [| | |j w|j]; cbn; auto; destruct (Nat.eq_dec j i); auto).
    destruct D as [D|D].
    + destruct (P i x E O D) as [R|R]; [left; rewrite R; reflexivity | right; exact R].
    + destruct (state_other i l s x D E O) as [E'|[(a & p & r' & El & Ei)|(E' & a & Q)]].
      * destruct (W i x E' O D) as [R|[R|(R & Ex & Pn)]]; [left; rewrite R; reflexivity | right; left; exact R|].
        destruct (pending i (s_queue (next l s))) eqn:Pn'; [right; right; auto|]. left. rewrite R, Pn, Pn'. apply orb_true_r.
      * left. rewrite Ei, (C a p r' El). reflexivity.
      * assert (Pn : pending i (s_queue s) = true) by (rewrite Q; cbn [pending existsb]; rewrite Nat.eqb_refl; reflexivity).
        assert (Pn' : pending i (s_queue (next l s)) = false).
        { destruct (pending i (s_queue (next l s))) eqn:Z; [|reflexivity]. apply wanted_pending in Z. destruct Sg as [Nd _]. rewrite Q in Nd. cbn [wanted flat_map app] in Nd. inversion Nd. contradiction. }
        destruct (W i _ E' (fun z => z) D) as [R|[R|(R & _)]]; [left; rewrite R; reflexivity | right; left; exact R|]. left. rewrite R, Pn, Pn'. apply orb_true_r.
Qed.

(** The label of the system without wake-ups that a step carries out. *)
Definition carried (l : wlabel) (y : wsys) : option plabel :=
  match l with
  | WCall a p r => Some (LCall a p r)
  | WPool now f => match y_pool y, s_pool (y_sys y), s_queue (y_sys y) with PDue, Some _, _ :: _ | PRunning, Some _, _ :: _ => Some (LPool now f) | _, _, _ => None end
  | WPoolDrop => Some LPoolDrop
  | WPoll i w => if y_due y i then Some (LPoll i w) else None
  | WDrop i => Some (LDrop i)
  | _ => None
  end.
Lemma psome_next l s : psome tmax checks l s = next l s.
Proof. reflexivity. Qed.
Lemma wpoll_step i w s pc : nth_error (s_calls s) i = Some pc -> next (LPoll i w) s = match wpooled i w pc s with Some (s', _, _) => s' | None => s end.
Proof. intros E. unfold pnext. cbn [pstep]. rewrite E, wpooled_polled. destruct (wpooled i w pc s) as [[[s' t] g]|]; reflexivity. Qed.
Theorem wstep_sys l y : y_sys (wstep tmax checks l y) = match carried l y with Some p => next p (y_sys y) | None => y_sys y end.
Proof.
  destruct l as [a p r|now f| |i w|i|i|i|]; cbn [wstep carried]; try reflexivity.
  - destruct (y_pool y), (s_pool (y_sys y)); try reflexivity; destruct (s_queue (y_sys y)); reflexivity.
  - destruct (y_due y i); [|reflexivity]. destruct (nth_error (s_calls (y_sys y)) i) as [pc|] eqn:E; [|unfold pnext; cbn [pstep]; rewrite E; reflexivity].
    rewrite (wpoll_step _ _ _ _ E). destruct (wpooled i w pc (y_sys y)) as [[[s' t] g]|]; reflexivity.
  - destruct (y_reg y i); reflexivity.
Qed.

Lemma upd_same {A} i (x : A) f : upd i x f i = x.
Proof. unfold upd. rewrite Nat.eqb_refl. reflexivity. Qed.
Lemma upd_other {A} i j (x : A) f : j <> i -> upd i x f j = f j.
Proof. intros N. unfold upd. destruct (Nat.eqb_spec i j); [congruence | reflexivity]. Qed.
Lemma ready_woken i j x s d r : ready i x s d r -> ready i x s (upd j true d) r.
Proof. intros [R|R]; [|right; exact R]. left. unfold upd. destruct (Nat.eqb j i); auto. Qed.
Lemma poll_of_dec i l : poll_of i l \/ ~ poll_of i l.
Proof. destruct l as [| | |j w|j]; cbn; auto. destruct (Nat.eq_dec j i); auto. Qed.

Theorem wakeful_step l y : single (y_sys y) -> wakeful y -> wakeful (wstep tmax checks l y).
Proof.
  intros Sg [A W]. destruct l as [a p r|now f| |i w|i|i|i|]; cbn [wstep].
  - rewrite psome_next. match goal with |- wakeful (react ?y1 _) => apply (react_wakeful y1 (LCall a p r)) end; cbn [y_sys y_pool y_due y_reg]; try assumption.
    + intros i x E O _. assert (L : i < length (s_calls (y_sys y))) by (apply nth_error_Some; unfold state_of in E; destruct (nth_error (s_calls (y_sys y)) i); [discriminate | discriminate E]).
      destruct (W i x E O) as [R|R]; [left; rewrite upd_other by lia; exact R|]. right. rewrite upd_other by lia. exact R.
    + intros _ _ _ _. apply upd_same.
    + intros i x _ _ [].
  - destruct (y_pool y) eqn:Ep; [| |split; [intros _; exact (A eq_refl) | exact W]].
    all: destruct (s_pool (y_sys y)) eqn:Es; [|split; [intros B; congruence | exact W]]; destruct (s_queue (y_sys y)) as [|c q] eqn:Eq; [split; [intros _; exact Eq | exact W]|].
    all: rewrite psome_next; match goal with |- wakeful (react ?y1 _) => apply (react_wakeful y1 (LPool now f)) end; cbn [y_sys y_pool y_due y_reg]; try assumption; try discriminate; auto; intros i x _ _ [].
  - rewrite psome_next. apply (react_wakeful y LPoolDrop); auto; [discriminate | intros i x _ _ []].
  - destruct (y_due y i) eqn:Ed; [|split; assumption]. destruct (nth_error (s_calls (y_sys y)) i) as [pc|] eqn:E; [|split; assumption].
    pose proof (wpoll_step i w _ _ E) as Nx. destruct (wpooled i w pc (y_sys y)) as [[[s' t] g]|] eqn:Ew.
    + rewrite <- Nx. match goal with |- wakeful (react ?y1 _) => apply (react_wakeful y1 (LPoll i w)) end; cbn [y_sys y_pool y_due y_reg poll_of]; try assumption; try discriminate.
      * intros j x Ej O D. unfold ready. rewrite !upd_other by auto. exact (W j x Ej O).
      * intros j x Ej O <-. unfold ready. rewrite !upd_same. rewrite Nx in *. pose proof (wpooled_noted _ _ _ _ _ _ _ Ew) as Q. unfold noted in Q. rewrite Ej in Q. right. destruct Q as [Q|Q]; [destruct (O Q) | exact Q].
    + split; [exact A|]. cbn [y_sys y_due y_reg]. intros j x Ej O. destruct (Nat.eq_dec j i) as [->|D]; [|unfold ready; rewrite !upd_other by auto; exact (W j x Ej O)].
      exfalso. unfold state_of in Ej. rewrite E in Ej. injection Ej as <-. revert Ew. unfold wpooled. destruct (c_state pc) as [b|c k| | | |]; try (destruct (O I)).
      * destruct (wacquire i b (y_sys y)) as [[c []|e z|b'] g]; try discriminate; destruct (wpoll w (c_proc pc) 5 _) as [[t1 g1] o]; [destruct (inner_result i pc c (t1, o) _)|]; discriminate.
      * destruct (wpoll w (c_proc pc) 5 k) as [[t1 g1] o]. discriminate.
  - rewrite psome_next. apply (react_wakeful y (LDrop i)); auto; [discriminate | intros j x _ _ []].
  - destruct (y_reg y i); split; try assumption. cbn [y_sys y_due y_reg]. intros j x Ej O. apply ready_woken. exact (W j x Ej O).
  - split; [exact A|]. cbn [y_sys y_due y_reg]. intros j x Ej O. apply ready_woken. exact (W j x Ej O).
  - split; [|exact W]. cbn [y_pool y_sys]. destruct (y_pool y); discriminate.
Qed.

(** ** Endless runs *)
Variables (sched : nat -> wlabel) (y0 : wsys).
Notation at_ n := (wat tmax checks sched n y0).
Hypothesis start_single : single (y_sys y0).
Hypothesis start_tidy : tidy (y_sys y0).
Hypothesis start_none : s_calls (y_sys y0) = [].
Hypothesis start_awake : y_pool y0 = PDue.

Lemma at_single n : single (y_sys (at_ n)).
Proof. induction n as [|n IH]; [exact start_single|]. cbn [wat]. rewrite wstep_sys. destruct (carried (sched n) (at_ n)); [apply single_next|]; exact IH. Qed.
Lemma wat_tidy n : tidy (y_sys (at_ n)).
Proof. induction n as [|n IH]; [exact start_tidy|]. cbn [wat]. rewrite wstep_sys. destruct (carried (sched n) (at_ n)); [apply tidy_step|]; exact IH. Qed.
Theorem at_wakeful n : wakeful (at_ n).
Proof.
  induction n as [|n IH]; [|apply wakeful_step; [apply at_single | exact IH]]. split; [cbn [wat]; rewrite start_awake; discriminate|].
  intros i x E. cbn [wat] in E. unfold state_of in E. rewrite start_none, nth_nil in E. discriminate.
Qed.
(** The labels of the system without wake-ups carried out so far. *)
Fixpoint carried_all (n : nat) : list plabel :=
  match n with O => [] | S n => carried_all n ++ match carried (sched n) (at_ n) with Some p => [p] | None => [] end end.
Theorem at_sys n : y_sys (at_ n) = fst (prun tmax checks (carried_all n) (y_sys y0)).
Proof.
  induction n as [|n IH]; [reflexivity|]. cbn [wat carried_all]. rewrite wstep_sys. destruct (carried (sched n) (at_ n)) as [p|]; [|rewrite app_nil_r; exact IH].
  rewrite prun_snoc, <- IH. reflexivity.
Qed.

Theorem no_lost_wakeup n i : alive i (at_ n) -> will_be_woken i (at_ n).
Proof.
  intros [N O]. destruct (state_of i (y_sys (at_ n))) as [x|] eqn:E; [|congruence]. destruct (at_wakeful n) as [A W].
  destruct (W i x E O) as [R|[R|(R & -> & P)]]; [left; exact R | right; left; exact R|]. right. right. split; [exact R|]. split; [exact E|].
  assert (I : exists a, In (AcquireConnection a i) (s_queue (y_sys (at_ n)))).
  { unfold pending in P. apply existsb_exists in P. destruct P as (c & I & Q). destruct c as [a j| |]; try discriminate. apply Nat.eqb_eq in Q. subst j. eauto. }
  split; [exact I|]. destruct I as [a I]. split; intros Z; [apply wat_tidy in Z | apply A in Z]; rewrite Z in I; destruct I.
Qed.
Theorem asleep_idle n : y_pool (at_ n) = PAsleep -> s_queue (y_sys (at_ n)) = [].
Proof. apply at_wakeful. Qed.

Hypothesis answered : forall n, answering_wlabel (sched n).
Lemma carried_answering l y p : answering_wlabel l -> carried l y = Some p -> answering_label p.
Proof.
  destruct l as [a q r|now f| |j w|j|j|j|]; cbn [carried answering_wlabel]; intros A; try (intros [= <-]; exact I); try discriminate.
  - destruct (y_pool y); try discriminate; destruct (s_pool (y_sys y)); try discriminate; destruct (s_queue (y_sys y)); try discriminate; intros [= <-]; exact A.
  - destruct (y_due y j); [|discriminate]. intros [= <-]. exact A.
Qed.

(** A step that carries nothing out, or something that does not concern the call, leaves it where it is. *)
Lemma wstep_call i n x : state_of i (y_sys (at_ n)) = Some x -> state_ends x -> ~ over (Some x) ->
  better i x (y_sys (at_ n)) (y_sys (at_ (S n))) \/
  same i x (y_sys (at_ n)) (y_sys (at_ (S n))) /\ forall p, carried (sched n) (at_ n) = Some p -> ~ helps i x (place i (s_queue (y_sys (at_ n)))) p.
Proof.
  intros Sx E O. cbn [wat]. rewrite wstep_sys. destruct (carried (sched n) (at_ n)) as [p|] eqn:C.
  - destruct (step_call tmax checks i p _ x (wat_tidy n) (carried_answering _ _ _ (answered n) C) Sx E O) as [B|[B N]]; [left; exact B | right]. split; [exact B|]. intros p' [= <-]. exact N.
  - right. split; [split; [exact Sx | reflexivity] | discriminate].
Qed.
Lemma wover_stays i n : over (state_of i (y_sys (at_ n))) -> over (state_of i (y_sys (at_ (S n)))).
Proof. intros O. cbn [wat]. rewrite wstep_sys. destruct (carried (sched n) (at_ n)); [apply over_stays|]; exact O. Qed.
Lemma wat_ends i n : match state_of i (y_sys (at_ n)) with Some x => state_ends x | None => True end.
Proof.
  induction n as [|n IH]; [cbn [wat]; unfold state_of; rewrite start_none, nth_nil; exact I|].
  destruct (state_of i (y_sys (at_ n))) as [x|] eqn:Sx.
  - destruct (over_dec x) as [O|O].
    + rewrite <- Sx in O. apply wover_stays in O. destruct (state_of i (y_sys (at_ (S n)))) as [z|]; [apply over_ends, O | exact I].
    + destruct (wstep_call i n x Sx IH O) as [[B|(z & Sz & Ez & _)]|[[B _] _]].
      * destruct (state_of i (y_sys (at_ (S n)))) as [z|]; [apply over_ends, B | exact I].
      * rewrite Sz. exact Ez.
      * rewrite B. exact IH.
  - cbn [wat]. rewrite wstep_sys. destruct (carried (sched n) (at_ n)) as [p|]; [|rewrite Sx; exact I].
    destruct (state_new tmax checks i p _ Sx) as [->| ->]; exact I.
Qed.

(** Marks stay until the call is polled. *)
Lemma due_stays i n : y_due (at_ n) i = true -> y_due (at_ (S n)) i = true \/ exists w, carried (sched n) (at_ n) = Some (LPoll i w).
Proof.
  intros D. cbn [wat]. assert (R : forall y s, y_due y i = true -> y_due (react y s) i = true) by (intros y s Q; cbn [react y_due]; rewrite Q; reflexivity).
  assert (U : forall j, upd j true (y_due (at_ n)) i = true) by (intros j; unfold upd; destruct (Nat.eqb j i); auto).
  destruct (sched n) as [a p r|now f| |j w|j|j|j|]; cbn [wstep carried]; try (left; exact D); try (left; apply R; auto; fail); try (left; apply U).
  - left. apply R. cbn [y_due]. apply U.
  - left. destruct (y_pool (at_ n)), (s_pool (y_sys (at_ n))); try exact D; destruct (s_queue (y_sys (at_ n))); try exact D; apply R; exact D.
  - destruct (y_due (at_ n) j) eqn:Dj; [|left; exact D]. destruct (Nat.eq_dec i j) as [->|Nij]; [right; eauto|]. left.
    assert (V : upd j false (y_due (at_ n)) i = true) by (rewrite upd_other; auto).
    destruct (nth_error (s_calls (y_sys (at_ n))) j) as [pc|]; [|exact D]. destruct (wpooled j w pc (y_sys (at_ n))) as [[[s' t] g]|]; [apply R|]; exact V.
  - left. destruct (y_reg (at_ n) j); try exact D. apply U.
Qed.

Variable i : nat.
Definition gets_better (n : nat) (x : cstate) : Prop :=
  exists k, n <= k /\ state_of i (y_sys (at_ k)) = Some x /\ left x (place i (s_queue (y_sys (at_ k)))) = left x (place i (s_queue (y_sys (at_ n)))) /\
    better i x (y_sys (at_ k)) (y_sys (at_ (S k))).
(** Until it gets better the call stays where it is, and marked if it was. *)
Lemma stays n x : state_of i (y_sys (at_ n)) = Some x -> ~ over (Some x) -> forall d, gets_better n x \/
  state_of i (y_sys (at_ (d + n))) = Some x /\ left x (place i (s_queue (y_sys (at_ (d + n))))) = left x (place i (s_queue (y_sys (at_ n)))) /\
  (helps i x (place i (s_queue (y_sys (at_ n)))) (LPoll i {| w_write := fun _ _ _ => Never; w_head := fun _ => Never; w_body := fun _ => Never |}) -> y_due (at_ n) i = true -> y_due (at_ (d + n)) i = true).
Proof.
  intros Sx O d. induction d as [|d [B|(S1 & L1 & D1)]]; [right; cbn [Nat.add]; auto | left; exact B|].
  pose proof (wat_ends i (d + n)) as E. rewrite S1 in E.
  destruct (wstep_call i (d + n) x S1 E O) as [B|[[S2 L2] Hn]]; [left; exists (d + n); repeat split; auto; lia|]. right. change (S d + n) with (S (d + n)).
  split; [exact S2|]. split; [congruence|]. intros Hp Du. destruct (due_stays i (d + n) (D1 Hp Du)) as [Q|(w & Q)]; [exact Q|]. exfalso. apply (Hn _ Q).
  apply (helps_same i x (place i (s_queue (y_sys (at_ n))))); [congruence|]. revert Hp. unfold helps. destruct x as [[|]| | | | |]; exact (fun z => z).
Qed.

Hypothesis executor : polls_the_woken tmax checks sched y0.
Hypothesis network : wakes_the_waiting tmax checks sched y0.

Definition no_wire : wire conn := {| w_write := fun _ _ _ => Never; w_head := fun _ => Never; w_body := fun _ => Never |}.
Lemma not_both j q w : pending j q = true -> helps j (Acquiring None) (place j q) (LPoll j w) -> False.
Proof. rewrite place_pending. unfold helps. destruct (place j q); [discriminate 1 | intros _ []]. Qed.
Lemma alive_of n x : state_of i (y_sys (at_ n)) = Some x -> ~ over (Some x) -> alive i (at_ n).
Proof. intros E O. unfold alive. rewrite E. split; [discriminate | exact O]. Qed.
Lemma due_better n x : state_of i (y_sys (at_ n)) = Some x -> ~ over (Some x) -> (forall w, helps i x (place i (s_queue (y_sys (at_ n)))) (LPoll i w)) -> y_due (at_ n) i = true -> gets_better n x.
Proof.
  intros Sx O Hp D. destruct (proj1 executor n i (alive_of n x Sx O) D) as (m & L & Q).
  replace m with ((m - n) + n) in Q by lia. destruct (stays n x Sx O (m - n)) as [B|(S1 & L1 & D1)]; [exact B|].
  destruct Q as [Q|(w & Q)]; [destruct (Q (alive_of _ x S1 O))|].
  pose proof (wat_ends i (m - n + n)) as E. rewrite S1 in E. destruct (wstep_call i _ x S1 E O) as [B|[_ Hn]]; [exists (m - n + n); repeat split; auto; lia|]. exfalso.
  apply (Hn (LPoll i w)); [rewrite Q; cbn [carried]; rewrite (D1 (Hp _) D); reflexivity|]. apply (helps_same i x (place i (s_queue (y_sys (at_ n))))); [congruence | apply Hp].
Qed.
Lemma progress n x : state_of i (y_sys (at_ n)) = Some x -> ~ over (Some x) -> gets_better n x.
Proof.
  intros Sx O.
  assert (C : (x = Acquiring None /\ place i (s_queue (y_sys (at_ n))) <> 0) \/ (forall w, helps i x (place i (s_queue (y_sys (at_ n)))) (LPoll i w))).
  { unfold helps. destruct x as [[|]| | | | |]; try (right; reflexivity). destruct (place i (s_queue (y_sys (at_ n)))); [right; reflexivity | left; auto]. }
  destruct C as [(-> & Pl)|Hp].
  - assert (Nq : forall m, place i (s_queue (y_sys (at_ m))) <> 0 -> s_pool (y_sys (at_ m)) <> None /\ y_pool (at_ m) <> PAsleep /\ s_queue (y_sys (at_ m)) <> []).
    { intros m Q. assert (Ne : s_queue (y_sys (at_ m)) <> []) by (intros Z; rewrite Z in Q; exact (Q eq_refl)). split; [intros Z; exact (Ne (wat_tidy m Z))|]. split; [|exact Ne]. intros Z. exact (Ne (asleep_idle m Z)). }
    destruct (Nq n Pl) as (P1 & P2 & _). destruct (proj2 executor n P1 P2) as (m & L & Q).
    replace m with ((m - n) + n) in Q by lia. destruct (stays n _ Sx O (m - n)) as [B|(S1 & L1 & _)]; [exact B|]. cbn [left] in L1. injection L1 as L1.
    destruct (Nq (m - n + n)) as (R1 & R2 & R3); [rewrite L1; exact Pl|]. destruct Q as [Q|(now & f & Q)]; [destruct (R1 Q)|].
    pose proof (wat_ends i (m - n + n)) as E. rewrite S1 in E. destruct (wstep_call i _ _ S1 E O) as [B|[_ Hn]]; [exists (m - n + n); split; [lia | split; [exact S1 | split; [cbn [left]; congruence | exact B]]]|]. exfalso.
    apply (Hn (LPool now f)); [|rewrite L1; cbn [helps]; destruct (place i (s_queue (y_sys (at_ n)))); [congruence | exact I]]. rewrite Q. cbn [carried].
    destruct (y_pool (at_ (m - n + n))), (s_pool (y_sys (at_ (m - n + n)))), (s_queue (y_sys (at_ (m - n + n)))); congruence.
  - destruct (at_wakeful n) as [_ W]. destruct (W i x Sx O) as [D|[R|(_ & -> & P)]].
    + exact (due_better n x Sx O Hp D).
    + destruct (network n i (alive_of n x Sx O) R) as (m & L & Q). replace m with ((m - n) + n) in Q by lia. destruct (stays n x Sx O (m - n)) as [B|(S1 & L1 & _)]; [exact B|].
      destruct Q as [Q|Q]; [destruct (Q (alive_of _ x S1 O))|].
      assert (Hp' : forall w, helps i x (place i (s_queue (y_sys (at_ (m - n + n))))) (LPoll i w)) by (intros w; apply (helps_same i x (place i (s_queue (y_sys (at_ n))))); [congruence | apply Hp]).
      destruct (y_due (at_ (m - n + n)) i) eqn:D1.
      * destruct (due_better _ x S1 O Hp' D1) as (k & Lk & Sk & Qk & Bk). exists k. split; [lia|]. split; [exact Sk|]. split; [congruence | exact Bk].
      * assert (Q2 : y_due (at_ (S (m - n + n))) i = true /\ y_sys (at_ (S (m - n + n))) = y_sys (at_ (m - n + n))).
        { cbn [wat]. rewrite Q. cbn [wstep]. destruct (at_wakeful (m - n + n)) as [_ W1]. destruct (W1 i x S1 O) as [Z|[Z|(_ & -> & Z)]]; [congruence|rewrite Z; split; [apply upd_same | reflexivity]|].
          exact (False_ind _ (not_both _ _ no_wire Z (Hp' _))). }
        destruct Q2 as [Q2 Q3]. destruct (due_better (S (m - n + n)) x) as (k & Lk & Sk & Qk & Bk); [rewrite Q3; exact S1 | exact O | rewrite Q3; exact Hp' | exact Q2|].
        exists k. split; [lia|]. split; [exact Sk|]. split; [rewrite Q3 in Qk; congruence | exact Bk].
    + exact (False_ind _ (not_both _ _ no_wire P (Hp _))).
Qed.

Lemma wends_from m : forall n x, state_of i (y_sys (at_ n)) = Some x -> ~ over (Some x) -> left x (place i (s_queue (y_sys (at_ n)))) = m -> exists n', n <= n' /\ over (state_of i (y_sys (at_ n'))).
Proof.
  induction (lt2_wf m) as [m _ IH]. intros n x Sx O Em. destruct (progress n x Sx O) as (k & L & Sk & Lk & B). destruct B as [B|(z & Sz & _ & Lz)]; [exists (S k); split; [lia | exact B]|].
  destruct (over_dec z) as [Oz|Oz]; [exists (S k); rewrite Sz; split; [lia | exact Oz]|]. rewrite Lk, Em in Lz. destruct (IH _ Lz (S k) z Sz Oz eq_refl) as (n' & L' & Q). exists n'. split; [lia | exact Q].
Qed.
Theorem woken_ends n : state_of i (y_sys (at_ n)) <> None -> exists n', n <= n' /\ forall m, n' <= m -> over (state_of i (y_sys (at_ m))).
Proof.
  intros N. destruct (state_of i (y_sys (at_ n))) as [x|] eqn:Sx; [|congruence].
  assert (Q : exists n', n <= n' /\ over (state_of i (y_sys (at_ n')))).
  { destruct (over_dec x) as [O|O]; [exists n; rewrite Sx; auto | exact (wends_from _ n x Sx O eq_refl)]. }
  destruct Q as (n' & L & O). exists n'. split; [exact L|]. intros m Lm. replace m with ((m - n') + n') by lia. induction (m - n') as [|d IH]; [exact O|]. cbn [Nat.add]. apply wover_stays, IH.
Qed.
End WakeProofs.

Section Start.
Context `{floatlib} `{urlenv}.
Lemma new_single size d : single (y_sys (wsys_new size d)).
Proof. split; constructor. Qed.
Lemma carried_few tmax checks sched y0 n : length (carried_all tmax checks sched y0 n) <= n.
Proof. induction n as [|n IH]; [auto|]. cbn [carried_all]. rewrite app_length. destruct (carried (sched n) _); cbn [length]; lia. Qed.
Lemma carried_sys tmax checks sched y0 n : exists ls, length ls <= n /\ y_sys (wat tmax checks sched n y0) = fst (prun tmax checks ls (y_sys y0)).
Proof. exists (carried_all tmax checks sched y0 n). split; [apply carried_few | apply at_sys]. Qed.
(** Calls come into being only when they are made. *)
Lemma calls_made tmax checks sched y0 n : (forall a p r, sched n <> WCall a p r) -> length (s_calls (y_sys (wat tmax checks sched (S n) y0))) = length (s_calls (y_sys (wat tmax checks sched n y0))).
Proof.
  intros N. cbn [wat]. rewrite wstep_sys. destruct (carried (sched n) _) as [l|] eqn:C; [|reflexivity]. destruct (next_queue tmax checks l (y_sys (wat tmax checks sched n y0))) as [(a & p & r & -> & _)|(L & _)]; [|exact L].
  exfalso. revert C. destruct (sched n) as [a' p' r'|now f| |j w|j|j|j|]; cbn [carried]; try discriminate.
  - destruct (N a' p' r' eq_refl).
  - destruct (y_pool _); try discriminate; destruct (s_pool _); try discriminate; destruct (s_queue _); discriminate.
  - destruct (y_due _ j); discriminate.
Qed.
End Start.
