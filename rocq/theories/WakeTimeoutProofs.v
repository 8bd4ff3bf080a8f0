(** * With timers that wake, no wake-up is lost, and a call that is polled only when woken ends whatever becomes of connecting. *)
From Verif Require Import Base Serde Procedure Router SerRequest DeHeader DeResponse DepUrl Error Client ClientSpec Pool PoolSystem PoolSystemSpec PoolSystemProofs PoolSystemInv PoolFairSpec PoolFair.
From Verif Require Import Wake WakeSpec WakeProofs Timeout TimeoutSpec TimeoutProofs TimeoutFair WakeTimeout WakeTimeoutSpec.
Local Open Scope nat_scope.

Section Proofs.
Context `{floatlib} `{urlenv}.
Variables (tmax : Z) (checks : bool) (wait : Z).

(** ** Looking at a timer changes nothing the executor sees *)
Lemma look_rest i due now s : s_pool (look i due now s) = s_pool s /\ s_queue (look i due now s) = s_queue s /\ length (s_calls (look i due now s)) = length (s_calls s).
Proof.
  unfold look. destruct (nth_error (s_calls s) i) as [pc|]; [|auto]. destruct (c_state pc) as [[[| |f]|]| | | | |]; auto.
  unfold put_state. cbn [s_pool s_queue s_calls]. rewrite set_length. auto.
Qed.
Lemma look_like i due now s j : match state_of j s, state_of j (look i due now s) with Some a, Some b => like_state a b | None, None => True | _, _ => False end.
Proof.
  rewrite look_state. destruct (Nat.eqb i j); destruct (state_of j s) as [x|]; cbn [option_map]; try exact I; try apply like_refl. destruct x as [[[| |f]|]| | | | |]; try apply like_refl; exact I.
Qed.
Lemma zlook_rest now l z : let y := z_wake z in let y0 := zlook now l z in
  y_pool y0 = y_pool y /\ y_due y0 = y_due y /\ y_reg y0 = y_reg y /\ s_pool (y_sys y0) = s_pool (y_sys y) /\ s_queue (y_sys y0) = s_queue (y_sys y) /\ length (s_calls (y_sys y0)) = length (s_calls (y_sys y)).
Proof.
  cbv zeta. unfold zlook. destruct l as [| | |i w| | | |]; try (do 5 (split; [reflexivity|]); reflexivity).
  destruct (y_due (z_wake z) i); [|do 5 (split; [reflexivity|]); reflexivity]. cbn [y_pool y_due y_reg y_sys]. do 3 (split; [reflexivity|]). apply look_rest.
Qed.
Lemma zlook_like now l z j : match state_of j (y_sys (z_wake z)), state_of j (y_sys (zlook now l z)) with Some a, Some b => like_state a b | None, None => True | _, _ => False end.
Proof.
  assert (R : match state_of j (y_sys (z_wake z)), state_of j (y_sys (z_wake z)) with Some a, Some b => like_state a b | None, None => True | _, _ => False end) by (destruct (state_of j (y_sys (z_wake z))); [apply like_refl | exact I]).
  unfold zlook. destruct l as [| | |i w| | | |]; try exact R. destruct (y_due (z_wake z) i); [|exact R]. apply look_like.
Qed.
Lemma zlook_carried now l z : carried l (zlook now l z) = carried l (z_wake z).
Proof. unfold zlook. destruct l as [| | |i w| | | |]; try reflexivity. cbn [carried]. destruct (y_due (z_wake z) i) eqn:D; cbn [y_due]; rewrite D; reflexivity. Qed.

Lemma like_waiting x : like_state (Acquiring None) x -> x = Acquiring None.
Proof. intros L. symmetry. exact L. Qed.
Lemma like_sym x y : like_state x y -> like_state y x.
Proof. unfold like_state. destruct x as [[[| |f]|]| | | | |]; intros L; try (subst y; reflexivity). destruct y as [[[| |g]|]| | | | |]; try discriminate L. exact I. Qed.
Lemma zlook_single now l z : single (y_sys (z_wake z)) -> single (y_sys (zlook now l z)).
Proof. destruct (zlook_rest now l z) as (_ & _ & _ & _ & Q & L). unfold single. rewrite Q, L. exact (fun x => x). Qed.
Lemma zlook_wakeful now l z : wakeful (z_wake z) -> wakeful (zlook now l z).
Proof.
  intros [A W]. destruct (zlook_rest now l z) as (P & D & R & _ & Q & _). unfold wakeful. rewrite P, D, R, Q. split; [exact A|].
  intros i x E O. pose proof (zlook_like now l z i) as L. rewrite E in L. destruct (state_of i (y_sys (z_wake z))) as [y|] eqn:Ey; [|destruct L].
  destruct (W i y Ey) as [X|[X|(X & -> & Pn)]]; [intros Oy; apply O, (over_like y x L), Oy | left; exact X | right; left; exact X|].
  right. right. split; [exact X|]. split; [exact (like_waiting x L) | rewrite Q; exact Pn].
Qed.
Lemma zwakeful_step now l z : single (y_sys (z_wake z)) -> wakeful (z_wake z) -> wakeful (z_wake (zstep tmax checks wait now l z)).
Proof.
  intros Sg W. destruct l as [l|i]; cbn [zstep].
  - cbn [z_wake]. apply wakeful_step; [apply zlook_single, Sg | apply zlook_wakeful, W].
  - destruct (nth_error (s_calls (y_sys (z_wake z))) i) as [pc|]; [|exact W]. destruct (c_state pc) as [[[| |f]|]| | | | |]; try exact W. destruct (y_reg (z_wake z) i); try exact W. destruct (_ <=? _)%Z; [|exact W].
    cbn [z_wake]. destruct W as [A W]. split; [exact A|]. cbn [y_sys y_due y_reg]. intros j x E O. apply ready_woken. exact (W j x E O).
Qed.

(** ** Endless runs *)
Variables (sched : nat -> Z * zlabel) (z0 : zsys).
Notation zs n := (zat tmax checks wait sched n z0).
Notation at_ n := (z_wake (zat tmax checks wait sched n z0)).
Hypothesis start_single : single (y_sys (z_wake z0)).
Hypothesis start_tidy : tidy (y_sys (z_wake z0)).
Hypothesis start_none : s_calls (y_sys (z_wake z0)) = [].
Hypothesis start_awake : y_pool (z_wake z0) = PDue.

(** The run of Timeout.v that a run goes through; a step that carries nothing out drops a call that there is not. *)
Definition idle (n : nat) : plabel := LDrop (length (s_calls (y_sys (at_ n)))).
Definition tsched (n : nat) : Z * plabel :=
  (fst (sched n), match snd (sched n) with ZStep l => match carried l (at_ n) with Some p => p | None => idle n end | ZTimer _ => idle n end).
Definition t0 : tsys := mkTsys (y_sys (z_wake z0)) (z_due z0).
Notation tat n := (upto tmax checks wait tsched t0 n).

Lemma idle_next n : pnext tmax checks (idle n) (y_sys (at_ n)) = y_sys (at_ n).
Proof. unfold pnext, idle. cbn [pstep]. rewrite (proj2 (nth_error_None _ _)); [reflexivity | lia]. Qed.
Lemma not_received i s : received i s s = false.
Proof. rewrite received_state. destruct (state_of i s) as [[[|]| | | | |]|]; reflexivity. Qed.
Theorem goes_through n : t_sys (tat n) = y_sys (at_ n) /\ forall i, t_due (tat n) i = z_due (zs n) i.
Proof.
  induction n as [|n [S D]]; [split; reflexivity|]. rewrite upto_S.
  assert (Idle : forall x, x = (fst (sched n), idle n) -> t_sys (tnext tmax checks wait x (tat n)) = y_sys (at_ n) /\ forall i, t_due (tnext tmax checks wait x (tat n)) i = z_due (zs n) i).
  { intros x ->. assert (E : t_sys (tnext tmax checks wait (fst (sched n), idle n) (tat n)) = y_sys (at_ n)) by (rewrite tnext_sys; unfold before; cbn [fst snd]; unfold idle at 1 2; rewrite S; apply idle_next).
    split; [exact E|]. intros i. rewrite tnext_due, E. unfold before. cbn [fst snd]. unfold idle. rewrite S, not_received. apply D. }
  cbn [zat]. unfold tsched at 1 3. destruct (snd (sched n)) as [l|j] eqn:El.
  - cbn [zstep z_wake z_due]. rewrite wstep_sys, zlook_carried. destruct (carried l (at_ n)) as [p|] eqn:C.
    + assert (B : before (fst (sched n), p) (tat n) = y_sys (zlook (fst (sched n)) l (zs n))).
      { unfold before. cbn [fst snd]. unfold zlook. destruct l as [a q r|now f| |k w|k|k|k|]; cbn [carried] in C; try discriminate C; try (injection C as <-; exact S).
        - destruct (y_pool (at_ n)), (s_pool (y_sys (at_ n))); try discriminate C; destruct (s_queue (y_sys (at_ n))); try discriminate C; injection C as <-; exact S.
        - destruct (y_due (at_ n) k); [|discriminate C]. injection C as <-. cbn [y_sys]. rewrite S, D. reflexivity. }
      split; [rewrite tnext_sys, B; reflexivity|]. intros i. rewrite tnext_due, tnext_sys, B, D. reflexivity.
    + destruct (Idle _ eq_refl) as [E F]. assert (Y : y_sys (zlook (fst (sched n)) l (zs n)) = y_sys (at_ n)).
      { unfold zlook. destruct l as [| | |k w| | | |]; try reflexivity. cbn [carried] in C. destruct (y_due (at_ n) k); [discriminate C | reflexivity]. }
      rewrite Y. split; [exact E|]. intros i. rewrite not_received. apply F.
  - destruct (Idle _ eq_refl) as [E F]. cbn [zstep]. destruct (nth_error (s_calls (y_sys (at_ n))) j) as [pc|]; [|split; [exact E | exact F]].
    destruct (c_state pc) as [[[| |f]|]| | | | |]; try (split; [exact E | exact F]). destruct (y_reg (at_ n) j); try (split; [exact E | exact F]). destruct (_ <=? _)%Z; split; [exact E | exact F | exact E | exact F].
Qed.
Lemma then_at n : then_ tmax checks wait tsched n t0 = y_sys (at_ n).
Proof. exact (proj1 (goes_through n)). Qed.
Lemma due_at n i : t_due (tat n) i = z_due (zs n) i.
Proof. exact (proj2 (goes_through n) i). Qed.

Lemma zsingle n : single (y_sys (at_ n)).
Proof.
  induction n as [|n IH]; [exact start_single|]. cbn [zat]. destruct (snd (sched n)) as [l|j]; cbn [zstep].
  - cbn [z_wake]. rewrite wstep_sys. destruct (carried l _); [apply single_next|]; apply zlook_single, IH.
  - destruct (nth_error (s_calls (y_sys (at_ n))) j) as [pc|]; [|exact IH]. destruct (c_state pc) as [[[| |f]|]| | | | |]; try exact IH. destruct (y_reg (at_ n) j); try exact IH. destruct (_ <=? _)%Z; exact IH.
Qed.
Theorem zwakeful n : wakeful (at_ n).
Proof.
  induction n as [|n IH]; [|apply zwakeful_step; [apply zsingle | exact IH]]. split; [cbn [zat]; rewrite start_awake; discriminate|].
  intros i x E. cbn [zat] in E. unfold state_of in E. rewrite start_none, nth_nil in E. discriminate.
Qed.
Lemma ztidy n : tidy (y_sys (at_ n)).
Proof. rewrite <- then_at. apply upto_tidy. exact start_tidy. Qed.

Theorem zno_lost_wakeup n i : alive i (at_ n) -> will_be_woken i (at_ n).
Proof.
  intros [N O]. destruct (state_of i (y_sys (at_ n))) as [x|] eqn:E; [|congruence]. destruct (zwakeful n) as [A W].
  destruct (W i x E O) as [R|[R|(R & -> & P)]]; [left; exact R | right; left; exact R|]. right. right. split; [exact R|]. split; [exact E|].
  assert (I : exists a, In (AcquireConnection a i) (s_queue (y_sys (at_ n)))).
  { unfold pending in P. apply existsb_exists in P. destruct P as (c & I & Q). destruct c as [a j| |]; try discriminate. apply Nat.eqb_eq in Q. subst j. eauto. }
  split; [exact I|]. destruct I as [a I]. split; intros Z; [apply ztidy in Z | apply A in Z]; rewrite Z in I; destruct I.
Qed.

(** ** The end of a call *)
Variable i : nat.
Hypothesis clock : steady sched.
Hypothesis executor : polls_when_woken tmax checks wait sched z0 i.
Hypothesis pool_on : pool_goes_on tmax checks wait sched z0.
Hypothesis answered : answers_once_connected sched i.
Hypothesis network : wakes_once_connected tmax checks wait sched z0 i.
Hypothesis timers : timer_runs_out tmax checks wait sched z0 i.
Notation now n := (fst (sched n)).
Notation st n := (state_of i (y_sys (at_ n))).
Notation pl n := (place i (s_queue (y_sys (at_ n)))).

Lemma later n : forall d, (now n <= now (d + n))%Z.
Proof. induction d as [|d IH]; [apply Z.le_refl|]. eapply Z.le_trans; [exact IH | apply clock]. Qed.
Lemma town : own_answered i tsched.
Proof.
  intros n w. unfold tsched. cbn [snd]. destruct (snd (sched n)) as [l|j] eqn:El; [|discriminate]. destruct (carried l (at_ n)) as [p|] eqn:C; [|discriminate]. intros ->.
  destruct l as [a q r|t f| |k w'|k|k|k|]; cbn [carried] in C; try discriminate C.
  - destruct (y_pool (at_ n)), (s_pool (y_sys (at_ n))); try discriminate C; destruct (s_queue (y_sys (at_ n))); discriminate C.
  - destruct (y_due (at_ n) k); [|discriminate C]. injection C as -> ->. exact (answered n w El).
Qed.
Lemma ztends n x : st n = Some x -> tends x.
Proof. pose proof (upto_tends tmax checks wait tsched t0 start_tidy start_none i town n) as T. rewrite then_at in T. intros E. rewrite E in T. exact T. Qed.
Lemma zonce n x : st n = Some x -> ~ over (Some x) ->
  tbetter i x (y_sys (at_ n)) (y_sys (at_ (S n))) \/ tsame i x (y_sys (at_ n)) (y_sys (at_ (S n))) /\ ~ moves i x (pl n) (z_due (zs n) i) (tsched n).
Proof.
  intros E O. pose proof (once_more tmax checks wait tsched t0 start_tidy i town n x) as Q. rewrite !then_at, due_at in Q. exact (Q E (ztends n x E) O).
Qed.
Lemma zdue_stays n : y_due (at_ n) i = true -> y_due (at_ (S n)) i = true \/ exists w, tsched n = (now n, LPoll i w) /\ snd (sched n) = ZStep (WPoll i w).
Proof.
  intros D. unfold tsched. cbn [zat]. destruct (snd (sched n)) as [l|j]; cbn [zstep].
  - cbn [z_wake]. destruct (zlook_rest (now n) l (zs n)) as (_ & Du & _). rewrite <- Du in D.
    destruct (WakeProofs.due_stays tmax checks (fun _ => l) (zlook (now n) l (zs n)) i 0 D) as [Q|(w & Q)]; [left; exact Q|]. right. exists w. cbn [wat] in Q. rewrite zlook_carried in Q. rewrite Q. split; [reflexivity|].
    destruct l as [a q r|t f| |k w'|k|k|k|]; cbn [carried] in Q; try discriminate Q.
    + destruct (y_pool (at_ n)), (s_pool (y_sys (at_ n))); try discriminate Q; destruct (s_queue (y_sys (at_ n))); discriminate Q.
    + destruct (y_due (at_ n) k); [|discriminate Q]. injection Q as -> ->. reflexivity.
  - left. destruct (nth_error (s_calls (y_sys (at_ n))) j) as [pc|]; [|exact D]. destruct (c_state pc) as [[[| |f]|]| | | | |]; try exact D. destruct (y_reg (at_ n) j); try exact D. destruct (_ <=? _)%Z; [|exact D].
    cbn [z_wake y_due]. unfold upd. destruct (Nat.eqb j i); [reflexivity | exact D].
Qed.
Lemma polled_now n w : snd (sched n) = ZStep (WPoll i w) -> y_due (at_ n) i = true -> tsched n = (now n, LPoll i w).
Proof. intros E D. unfold tsched. rewrite E. cbn [carried]. rewrite D. reflexivity. Qed.

(** [y] at [m] is still what [x] was at [n], but for a connection being opened. *)
Definition still (n : nat) (x : cstate) (m : nat) (y : cstate) : Prop :=
  st m = Some y /\ like_state x y /\ tleft y (pl m) = tleft x (pl n) /\ match x with Acquiring (Some (PConnect _)) => z_due (zs m) i = z_due (zs n) i | _ => True end.
Definition gets_on (n : nat) (x : cstate) : Prop := exists k y, n <= k /\ still n x k y /\ tbetter i y (y_sys (at_ k)) (y_sys (at_ (S k))).
Lemma still_refl n x : st n = Some x -> still n x n x.
Proof. intros E. split; [exact E|]. split; [apply like_refl|]. split; [reflexivity|]. destruct x as [[[| |f]|]| | | | |]; reflexivity || exact I. Qed.
Lemma still_trans n x m y k w : still n x m y -> still m y k w -> still n x k w.
Proof.
  intros (_ & L1 & T1 & D1) (E & L2 & T2 & D2). split; [exact E|]. split; [exact (like_trans x y w L1 L2)|]. split; [congruence|].
  destruct x as [[[| |f]|]| | | | |]; try exact I. destruct y as [[[| |g]|]| | | | |]; try discriminate L1. congruence.
Qed.
Lemma gets_on_from n x m y : n <= m -> still n x m y -> gets_on m y -> gets_on n x.
Proof. intros L Q (k & w & Lk & R & B). exists k, w. split; [lia|]. split; [exact (still_trans _ _ _ _ _ _ Q R) | exact B]. Qed.
Lemma still_step n x : st n = Some x -> ~ over (Some x) ->
  gets_on n x \/ (exists y, still n x (S n) y /\ ~ over (Some y)) /\ ~ moves i x (pl n) (z_due (zs n) i) (tsched n).
Proof.
  intros E O. destruct (zonce n x E O) as [B|[(y & Ey & L & T) M]]; [left; exists n, x; split; [lia|]; split; [apply still_refl, E | exact B]|].
  right. split; [|exact M]. exists y. split; [|intros Oy; apply O, (over_like x y L), Oy]. split; [exact Ey|]. split; [exact L|]. split; [exact T|].
  pose proof (TimeoutFair.due_stays tmax checks wait tsched t0 i n x y) as Q. rewrite !then_at, !due_at in Q. exact (Q E Ey).
Qed.
Lemma still_on n x : st n = Some x -> ~ over (Some x) -> forall d, gets_on n x \/ exists y, still n x (d + n) y /\ ~ over (Some y).
Proof.
  intros E O d. induction d as [|d [B|(y & Q & Oy)]]; [right; exists x; split; [apply still_refl, E | exact O] | left; exact B|].
  destruct (still_step (d + n) y (proj1 Q) Oy) as [B|((w & R & Ow) & _)]; [left; exact (gets_on_from n x (d + n) y ltac:(lia) Q B)|]. right. exists w. split; [exact (still_trans _ _ _ _ _ _ Q R) | exact Ow].
Qed.
Lemma alive_at n x : st n = Some x -> ~ over (Some x) -> alive i (at_ n).
Proof. intros E O. unfold alive. rewrite E. split; [discriminate | exact O]. Qed.

(** A marked call is polled: at a step [m], until which it stays as it is. *)
Lemma marked n x : st n = Some x -> ~ over (Some x) -> y_due (at_ n) i = true ->
  gets_on n x \/ exists m y w, n <= m /\ still n x m y /\ ~ over (Some y) /\ tsched m = (now m, LPoll i w) /\ snd (sched m) = ZStep (WPoll i w) /\ y_due (at_ m) i = true.
Proof.
  intros E O D. destruct (executor n (alive_at n x E O) D) as (m & L & Q). remember (m - n) as d eqn:Ed. revert n x E O D L Ed. induction d as [|d IH]; intros n x E O D L Ed.
  - assert (m = n) by lia. subst m. destruct Q as [Q|(w & Q)]; [destruct (Q (alive_at n x E O))|]. right. exists n, x, w. split; [lia|]. split; [apply still_refl, E|]. split; [exact O|]. split; [exact (polled_now n w Q D)|]. split; [exact Q | exact D].
  - destruct (still_step n x E O) as [B|((y & R & Oy) & _)]; [left; exact B|]. destruct (zdue_stays n D) as [D'|(w & T & P)].
    + destruct (IH (S n) y (proj1 R) Oy D') as [B|(k & v & w & Lk & R' & Ov & P)]; [lia | lia | left; exact (gets_on_from n x (S n) y ltac:(lia) R B)|].
      right. exists k, v, w. split; [lia|]. split; [exact (still_trans _ _ _ _ _ _ R R')|]. split; [exact Ov | exact P].
    + right. exists n, x, w. split; [lia|]. split; [apply still_refl, E|]. split; [exact O|]. split; [exact T|]. split; [exact P | exact D].
Qed.
(** If polling it is what moves it on, it gets on. *)
Lemma marked_on n x : st n = Some x -> ~ over (Some x) -> y_due (at_ n) i = true -> (forall m w, n <= m -> moves i x (pl n) (z_due (zs n) i) (now m, LPoll i w)) -> gets_on n x.
Proof.
  intros E O D M. destruct (marked n x E O D) as [B|(m & y & w & L & Q & Oy & T & _)]; [exact B|]. destruct (still_step m y (proj1 Q) Oy) as [B|(_ & N)]; [exact (gets_on_from n x m y L Q B)|].
  exfalso. apply N. rewrite T. destruct Q as (_ & Lk & Tl & Du). exact (moves_same i x _ _ y _ _ _ Lk Tl Du (M m w L)).
Qed.

(** ** Connecting *)
Lemma registered n w x : snd (sched n) = ZStep (WPoll i w) -> y_due (at_ n) i = true -> st (S n) = Some x -> connecting (Some x) -> y_reg (at_ (S n)) i = WithNetwork.
Proof.
  intros E D. cbn [zat]. rewrite E. cbn [zstep z_wake]. unfold zlook. rewrite D. cbn [wstep y_due y_sys]. rewrite D.
  set (s := look i (z_due (zs n) i) (now n) (y_sys (at_ n))). destruct (nth_error (s_calls s) i) as [pc|] eqn:Nx; [|intros Sx; cbn [y_sys] in Sx; unfold state_of in Sx; rewrite Nx in Sx; discriminate Sx].
  destruct (wpooled i w pc s) as [[[s' t] g]|] eqn:W.
  - intros Sx C. cbn [react y_sys] in Sx. cbn [react y_reg]. rewrite upd_same. pose proof (wpooled_noted _ _ _ _ _ _ _ W) as Q. unfold noted in Q. rewrite Sx in Q.
    destruct x as [[[| |f]|]| | | | |]; try destruct C. destruct Q as [[]|[Q|(_ & Q & _)]]; [exact Q | discriminate Q].
  - intros Sx C. cbn [y_sys] in Sx. unfold state_of in Sx. rewrite Nx in Sx. injection Sx as <-. exfalso. revert W C. unfold wpooled. destruct (c_state pc) as [b|c k| | | |]; try (intros _ []).
    destruct (wacquire i b s) as [[c []|e v|b'] g]; try discriminate; destruct (wpoll w (c_proc pc) 5 _) as [[t1 g1] o]; [destruct (inner_result i pc c (t1, o) _)|]; discriminate.
Qed.
Lemma like_connecting x y : like_state x y -> connecting (Some x) -> connecting (Some y).
Proof. unfold like_state. destruct x as [[[| |f]|]| | | | |]; intros L []. destruct y as [[[| |g]|]| | | | |]; try discriminate L. exact I. Qed.
(** A call that is connecting, and is noted, gets on: its timer has it polled when its time is over. *)
Lemma timed n x : st n = Some x -> connecting (Some x) -> y_reg (at_ n) i = WithNetwork -> gets_on n x.
Proof.
  intros E C R. assert (O : ~ over (Some x)) by (destruct x as [[|]| | | | |]; try destruct C; exact (fun z => z)).
  assert (C0 : connecting (st n)) by (rewrite E; exact C). destruct (timers n C0 R) as (m & L & Q). replace m with ((m - n) + n) in Q by lia. set (k := m - n + n) in *.
  destruct (still_on n x E O (m - n)) as [B|(y & Sy & Oy)]; [exact B|]. fold k in Sy. assert (Ek := proj1 Sy). assert (Ck : connecting (Some y)) by (exact (like_connecting x y (proj1 (proj2 Sy)) C)).
  destruct Q as [Q|[Q Du]]; [rewrite Ek in Q; destruct (Q Ck)|].
  assert (Mark : y_due (at_ (S k)) i = true /\ y_sys (at_ (S k)) = y_sys (at_ k) /\ z_due (zs (S k)) i = z_due (zs k) i).
  { destruct (zwakeful k) as [_ W]. cbn [zat]. rewrite Q. cbn [zstep]. destruct (nth_error (s_calls (y_sys (at_ k))) i) as [pc|] eqn:Nx; [|unfold state_of in Ek; rewrite Nx in Ek; discriminate Ek].
    assert (Ec : c_state pc = y) by (unfold state_of in Ek; rewrite Nx in Ek; injection Ek as Ek; exact Ek). rewrite Ec. destruct y as [[[| |f]|]| | | | |]; try destruct Ck.
    apply Z.leb_le in Du. rewrite Du. destruct (W i _ Ek Oy) as [X|[X|(_ & X & _)]]; [|rewrite X; cbn [z_wake y_due y_sys z_due]; rewrite upd_same; auto | discriminate X].
    destruct (y_reg (at_ k) i); [auto | auto | cbn [z_wake y_due y_sys z_due]; rewrite upd_same; auto]. }
  destruct Mark as (D & Es & Ed). assert (Sy1 : still k y (S k) y) by (split; [rewrite Es; exact Ek|]; split; [apply like_refl|]; split; [rewrite Es; reflexivity|]; destruct y as [[[| |f]|]| | | | |]; try exact I; exact Ed).
  assert (B : gets_on (S k) y).
  { apply marked_on; [exact (proj1 Sy1) | exact Oy | exact D|]. intros p w Lp. unfold moves. destruct y as [[[| |f]|]| | | | |]; try destruct Ck. cbn [fst snd poll_of]. split; [reflexivity|].
    rewrite Ed. eapply Z.le_trans; [exact Du|]. replace p with ((p - k) + k) by lia. apply later. }
  apply (gets_on_from n x k y); [lia | exact Sy|]. exact (gets_on_from k y (S k) y ltac:(lia) Sy1 B).
Qed.

Lemma zprogress n x : st n = Some x -> ~ over (Some x) -> gets_on n x.
Proof.
  intros E O. destruct (zwakeful n) as [_ W]. pose proof (W i x E O) as R. clear W.
  assert (C : (x = Acquiring None /\ pl n <> 0) \/ connecting (Some x) \/ ~ connecting (Some x) /\ forall m w, moves i x (pl n) (z_due (zs n) i) (now m, LPoll i w)).
  { destruct x as [[[| |f]|]| | | | |]; try (right; right; split; [exact (fun z => z) | intros m w; reflexivity]); [right; left; exact I|]. unfold moves. destruct (pl n); [right; right; split; [exact (fun z => z) | intros m w; reflexivity] | left; auto]. }
  destruct C as [(-> & Pl)|[C|(NC & M)]].
  - assert (Nq : forall m, pl m <> 0 -> s_pool (y_sys (at_ m)) <> None /\ y_pool (at_ m) <> PAsleep /\ s_queue (y_sys (at_ m)) <> []).
    { intros m Q. assert (Ne : s_queue (y_sys (at_ m)) <> []) by (intros Z; rewrite Z in Q; exact (Q eq_refl)). split; [intros Z; exact (Ne (ztidy m Z))|]. split; [|exact Ne]. intros Z. exact (Ne (proj1 (zwakeful m) Z)). }
    destruct (Nq n Pl) as (P1 & P2 & _). destruct (pool_on n P1 P2) as (m & L & Q). replace m with ((m - n) + n) in Q by lia. set (k := m - n + n) in *.
    destruct (still_on n _ E O (m - n)) as [B|(y & Sy & Oy)]; [exact B|]. fold k in Sy. assert (y = Acquiring None) by (exact (like_waiting y (proj1 (proj2 Sy)))). subst y. assert (Lk : pl k = pl n) by (destruct Sy as (_ & _ & T & _); cbn [tleft left] in T; injection T as T; exact T).
    destruct (Nq k) as (R1 & R2 & R3); [rewrite Lk; exact Pl|]. destruct Q as [Q|(t & f & Q)]; [destruct (R1 Q)|].
    destruct (still_step k _ (proj1 Sy) Oy) as [B|(_ & N)]; [exact (gets_on_from n _ k _ ltac:(lia) Sy B)|]. exfalso. apply N. unfold moves. rewrite Lk. destruct (pl n); [congruence|].
    unfold tsched. rewrite Q. cbn [snd carried]. destruct (y_pool (at_ k)), (s_pool (y_sys (at_ k))), (s_queue (y_sys (at_ k))); try congruence; exact I.
  - destruct R as [D|[R|(_ & -> & _)]]; [| exact (timed n x E C R) | destruct C].
    destruct (marked n x E O D) as [B|(m & y & w & L & Sy & Oy & T & P & Dm)]; [exact B|]. destruct (still_step m y (proj1 Sy) Oy) as [B|((v & Sv & Ov) & _)]; [exact (gets_on_from n x m y L Sy B)|].
    assert (Cv : connecting (Some v)) by (apply (like_connecting y v (proj1 (proj2 Sv))), (like_connecting x y (proj1 (proj2 Sy))), C).
    apply (gets_on_from n x m y L Sy), (gets_on_from m y (S m) v ltac:(lia) Sv). apply timed; [exact (proj1 Sv) | exact Cv | exact (registered m w v P Dm (proj1 Sv) Cv)].
  - destruct R as [D|[R|(_ & -> & Pn)]].
    + apply marked_on; [exact E | exact O | exact D | intros m w _; apply M].
    + assert (NC' : ~ connecting (st n)) by (rewrite E; exact NC). destruct (network n (alive_at n x E O) NC' R) as (m & L & Q). replace m with ((m - n) + n) in Q by lia. set (k := m - n + n) in *.
      destruct (still_on n x E O (m - n)) as [B|(y & Sy & Oy)]; [exact B|]. fold k in Sy. destruct Q as [Q|Q]; [destruct (Q (alive_at k y (proj1 Sy) Oy))|].
      assert (Ny : ~ connecting (Some y)) by (intros X; exact (NC (like_connecting y x (like_sym x y (proj1 (proj2 Sy))) X))).
      assert (My : forall p w, moves i y (pl k) (z_due (zs k) i) (now p, LPoll i w)) by (intros p w; destruct Sy as (_ & Lk & Tl & Du); exact (moves_same i x _ _ y _ _ _ Lk Tl Du (M p w))).
      assert (Mark : y_due (at_ (S k)) i = true /\ y_sys (at_ (S k)) = y_sys (at_ k) /\ z_due (zs (S k)) i = z_due (zs k) i).
      { destruct (zwakeful k) as [_ W]. cbn [zat]. rewrite Q. cbn [zstep z_wake z_due]. unfold zlook. cbn [wstep].
        destruct (W i y (proj1 Sy) Oy) as [X|[X|(_ & -> & X)]].
        - destruct (y_reg (at_ k) i); cbn [y_sys y_due]; rewrite ?upd_same, ?not_received; auto.
        - rewrite X. cbn [y_sys y_due]. rewrite upd_same, not_received. auto.
        - exfalso. specialize (My k no_wire). unfold moves in My. rewrite place_pending in X. destruct (pl k); [discriminate X | exact My]. }
      destruct Mark as (D & Es & Ed). assert (Sy1 : still k y (S k) y) by (split; [rewrite Es; exact (proj1 Sy)|]; split; [apply like_refl|]; split; [rewrite Es; reflexivity|]; destruct y as [[[| |f]|]| | | | |]; try exact I; exact Ed).
      apply (gets_on_from n x k y ltac:(lia) Sy), (gets_on_from k y (S k) y ltac:(lia) Sy1). apply marked_on; [exact (proj1 Sy1) | exact Oy | exact D|]. intros p w _. rewrite Es, Ed. apply My.
    + exfalso. specialize (M n no_wire). unfold moves in M. rewrite place_pending in Pn. destruct (pl n); [discriminate Pn | exact M].
Qed.

Lemma zends_from m : forall n x, st n = Some x -> ~ over (Some x) -> tleft x (pl n) = m -> exists n', n <= n' /\ over (st n').
Proof.
  induction (lt2_wf m) as [m _ IH]. intros n x E O Em. destruct (zprogress n x E O) as (k & y & L & (Ek & _ & Tk & _) & B). destruct B as [B|(v & Sv & _ & Lv)]; [exists (S k); split; [lia | exact B]|].
  destruct (over_dec v) as [Ov|Ov]; [exists (S k); rewrite Sv; split; [lia | exact Ov]|]. rewrite Tk, Em in Lv. destruct (IH _ Lv (S k) v Sv Ov eq_refl) as (n' & L' & Q). exists n'. split; [lia | exact Q].
Qed.
Theorem zends n : st n <> None -> exists n', n <= n' /\ forall m, n' <= m -> over (st m).
Proof.
  intros N. destruct (st n) as [x|] eqn:Sx; [|congruence].
  assert (Q : exists n', n <= n' /\ over (st n')) by (destruct (over_dec x) as [O|O]; [exists n; rewrite Sx; auto | exact (zends_from _ n x Sx O eq_refl)]).
  destruct Q as (n' & L & O). exists n'. split; [exact L|]. intros m Lm. replace m with ((m - n') + n') by lia.
  pose proof (over_then tmax checks wait tsched t0 i n' (m - n')) as Q. rewrite !then_at in Q. exact (Q O).
Qed.
End Proofs.

Section Start.
Context `{floatlib} `{urlenv}.
Variables (tmax : Z) (checks : bool) (wait : Z) (sched : nat -> Z * zlabel) (size : N) (d : Z).
Notation z0 := (zsys_new size d).
Lemma through n : exists ls, length ls = n /\ y_sys (z_wake (zat tmax checks wait sched n z0)) = t_sys (fst (trun tmax checks wait ls (tsys_new size d))).
Proof.
  exists (map (tsched tmax checks wait sched z0) (seq 0 n)). rewrite map_length, seq_length. split; [reflexivity|]. symmetry. exact (proj1 (goes_through tmax checks wait sched z0 n)).
Qed.
Lemma none_lost n i : let y := z_wake (zat tmax checks wait sched n z0) in alive i y -> will_be_woken i y.
Proof. apply zno_lost_wakeup; [apply new_single | discriminate | reflexivity | reflexivity]. Qed.
Lemma woken_end i n : steady sched -> polls_when_woken tmax checks wait sched z0 i -> pool_goes_on tmax checks wait sched z0 ->
  answers_once_connected sched i -> wakes_once_connected tmax checks wait sched z0 i -> timer_runs_out tmax checks wait sched z0 i ->
  state_of i (y_sys (z_wake (zat tmax checks wait sched n z0))) <> None ->
  exists n', n <= n' /\ forall m, n' <= m -> over (state_of i (y_sys (z_wake (zat tmax checks wait sched m z0)))).
Proof. intros. apply zends; try assumption; [apply new_single | discriminate | reflexivity | reflexivity]. Qed.
Lemma handed_at i n : connecting (state_of i (y_sys (z_wake (zat tmax checks wait sched n z0)))) ->
  exists m, m < n /\ state_of i (y_sys (z_wake (zat tmax checks wait sched m z0))) = Some (Acquiring None) /\ z_due (zat tmax checks wait sched n z0) i = (fst (sched m) + wait)%Z.
Proof.
  intros C. pose proof (then_at tmax checks wait sched z0) as T. pose proof (due_at tmax checks wait sched z0 n i) as D.
  destruct (timer tmax checks wait (tsched tmax checks wait sched z0) (t0 z0) eq_refl i n) as (m & (L & N & _) & Q); [rewrite T; exact C|]. rewrite T in N. exists m. split; [exact L|]. split; [exact N|]. rewrite <- D. exact Q.
Qed.
End Start.
