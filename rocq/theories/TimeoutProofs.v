(** * A run with timeouts is a run of PoolSystem.v in which connecting comes to what the timeouts make of it. *)
From Verif Require Import Base Serde Procedure Router SerRequest DeHeader DeResponse DepUrl Error Client ClientSpec Pool PoolSystem PoolSystemSpec PoolSystemProofs PoolSystemInv PoolFairSpec PoolFair Timeout TimeoutSpec.
Local Open Scope nat_scope.

(** ** Changing the states of calls *)
Fixpoint mapi {A B} (g : nat -> A -> B) (k : nat) (l : list A) : list B := match l with [] => [] | x :: r => g k x :: mapi g (S k) r end.
Lemma mapi_nth {A B} (g : nat -> A -> B) l : forall k i, nth_error (mapi g k l) i = option_map (g (k + i)) (nth_error l i).
Proof.
  induction l as [|x l IH]; intros k i; cbn [mapi]; [destruct i; reflexivity|]. destruct i as [|i]; cbn [nth_error option_map]; [rewrite Nat.add_0_r; reflexivity|]. rewrite IH, Nat.add_succ_r. reflexivity.
Qed.
Lemma mapi_length {A B} (g : nat -> A -> B) l : forall k, length (mapi g k l) = length l.
Proof. induction l as [|x l IH]; intros k; cbn [mapi length]; [reflexivity | rewrite IH; reflexivity]. Qed.
Lemma mapi_app {A B} (g : nat -> A -> B) a b : forall k, mapi g k (a ++ b) = mapi g k a ++ mapi g (k + length a) b.
Proof. induction a as [|x a IH]; intros k; cbn [app mapi length]; [rewrite Nat.add_0_r; reflexivity|]. rewrite IH, Nat.add_succ_r. reflexivity. Qed.
Lemma mapi_ext {A B} (g h : nat -> A -> B) l : forall k, (forall i x, nth_error l i = Some x -> g (k + i) x = h (k + i) x) -> mapi g k l = mapi h k l.
Proof.
  induction l as [|x l IH]; intros k E; cbn [mapi]; [reflexivity|]. f_equal; [specialize (E 0 x eq_refl); rewrite Nat.add_0_r in E; exact E|].
  apply IH. intros i y N. specialize (E (S i) y N). rewrite Nat.add_succ_r in E. exact E.
Qed.

Section View.
Context `{floatlib} `{urlenv}.
Definition with_state (x : cstate) (pc : pcall) : pcall := mkPcall (c_addr pc) (c_proc pc) (c_req pc) x.
Definition view (g : nat -> cstate -> cstate) (s : psys) : psys :=
  mkPsys (s_pool s) (s_queue s) (mapi (fun i pc => with_state (g i (c_state pc)) pc) 0 (s_calls s)) (s_opened s).
Definition settled (g : nat -> cstate -> cstate) : Prop := forall i x, match x with Acquiring (Some (PConnect f)) => exists f', g i x = Acquiring (Some (PConnect f')) | _ => g i x = x end.

Lemma view_nth g s i : nth_error (s_calls (view g s)) i = option_map (fun pc => with_state (g i (c_state pc)) pc) (nth_error (s_calls s) i).
Proof. exact (mapi_nth _ (s_calls s) 0 i). Qed.
Lemma view_ext g h s : (forall i x, state_of i s = Some x -> g i x = h i x) -> view g s = view h s.
Proof.
  intros E. unfold view. f_equal. apply mapi_ext. intros i pc N. cbn [Nat.add]. rewrite (E i (c_state pc)); [reflexivity|]. unfold state_of. rewrite N. reflexivity.
Qed.
Lemma set_mapi (g : nat -> cstate -> cstate) x l : forall i k, mapi (fun i pc => with_state (g i (c_state pc)) pc) k (set_state i x l) = set_state i (g (k + i) x) (mapi (fun i pc => with_state (g i (c_state pc)) pc) k l).
Proof.
  induction l as [|pc l IH]; intros i k; [destruct i; reflexivity|]. destruct i as [|i]; cbn [set_state mapi]; [rewrite Nat.add_0_r; reflexivity|]. rewrite IH, Nat.add_succ_r. reflexivity.
Qed.
Lemma view_put g i x s : view g (put_state i x s) = put_state i (g i x) (view g s).
Proof. unfold view, put_state. cbn [s_pool s_queue s_calls s_opened]. rewrite set_mapi. reflexivity. Qed.
Lemma view_send g c s : view g (send c s) = send c (view g s).
Proof. unfold send. cbn [view s_pool]. destruct (s_pool s) eqn:E; unfold view; cbn [s_pool s_queue s_calls s_opened]; rewrite ?E; reflexivity. Qed.
Lemma view_inner g i pc pc' c r s : settled g -> c_addr pc = c_addr pc' -> inner_result i pc' c r (view g s) = (view g (fst (inner_result i pc c r s)), snd (inner_result i pc c r s)).
Proof.
  intros G E. assert (P : forall x, match x with Acquiring _ => False | _ => True end -> view g (put_state i x s) = put_state i x (view g s)).
  { intros x N. rewrite view_put. specialize (G i x). destruct x as [[|]| | | | |]; try destruct N; rewrite G; reflexivity. }
  destruct r as [t [[k|v b c']| | |]]; cbn [inner_result fst snd]; rewrite ?view_send, P by exact I; rewrite ?E; reflexivity.
Qed.
Lemma mapi_but (G g : nat -> cstate -> cstate) l : forall k i pc, nth_error l i = Some pc -> (forall n x, n <> k + i -> G n x = g n x) ->
  mapi (fun i pc => with_state (G i (c_state pc)) pc) k l = set_state i (G (k + i) (c_state pc)) (mapi (fun i pc => with_state (g i (c_state pc)) pc) k l).
Proof.
  induction l as [|d l IH]; intros k [|i] pc N E; try discriminate; cbn [nth_error mapi set_state] in *.
  - injection N as ->. rewrite Nat.add_0_r in *. f_equal. apply mapi_ext. intros n x _. rewrite E by lia. reflexivity.
  - rewrite (IH (S k) i pc N) by (intros n x D; apply E; lia). rewrite <- Nat.add_succ_comm, (E k) by lia. reflexivity.
Qed.
Lemma view_but G g s i pc : nth_error (s_calls s) i = Some pc -> (forall n x, n <> i -> G n x = g n x) -> view G s = put_state i (G i (c_state pc)) (view g s).
Proof. intros N E. unfold view, put_state. cbn [s_pool s_queue s_calls s_opened]. rewrite (mapi_but G g _ 0 i pc N E). reflexivity. Qed.
Lemma put_id i x s pc : nth_error (s_calls s) i = Some pc -> c_state pc = x -> put_state i x s = s.
Proof.
  intros N E. destruct s as [p q cs o]. unfold put_state. cbn [s_pool s_queue s_calls s_opened] in *. f_equal. revert i N. induction cs as [|d cs IH]; intros [|i] N; try discriminate; cbn [set_state nth_error] in *.
  - injection N as ->. subst x. destruct pc; reflexivity.
  - rewrite IH by exact N. reflexivity.
Qed.
Lemma put_put i x y s : put_state i x (put_state i y s) = put_state i x s.
Proof.
  unfold put_state. cbn [s_pool s_queue s_calls s_opened]. f_equal. generalize (s_calls s). intros cs. revert i. induction cs as [|d cs IH]; intros [|i]; cbn [set_state]; try reflexivity. rewrite IH. reflexivity.
Qed.

Lemma inner_put i pc c r x s : inner_result i pc c r (put_state i x s) = inner_result i pc c r s.
Proof. destruct r as [t [[k|v b c']| | |]]; cbn [inner_result]; rewrite put_put; reflexivity. Qed.
Lemma inner_on i pc c r s a : state_of i (fst (inner_result i pc c r s)) <> Some (Acquiring a).
Proof.
  destruct r as [t [[k|v b c']| | |]]; cbn [inner_result fst]; rewrite ?state_send, state_put, Nat.eqb_refl; destruct (state_of i s); discriminate.
Qed.

(** ** What the timeouts make of connecting, given the rest of the schedule *)
Fixpoint fate_of (i : nat) (due : Z) (ls : list (Z * plabel)) (f : fut unit) : fut unit :=
  match ls with
  | [] => f
  | (now, LPoll j _) :: r =>
      if Nat.eqb j i then
        match timeout_poll due now f with
        | Later f' => Later (fate_of i due r f')
        | Never => Later (fate_of i due r Never)
        | g => g
        end
      else fate_of i due r f
  | _ :: r => fate_of i due r f
  end.
Definition foresee (ls : list (Z * plabel)) (due : nat -> Z) (i : nat) (x : cstate) : cstate :=
  match x with Acquiring (Some (PConnect f)) => Acquiring (Some (PConnect (fate_of i (due i) ls f))) | x => x end.
Lemma foresee_settled ls due : settled (foresee ls due).
Proof. intros i x. destruct x as [[[| |f]|]| | | | |]; try reflexivity. eexists. reflexivity. Qed.
Definition see (ls : list (Z * plabel)) (s : tsys) : psys := view (foresee ls (t_due s)) (t_sys s).

Variables (tmax : Z) (checks : bool) (wait : Z).
Definition relabel (now : Z) (l : plabel) (ls : list (Z * plabel)) (s : tsys) : plabel :=
  match l, s_queue (t_sys s) with
  | LPool c f, AcquireConnection _ i :: _ => LPool c (fate_of i (now + wait) ls f)
  | l, _ => l
  end.
Lemma relabel_like now l ls s : like_label l (relabel now l ls s).
Proof. unfold relabel. destruct l as [| | | |]; try reflexivity. destruct (s_queue (t_sys s)) as [|[| |] q]; reflexivity. Qed.

Lemma received_state i s s' : received i s s' = match state_of i s, state_of i s' with Some (Acquiring None), Some (Acquiring (Some _)) => true | _, _ => false end.
Proof. unfold received, state_of. destruct (nth_error (s_calls s) i) as [c|], (nth_error (s_calls s') i) as [c'|]; cbn [option_map]; try reflexivity; destruct (c_state c) as [[|]| | | | |]; reflexivity. Qed.

(** A step that hands out nothing. *)
Lemma see_same ls now due s0 s1 : (forall i, state_of i s0 = Some (Acquiring None) -> forall a, state_of i s1 <> Some (Acquiring (Some a))) ->
  see ls (mkTsys s1 (fun i => if received i s0 s1 then now else due i)) = view (foresee ls due) s1.
Proof.
  intros N. unfold see. cbn [t_sys t_due]. apply view_ext. intros i x Sx. unfold foresee. destruct x as [[[| |f]|]| | | | |]; try reflexivity.
  rewrite received_state, Sx. specialize (N i). destruct (state_of i s0) as [[[|]| | | | |]|]; try reflexivity. destruct (N eq_refl _ Sx).
Qed.

Lemma look_state i due now s j : state_of j (look i due now s) = if Nat.eqb i j then option_map (fun x => match x with Acquiring (Some (PConnect f)) => Acquiring (Some (PConnect (timeout_poll due now f))) | x => x end) (state_of j s) else state_of j s.
Proof.
  unfold look. destruct (nth_error (s_calls s) i) as [pc|] eqn:N.
  - assert (Sx : state_of i s = Some (c_state pc)) by (unfold state_of; rewrite N; reflexivity).
    destruct (Nat.eqb_spec i j) as [<-|D].
    + destruct (c_state pc) as [[[| |f]|]| | | | |]; rewrite ?state_put, ?Nat.eqb_refl, Sx; reflexivity.
    + destruct (c_state pc) as [[[| |f]|]| | | | |]; try reflexivity. rewrite state_put. destruct (Nat.eqb_spec i j); [contradiction | reflexivity].
  - destruct (Nat.eqb_spec i j) as [<-|D]; [|reflexivity]. unfold state_of. rewrite N. reflexivity.
Qed.
Lemma look_nth i due now s : nth_error (s_calls (look i due now s)) i =
  option_map (fun pc => with_state (match c_state pc with Acquiring (Some (PConnect f)) => Acquiring (Some (PConnect (timeout_poll due now f))) | x => x end) pc) (nth_error (s_calls s) i).
Proof.
  unfold look. destruct (nth_error (s_calls s) i) as [pc|] eqn:N; [|rewrite N; reflexivity]. cbn [option_map].
  assert (Same : nth_error (s_calls s) i = Some (with_state (c_state pc) pc)) by (rewrite N; destruct pc; reflexivity).
  destruct (c_state pc) as [[[| |f]|]| | | | |]; try exact Same. unfold put_state. cbn [s_calls]. clear Same. revert i N. generalize (s_calls s). intros cs. induction cs as [|d cs IH]; intros [|i] N; try discriminate; cbn [set_state nth_error] in *.
  - injection N as ->. reflexivity.
  - apply IH, N.
Qed.

Lemma simulate now l ls s : match tstep tmax checks wait now l s with
  | Some (s1, t) => pstep tmax checks (relabel now l ls s) (see ((now, l) :: ls) s) = Some (see ls s1, t)
  | None => pstep tmax checks (relabel now l ls s) (see ((now, l) :: ls) s) = None /\ see ((now, l) :: ls) s = see ls s
  end.
Proof.
  destruct s as [s due]. unfold tstep. cbn [t_sys t_due].
  destruct l as [addr p req|c f| |j w|j].
  - cbn [pstep]. set (s1 := send _ _). rewrite (see_same ls (now + wait) due s s1).
    + change (see ((now, LCall addr p req) :: ls) (mkTsys s due)) with (view (foresee ls due) s). cbn [relabel pstep t_due]. subst s1. rewrite view_send. f_equal. f_equal. cbn [view s_calls s_pool s_queue s_opened].
      rewrite mapi_length. f_equal. unfold view. cbn [s_calls s_pool s_queue s_opened]. rewrite mapi_app. reflexivity.
    + intros i Si a. subst s1. rewrite state_send. unfold state_of in *. cbn [s_calls]. rewrite nth_snoc. destruct (Nat.eqb i (length (s_calls s))); [discriminate|]. rewrite Si. discriminate.
  - cbn [pstep]. change (see ((now, LPool c f) :: ls) (mkTsys s due)) with (view (foresee ls due) s).
    assert (R : exists f', relabel now (LPool c f) ls (mkTsys s due) = LPool c f' /\ forall a i q, s_queue s = AcquireConnection a i :: q -> f' = fate_of i (now + wait) ls f).
    { unfold relabel. cbn [t_sys]. destruct (s_queue s) as [|[a i| |] q]; eexists; (split; [reflexivity|]); intros; try discriminate. congruence. }
    destruct R as (f' & -> & Rf). cbn [pstep]. change (s_pool (view (foresee ls due) s)) with (s_pool s). change (s_queue (view (foresee ls due) s)) with (s_queue s).
    destruct (s_pool s) as [p|] eqn:Ep; [|split; reflexivity]. destruct (s_queue s) as [|cm q] eqn:Eq; [split; reflexivity|].
    assert (Gone : forall x, Some (pool_gone (view (foresee ls due) s), x) = Some (see ls (mkTsys (pool_gone s) (fun i => if received i s (pool_gone s) then (now + wait)%Z else due i)), x) :> option (psys * list pevent)).
    { intros x. rewrite (see_same ls (now + wait) due s (pool_gone s)); [reflexivity|]. intros i Si a. change (state_of i (pool_gone s)) with (state_of i s). rewrite Si. discriminate. }
    destruct (handle_command tmax checks c cm p) as [[o p']| | |] eqn:Eh; try apply Gone. clear Gone.
    pose proof (handle_reply tmax checks c cm p o p' Eh) as Rp. set (s1 := mkPsys (Some p') q (s_calls s) (s_opened s)).
    f_equal. f_equal. change (mkPsys (Some p') q (s_calls (view (foresee ls due) s)) (s_opened (view (foresee ls due) s))) with (view (foresee ls due) s1).
    assert (Same : forall i, state_of i s = Some (Acquiring None) -> forall a, state_of i s1 <> Some (Acquiring (Some a))) by (intros i Si a; change (state_of i s1) with (state_of i s); rewrite Si; discriminate).
    destruct o as [[i a]|]; [|symmetry; apply (see_same ls (now + wait) due s s1 Same)].
    destruct cm as [ad j|ad cc|ad]; [|discriminate Rp..]. destruct Rp as [y Ey]. injection Ey as <- <-. rename i into j. rename a into y.
    unfold reply. rewrite view_nth. destruct (nth_error (s_calls s1) j) as [pc|] eqn:N; cbn [option_map]; [|symmetry; apply (see_same ls (now + wait) due s s1 Same)].
    cbn [with_state c_state]. destruct (c_state pc) as [[[| |g]|]| | | | |] eqn:Es; cbn [foresee]; try (symmetry; apply (see_same ls (now + wait) due s s1 Same)).
    unfold see. cbn [t_sys t_due]. assert (Sj : state_of j s = Some (Acquiring None)) by (unfold state_of; change (s_calls s) with (s_calls s1); rewrite N, <- Es; reflexivity).
    rewrite view_put. unfold foresee at 2. assert (Rj : received j s (put_state j (Acquiring (Some (to_pooled y f))) s1) = true).
    { rewrite received_state, state_put, Nat.eqb_refl. change (state_of j s1) with (state_of j s). rewrite Sj. reflexivity. }
    rewrite Rj. assert (V : forall h, view (foresee ls due) s1 = view h s1 -> put_state j (Acquiring (Some (to_pooled y f'))) (view (foresee ls due) s1) = put_state j (Acquiring (Some (to_pooled y f'))) (view h s1)) by (intros h ->; reflexivity).
    rewrite (V (foresee ls (fun i => if received i s (put_state j (Acquiring (Some (to_pooled y f))) s1) then (now + wait)%Z else due i))).
    + f_equal. rewrite (Rf ad j q eq_refl). destruct y; reflexivity.
    + apply view_ext. intros i x Sx. change (state_of i s1) with (state_of i s) in Sx. unfold foresee. destruct x as [[[| |g]|]| | | | |]; try reflexivity.
      rewrite received_state, Sx. reflexivity.
  - cbn [pstep]. change (see ((now, LPoolDrop) :: ls) (mkTsys s due)) with (view (foresee ls due) s). cbn [relabel pstep]. change (s_pool (view (foresee ls due) s)) with (s_pool s).
    destruct (s_pool s); [|split; reflexivity]. rewrite (see_same ls (now + wait) due s (pool_gone s)); [reflexivity|]. intros i Si a. change (state_of i (pool_gone s)) with (state_of i s). rewrite Si. discriminate.
  - cbn [relabel pstep]. change (see ((now, LPoll j w) :: ls) (mkTsys s due)) with (view (foresee ((now, LPoll j w) :: ls) due) s). rewrite view_nth. set (s0 := look j (due j) now s). pose proof (look_nth j (due j) now s) as Ln. fold s0 in Ln.
    set (G := foresee ((now, LPoll j w) :: ls) due) in *. set (g := foresee ls due).
    assert (Vo : forall i x, i <> j -> G i x = g i x).
    { intros i x D. subst G g. unfold foresee. destruct x as [[[| |h]|]| | | | |]; try reflexivity. cbn [fate_of]. destruct (Nat.eqb_spec j i); [congruence | reflexivity]. }
    destruct (nth_error (s_calls s) j) as [pc|] eqn:N; cbn [option_map] in *.
    2: { rewrite Ln. split; [reflexivity|]. apply view_ext. intros i x Sx. apply Vo. intros ->. unfold state_of in Sx. cbn [t_sys] in Sx. rewrite N in Sx. discriminate. }
    rewrite Ln. assert (Sj : state_of j s = Some (c_state pc)) by (unfold state_of; rewrite N; reflexivity).
    assert (VG : view G s = put_state j (G j (c_state pc)) (view g s)) by (apply view_but; [exact N | exact Vo]).
    assert (Sg : settled g) by apply foresee_settled.
    assert (V0 : exists y, s0 = put_state j y s).
    { subst s0. unfold look. rewrite N. destruct (c_state pc) as [[[| |h]|]| | | | |] eqn:Es; try (eexists; symmetry; eapply put_id; [exact N | reflexivity]). eexists. reflexivity. }
    destruct V0 as [y V0].
    assert (Fin : forall x t, (forall a, x = Acquiring (Some a) -> c_state pc <> Acquiring None) -> forall X, X = g j x ->
      Some (put_state j X (view G s), t) = Some (see ls (mkTsys (put_state j x s0) (fun i => if received i s0 (put_state j x s0) then (now + wait)%Z else due i)), t) :> option (psys * list pevent)).
    { intros x t Nx X ->. rewrite (see_same ls (now + wait) due s0 (put_state j x s0)).
      - rewrite VG, V0, !put_put. fold g. rewrite view_put. reflexivity.
      - intros i Si a. rewrite state_put. subst s0. destruct (Nat.eqb_spec j i) as [e|D]; [subst i|rewrite Si; discriminate]. rewrite Si. rewrite look_state, Nat.eqb_refl, Sj in Si.
        cbn [option_map] in *. intros [= E]. apply (Nx _ E). destruct (c_state pc) as [[[| |h]|]| | | | |]; try discriminate. reflexivity. }
    assert (FinI : forall c r o pc1 pc2, c_addr pc1 = c_addr pc2 -> let S z := mkPsys (s_pool z) (s_queue z) (s_calls z) o in
      inner_result j pc2 c r (S (view G s)) = (let s1 := fst (inner_result j pc1 c r (S s0)) in see ls (mkTsys s1 (fun i => if received i s0 s1 then (now + wait)%Z else due i)), snd (inner_result j pc1 c r (S s0)))).
    { intros c r o pc1 pc2 Ea S. cbv zeta. rewrite (see_same ls (now + wait) due s0 (fst (inner_result j pc1 c r (S s0)))).
      - fold g. subst S. cbv beta. rewrite VG, V0. cbn [put_state s_pool s_queue s_calls s_opened].
        change (mkPsys (s_pool (view g s)) (s_queue (view g s)) (set_state j (G j (c_state pc)) (s_calls (view g s))) o) with (put_state j (G j (c_state pc)) (view g (mkPsys (s_pool s) (s_queue s) (s_calls s) o))).
        change (mkPsys (s_pool s) (s_queue s) (set_state j y (s_calls s)) o) with (put_state j y (mkPsys (s_pool s) (s_queue s) (s_calls s) o)).
        rewrite !inner_put. apply view_inner; assumption.
      - intros i Si a. destruct (Nat.eq_dec i j) as [->|D]; [apply inner_on|]. destruct (inner_other i j pc1 c r (S s0)) as [Q _]; [congruence|]. rewrite Q. change (state_of i (S s0)) with (state_of i s0). rewrite Si. discriminate. }
    assert (FinN : forall c r pc1 pc2, c_addr pc1 = c_addr pc2 ->
      inner_result j pc2 c r (view G s) = (let s1 := fst (inner_result j pc1 c r s0) in see ls (mkTsys s1 (fun i => if received i s0 s1 then (now + wait)%Z else due i)), snd (inner_result j pc1 c r s0))).
    { intros c r pc1 pc2 Ea. assert (E0 : s0 = mkPsys (s_pool s0) (s_queue s0) (s_calls s0) (s_opened s)) by (rewrite V0; reflexivity). pose proof (FinI c r (s_opened s) pc1 pc2 Ea) as Q. cbv beta zeta in Q |- *. rewrite <- E0 in Q. exact Q. }
    destruct (c_state pc) as [a|c k|v b|e| |] eqn:Es; unfold poll_pooled; cbn [with_state c_state c_addr c_proc c_req].
    3,4,5,6: subst G g; cbn [foresee c_state]; split; [reflexivity|]; unfold see; cbn [t_sys t_due]; apply view_ext; intros i x Sx; destruct (Nat.eq_dec i j) as [->|D]; [rewrite Sj in Sx; injection Sx as <-; reflexivity | apply Vo, D].
    + assert (Sn : forall k cm, Some (send cm (put_state j (Broken k) (view G s)), [EBlacklist j (c_addr pc)]) =
        Some (see ls (mkTsys (send cm (put_state j (Broken k) s0)) (fun i => if received i s0 (send cm (put_state j (Broken k) s0)) then (now + wait)%Z else due i)), [EBlacklist j (c_addr pc)]) :> option (psys * list pevent)).
      { intros k cm. rewrite (see_same ls (now + wait) due s0 (send cm (put_state j (Broken k) s0))).
        - rewrite VG, V0, !put_put. fold g. rewrite view_send, view_put. reflexivity.
        - intros i Si a'. rewrite state_send, state_put, Si. destruct (Nat.eqb j i); discriminate. }
      assert (S0 : s_opened s0 = s_opened s /\ s_queue s0 = s_queue s) by (rewrite V0; split; reflexivity). destruct S0 as [So Sq].
      destruct a as [[|c|f]|].
      * subst G. cbn [foresee c_state acquire_poll]. apply Fin; [discriminate | reflexivity].
      * subst G. cbn [foresee c_state acquire_poll]. set (G := foresee ((now, LPoll j w) :: ls) due) in *.
        match goal with |- context [inner_result j ?p1 c ?r1 s0] => set (pc1 := p1); set (r := r1) end.
        match goal with |- context [inner_result j ?p2 c r (view G s)] => pose proof (FinN c r pc1 p2 eq_refl) as Q end. cbv beta zeta in Q.
        rewrite Q. destruct (inner_result j pc1 c r s0) as [s1 t]. reflexivity.
      * assert (EG : G j (Acquiring (Some (PConnect f))) = Acquiring (Some (PConnect (match timeout_poll (due j) now f with
          | Later f' => Later (fate_of j (due j) ls f') | Never => Later (fate_of j (due j) ls Never) | g => g end)))).
        { subst G. unfold foresee. cbn [fate_of]. rewrite Nat.eqb_refl. reflexivity. }
        rewrite EG. cbn [acquire_poll]. destruct (timeout_poll (due j) now f) as [[]|e|f'|]; cbn [fpoll].
        -- rewrite So. change (s_opened (view G s)) with (s_opened s). 
           match goal with |- context [inner_result j ?p1 _ ?r1 (mkPsys (s_pool s0) _ _ _)] => set (pc1 := p1); set (r := r1) end.
           match goal with |- context [inner_result j ?p2 _ r (mkPsys (s_pool (view G s)) _ _ _)] => pose proof (FinI (length (s_opened s)) r (s_opened s ++ [c_addr pc]) pc1 p2 eq_refl) as Q end. cbv beta zeta in Q. rewrite Q.
           destruct (inner_result j pc1 (length (s_opened s)) r (mkPsys (s_pool s0) (s_queue s0) (s_calls s0) (s_opened s ++ [c_addr pc]))) as [s1 t]. reflexivity.
        -- apply Sn.
        -- apply Fin; [intros a' _; discriminate | reflexivity].
        -- apply Fin; [intros a' _; discriminate | reflexivity].
      * subst G. cbn [foresee c_state acquire_poll]. set (G := foresee ((now, LPoll j w) :: ls) due) in *. change (s_queue (view G s)) with (s_queue s). rewrite Sq.
        destruct (pending j (s_queue s)); apply Fin; try reflexivity; discriminate.
    + subst G. cbn [foresee c_state]. set (G := foresee ((now, LPoll j w) :: ls) due) in *.
      match goal with |- context [inner_result j ?p1 c ?r1 s0] => set (pc1 := p1); set (r := r1) end.
        match goal with |- context [inner_result j ?p2 c r (view G s)] => pose proof (FinN c r pc1 p2 eq_refl) as Q end. cbv beta zeta in Q.
      rewrite Q. destruct (inner_result j pc1 c r s0) as [s1 t]. reflexivity.
  - cbn [relabel pstep]. change (see ((now, LDrop j) :: ls) (mkTsys s due)) with (view (foresee ls due) s). rewrite view_nth. destruct (nth_error (s_calls s) j) as [pc|] eqn:N; cbn [option_map]; [|split; reflexivity].
    assert (D : Some (put_state j Dropped (view (foresee ls due) s), []) = Some (see ls (mkTsys (put_state j Dropped s) (fun i => if received i s (put_state j Dropped s) then (now + wait)%Z else due i)), []) :> option (psys * list pevent)).
    { rewrite (see_same ls (now + wait) due s (put_state j Dropped s)); [rewrite view_put; reflexivity|]. intros i Si a. rewrite state_put, Si. destruct (Nat.eqb j i); discriminate. }
    cbn [with_state c_state]. destruct (c_state pc) as [[[| |f]|]|c k|v b|e| |]; cbn [foresee]; try exact D; split; reflexivity.
Qed.

Fixpoint relabels (ls : list (Z * plabel)) (s : tsys) : list plabel :=
  match ls with
  | [] => []
  | (now, l) :: r => relabel now l r s :: relabels r (match tstep tmax checks wait now l s with Some (s, _) => s | None => s end)
  end.
Lemma relabels_like ls : forall s, Forall2 like_label (map snd ls) (relabels ls s).
Proof. induction ls as [|[now l] ls IH]; intros s; constructor; [apply relabel_like | apply IH]. Qed.
Lemma simulates ls : forall s, prun tmax checks (relabels ls s) (see ls s) = (see [] (fst (trun tmax checks wait ls s)), snd (trun tmax checks wait ls s)).
Proof.
  induction ls as [|[now l] ls IH]; intros s; [reflexivity|]. cbn [relabels prun trun]. pose proof (simulate now l ls s) as Q.
  destruct (tstep tmax checks wait now l s) as [[s1 t]|].
  - rewrite Q, IH. destruct (trun tmax checks wait ls s1). reflexivity.
  - destruct Q as [Q1 Q2]. rewrite Q1, Q2, IH. reflexivity.
Qed.
Lemma mapi_like (g : nat -> cstate -> cstate) : settled g -> forall l k, Forall2 like_call l (mapi (fun i pc => with_state (g i (c_state pc)) pc) k l).
Proof.
  intros G. induction l as [|pc l IH]; intros k; constructor; [|apply IH]. repeat (split; [reflexivity|]). cbn [with_state c_state]. specialize (G k (c_state pc)). unfold like_state.
  destruct (c_state pc) as [[[| |f]|]| | | | |]; try (rewrite G; reflexivity). destruct G as [f' ->]. exact I.
Qed.
Lemma see_like ls s : like_system (t_sys s) (see ls s).
Proof. repeat (split; [reflexivity|]). apply mapi_like, foresee_settled. Qed.
(** Every run with timeouts is a run of PoolSystem.v, with the same events. *)
Theorem as_without ls size susp : exists ls' s', Forall2 like_label (map snd ls) ls' /\
  prun tmax checks ls' (psys_new size susp) = (s', snd (trun tmax checks wait ls (tsys_new size susp))) /\ like_system (t_sys (fst (trun tmax checks wait ls (tsys_new size susp)))) s'.
Proof.
  exists (relabels ls (tsys_new size susp)), (see [] (fst (trun tmax checks wait ls (tsys_new size susp)))). split; [apply relabels_like|]. split; [|apply see_like].
  exact (simulates ls (tsys_new size susp)).
Qed.
End View.
