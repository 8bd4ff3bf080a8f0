(** * Invariants of a pool and its calls. *)
From Coq Require Import Sorting.Permutation.
From Verif Require Import Base Serde Procedure Router SerRequest DeHeader DeResponse DepUrl Error Client ClientSpec ClientProofs Pool PoolSpec PoolProofs PoolSystem PoolSystemSpec PoolSystemProofs.
Open Scope N_scope.

Section Inv.
Context {F : floatlib} {U : urlenv}.
Variables (tmax : Z) (checks : bool).

(** ** The steps, by what they do with connections *)
Inductive coarse (s : psys) : psys -> list pevent -> Prop :=
| q_call addr p req : coarse s
    (mkPsys (s_pool s) (queue_after s [AcquireConnection addr (length (s_calls s))]) (s_calls s ++ [mkPcall addr p req (Acquiring None)]) (s_opened s)) []
| q_pool now f p c q o p' : s_pool s = Some p -> s_queue s = c :: q -> handle_command tmax checks now c p = Ok (o, p') -> coarse s (after_command s p' q o f) []
| q_gone : coarse s (pool_gone s) []
| q_moves j pc x cs t : nth_error (s_calls s) j = Some pc -> held_in x = [] -> (cs = [] \/ cs = [AddToBlacklist (c_addr pc)]) ->
    t = [] \/ t = [EBlacklist j (c_addr pc)] ->
    (exists a a', c_state pc = Acquiring a /\ x = Acquiring a' /\ wait_state a a' /\ (a = None -> pending j (s_queue s) = true)) \/
      (dead x /\ ((exists a, c_state pc = Acquiring a) \/ (exists c k, c_state pc = Talking c k))) ->
    coarse s (moved j x cs [] s) t
| q_uses j pc c x cs op pre ts rs t : nth_error (s_calls s) j = Some pc -> fate j (c_addr pc) c x cs rs -> poll_events j c pre ts rs t ->
    op = [] /\ pre = [] /\ held pc = [c] /\ (c_state pc = Acquiring (Some (PIdle c)) \/ exists k, c_state pc = Talking c k) \/
      op = [c_addr pc] /\ pre = [EOpen c (c_addr pc)] /\ c = length (s_opened s) /\ held pc = [] /\ c_state pc = Acquiring (Some (PConnect (Ready tt))) ->
    (alive x -> ts <> [] \/ exists k, c_state pc = Talking c k) ->
    coarse s (moved j x cs op s) t.

Lemma fate_rs i addr c x cs rs : fate i addr c x cs rs -> forall k a, ~ In (EAct k a) rs.
Proof. intros Fa k a. destruct Fa; intros I; try contradiction. destruct I as [E|[]]. discriminate. Qed.
Lemma held_cases pc c : held pc = [c] -> c_state pc = Acquiring (Some (PIdle c)) \/ exists k, c_state pc = Talking c k.
Proof.
  unfold held. destruct (c_state pc) as [[[|c0|f]|]|c0 k| | | |]; try discriminate; intros [= ->]; [auto | right; eauto].
Qed.
Lemma moved_nil j x cs s : mkPsys (s_pool s) (queue_after s cs) (set_state j x (s_calls s)) (s_opened s) = moved j x cs [] s.
Proof. unfold moved. rewrite app_nil_r. reflexivity. Qed.
Lemma effect_coarse s l s' t : effect tmax checks s l s' t -> coarse s s' t.
Proof.
  intros E. destruct E as [addr p req|now f p c q o p' Ep Eq Eh|now f p c q Ep Eq Eh|p Ep|i w pc a a' En Es W P|i w pc a e En Es D|i w pc f x En Es Ef|i w pc x cs ts rs En Es Ft Fa A|i w pc c x cs ts rs En Es Ft Fa A|i pc En D].
  - constructor.
  - exact (q_pool s now f p c q o p' Ep Eq Eh).
  - constructor.
  - constructor.
  - rewrite put_moved. eapply q_moves; try eassumption; auto.
    + destruct a as [[| |]|], a' as [[| |]|]; try contradiction; reflexivity.
    + left. exists a, a'. auto.
  - rewrite put_moved. eapply q_moves; try eassumption; auto. right. split; [exact I | eauto].
  - rewrite moved_nil. eapply q_moves; try eassumption; auto. right. split; [exact I | eauto].
  - eapply (q_uses s i pc (length (s_opened s)) x cs [c_addr pc] [EOpen (length (s_opened s)) (c_addr pc)] ts rs); try eassumption.
    + split; [reflexivity|]. split; [exact Ft|]. split; [intros k a [E|[]]; discriminate|]. split; [intros k a d [E|[]]; discriminate|]. exact (fate_rs _ _ _ _ _ _ Fa).
    + right. repeat split; auto. unfold held. rewrite Es. reflexivity.
    + auto.
  - rewrite moved_nil. eapply (q_uses s i pc c x cs [] [] ts rs); try eassumption.
    + split; [reflexivity|]. split; [exact Ft|]. split; [intros k a []|]. split; [intros k a d []|]. exact (fate_rs _ _ _ _ _ _ Fa).
    + left. pose proof (held_cases pc c Es). auto.
    + intros Al. destruct (held_cases pc c Es) as [E|E]; [left; auto | right; exact E].
  - rewrite put_moved. eapply q_moves; try eassumption; auto. right. split; [exact I | exact D].
Qed.

(** ** Counting *)
Lemma coarse_opened s s' t : coarse s s' t -> exists op, s_opened s' = s_opened s ++ op.
Proof.
  intros Q. destruct Q as [|now f p c q o p'| | |]; try (exists []; cbn; rewrite ?app_nil_r; reflexivity).
  - exists []. rewrite app_nil_r. unfold after_command. destruct o as [[i a]|]; [|reflexivity]. destruct (reply_cases i (to_pooled a f) (mkPsys (Some p') q (s_calls s) (s_opened s))) as [->|[_ ->]]; reflexivity.
  - exists op. reflexivity.
Qed.

Lemma moves_carried cs a : cs = [] \/ cs = [AddToBlacklist a] -> flat_map carried cs = [].
Proof. intros [-> | ->]; reflexivity. Qed.

(** Connections only move; a connection that is opened is new. *)
Lemma coarse_H s s' t c : coarse s s' t -> (c < length (s_opened s))%nat -> (H s' c <= H s c)%nat.
Proof.
  intros Q L. destruct Q as [addr p req|now f p cm q o p' Ep Eq Eh| |j pc x cs t En Hx Hc Ht D|j pc c0 x cs op pre ts rs t En Fa Pe D A].
  - unfold H. cbn [s_calls s_queue s_pool]. rewrite flat_map_app, cnt_app. cbn [flat_map held c_state app]. rewrite cnt_nil.
    pose proof (queue_after_cnt s [AcquireConnection addr (length (s_calls s))] c) as P. cbn [flat_map carried app] in P. rewrite cnt_nil in P. lia.
  - eapply after_command_H; eassumption.
  - unfold H, pool_gone. cbn [s_calls s_queue s_pool flat_map idle_conns]. rewrite !cnt_nil. lia.
  - pose proof (moved_H j x cs [] s pc c En) as M. rewrite Hx, (moves_carried _ _ Hc) in M. rewrite cnt_nil in M. lia.
  - pose proof (moved_H j x cs op s pc c En) as M. pose proof (fate_cnt _ _ _ _ _ _ c Fa) as P. destruct D as [(_ & _ & Hp & _)|(_ & _ & -> & Hp & _)]; rewrite Hp in M.
    + rewrite cnt_cons, cnt_nil in M. lia.
    + rewrite one_other in P by lia. lia.
Qed.
Lemma coarse_new s s' t c : coarse s s' t -> (forall d, (0 < H s d)%nat -> (d < length (s_opened s))%nat) -> (length (s_opened s) <= c)%nat -> (0 < H s' c)%nat ->
  (c < length (s_opened s'))%nat /\ H s' c = 1%nat.
Proof.
  intros Q Fr L P. assert (Z : H s c = 0%nat) by (destruct (H s c) eqn:E; [reflexivity | specialize (Fr c ltac:(lia)); lia]).
  destruct Q as [addr p req|now f p cm q o p' Ep Eq Eh| |j pc x cs t En Hx Hc Ht D|j pc c0 x cs op pre ts rs t En Fa Pe D A].
  - revert P. unfold H in *. cbn [s_calls s_queue s_pool]. rewrite flat_map_app, cnt_app. cbn [flat_map held c_state app]. rewrite cnt_nil.
    pose proof (queue_after_cnt s [AcquireConnection addr (length (s_calls s))] c) as P. cbn [flat_map carried app] in P. rewrite cnt_nil in P. lia.
  - pose proof (after_command_H tmax checks now f p cm q o p' s c Ep Eq Eh). lia.
  - revert P. unfold H, pool_gone in *. cbn [s_calls s_queue s_pool flat_map idle_conns]. rewrite !cnt_nil. lia.
  - pose proof (moved_H j x cs [] s pc c En) as M. rewrite Hx, (moves_carried _ _ Hc) in M. rewrite cnt_nil in M. lia.
  - pose proof (moved_H j x cs op s pc c En) as M. pose proof (fate_cnt _ _ _ _ _ _ c Fa) as P'. destruct D as [(_ & _ & Hp & _)|(-> & _ & -> & Hp & _)]; rewrite Hp in M.
    + rewrite cnt_cons, cnt_nil in M. lia.
    + rewrite cnt_nil in M. destruct (Nat.eq_dec (length (s_opened s)) c) as [E|N]; [|rewrite one_other in P' by exact N; lia].
      subst c. rewrite one_self in P'. split; [unfold moved; cbn; rewrite app_length; cbn; lia | lia].
Qed.

(** ** States *)
Lemma after_command_state s p' q o f i : state_of i (after_command s p' q o f) = state_of i s \/
  state_of i s = Some (Acquiring None) /\ exists a, o = Some (i, a) /\ state_of i (after_command s p' q o f) = Some (Acquiring (Some (to_pooled a f))).
Proof.
  unfold after_command. destruct o as [[j a]|]; [|left; reflexivity]. set (s1 := mkPsys (Some p') q (s_calls s) (s_opened s)). change (state_of i s) with (state_of i s1).
  destruct (reply_cases j (to_pooled a f) s1) as [->|[Es ->]]; [left; reflexivity|]. rewrite put_moved, moved_state.
  destruct (Nat.eqb_spec j i) as [->|N]; [|left; reflexivity]. right. split; [exact Es|]. exists a. split; [reflexivity|].
  unfold state_of in Es. destruct (nth_error (s_calls s1) i); [reflexivity | discriminate].
Qed.
Lemma after_command_addr s p' q o f i : addr_of i (after_command s p' q o f) = addr_of i s.
Proof.
  unfold after_command. destruct o as [[j a]|]; [|reflexivity]. set (s1 := mkPsys (Some p') q (s_calls s) (s_opened s)). change (addr_of i s) with (addr_of i s1).
  destruct (reply_cases j (to_pooled a f) s1) as [->|[Es ->]]; [reflexivity|]. rewrite put_moved, moved_addr. reflexivity.
Qed.
Lemma after_command_queue s p' q o f : s_queue (after_command s p' q o f) = q /\ s_pool (after_command s p' q o f) = Some p'.
Proof.
  unfold after_command. destruct o as [[j a]|]; [|auto]. destruct (reply_cases j (to_pooled a f) (mkPsys (Some p') q (s_calls s) (s_opened s))) as [->|[Es ->]]; auto.
Qed.
Lemma nth_snoc {A} (l : list A) x i : nth_error (l ++ [x]) i = if Nat.eqb i (length l) then Some x else nth_error l i.
Proof.
  revert i. induction l as [|y l IH]; intros [|i]; cbn; try reflexivity; [destruct i; reflexivity | apply IH].
Qed.

(** ** The invariant *)
Definition use_ok (i : nat) (s : psys) (tr : list pevent) : Prop :=
  match state_of i s with
  | Some (Finished _ _) => exists a c, addr_of i s = Some a /\ released i tr = [(a, c)] /\ used i tr <> [] /\ Forall (eq c) (used i tr)
  | Some (Talking c _) => released i tr = [] /\ used i tr <> [] /\ Forall (eq c) (used i tr)
  | Some (Acquiring _) | None => released i tr = [] /\ used i tr = []
  | Some _ => released i tr = [] /\ exists c, Forall (eq c) (used i tr)
  end.
Record invA (s : psys) (tr : list pevent) : Prop := {
  a_keeps : keeps_all s;
  a_once : forall c, (H s c <= 1)%nat;
  a_fresh : forall c, (0 < H s c)%nat -> (c < length (s_opened s))%nat;
  a_gone : s_pool s = None -> s_queue s = [];
  a_wait : forall i, s_pool s <> None -> state_of i s = Some (Acquiring None) -> pending i (s_queue s) = true;
  a_use : forall i, use_ok i s tr;
  a_sole : forall i c, in_use i c tr -> sole i c s;
  a_excl : exclusive tr
}.

Lemma fate_keeps i addr c x cs rs : fate i addr c x cs rs -> keeps_state x.
Proof. intros Fa. destruct Fa as [k K|v b|x D]; [exact K | exact I | destruct x; try contradiction; exact I]. Qed.
Lemma keeps_step s s' t : keeps_all s -> coarse s s' t -> keeps_all s'.
Proof.
  intros K Q i x E. destruct Q as [addr p req|now f p cm q o p' Ep Eq Eh| |j pc x' cs t En Hx Hc Ht D|j pc c0 x' cs op pre ts rs t En Fa Pe D A].
  - unfold state_of in E. cbn [s_calls] in E. rewrite nth_snoc in E. destruct (Nat.eqb i (length (s_calls s))); [injection E as <-; exact I | exact (K i x E)].
  - destruct (after_command_state s p' q o f i) as [E'|(_ & a & _ & E')]; rewrite E' in E; [exact (K i x E) | injection E as <-; exact I].
  - exact (K i x E).
  - rewrite moved_state in E. destruct (Nat.eqb j i); [|exact (K i x E)]. destruct (nth_error (s_calls s) i); [|discriminate]. injection E as <-.
    destruct D as [(a & a' & _ & -> & _)|(D & _)]; [exact I | destruct x'; try contradiction; exact I].
  - rewrite moved_state in E. destruct (Nat.eqb j i); [|exact (K i x E)]. destruct (nth_error (s_calls s) i); [|discriminate]. injection E as <-. exact (fate_keeps _ _ _ _ _ _ Fa).
Qed.

Lemma pending_app i q1 q2 : pending i (q1 ++ q2) = pending i q1 || pending i q2.
Proof. apply existsb_app. Qed.
Lemma pending_after i s cs : pending i (s_queue s) = true -> pending i (queue_after s cs) = true.
Proof. intros P. unfold queue_after. destruct (s_pool s); [rewrite pending_app, P|]; auto. Qed.
Lemma handle_reply now c p o p' : handle_command (C := conn) tmax checks now c p = Ok (o, p') ->
  match c with AcquireConnection _ i => exists a, o = Some (i, a) | _ => o = None end.
Proof.
  destruct c as [a i|a x|a]; cbn [handle_command].
  - destruct (hm_remove a (p_black p)) as [[t|] black].
    + destruct (now <? t)%Z; [intros [= <- <-]; eauto|]. destruct (acquire_connection a _) as [[x q]| | |]; cbn [bind]; try discriminate. intros [= <- <-]. eauto.
    + destruct (acquire_connection a _) as [[x q]| | |]; cbn [bind]; try discriminate. intros [= <- <-]. eauto.
  - destruct (release_connection checks a x p) as [q| | |]; cbn [bind]; try discriminate. intros [= <- <-]. reflexivity.
  - destruct (now + p_susp p <=? tmax)%Z; [|discriminate]. intros [= <- <-]. reflexivity.
Qed.
Lemma wait_step s s' t : coarse s s' t -> (s_pool s = None -> s_queue s = []) ->
  (forall i, s_pool s <> None -> state_of i s = Some (Acquiring None) -> pending i (s_queue s) = true) ->
  (s_pool s' = None -> s_queue s' = []) /\ (forall i, s_pool s' <> None -> state_of i s' = Some (Acquiring None) -> pending i (s_queue s') = true).
Proof.
  intros Q G W. destruct Q as [addr p req|now f p cm q o p' Ep Eq Eh| |j pc x' cs t En Hx Hc Ht D|j pc c0 x' cs op pre ts rs t En Fa Pe D A].
  - cbn [s_pool s_queue]. split; [intros E; unfold queue_after; rewrite E; auto|]. intros i P E. unfold state_of in E. cbn [s_calls] in E. rewrite nth_snoc in E.
    destruct (Nat.eqb_spec i (length (s_calls s))) as [->|N]; [|apply pending_after; auto].
    unfold queue_after. destruct (s_pool s) as [p0|]; [|congruence]. rewrite pending_app. cbn [pending existsb]. rewrite Nat.eqb_refl. apply orb_true_r.
  - destruct (after_command_queue s p' q o f) as [-> ->]. split; [discriminate|]. intros i _ E.
    pose proof (handle_reply _ _ _ _ _ Eh) as R. destruct (after_command_state s p' q o f i) as [E'|(_ & a & _ & E')]; rewrite E' in E; [|discriminate].
    specialize (W i ltac:(congruence) E). rewrite Eq in W. cbn [pending existsb] in W. apply orb_true_iff in W. destruct W as [W|W]; [|exact W]. exfalso.
    destruct cm as [a0 i0|a0 c0|a0]; try discriminate. apply Nat.eqb_eq in W. subst i0. destruct R as [a ->]. revert E'. unfold after_command, reply. cbn [s_calls].
    unfold state_of in E. destruct (nth_error (s_calls s) i) as [pc|] eqn:En; [|discriminate]. cbn [option_map] in E. injection E as E. rewrite E. rewrite put_moved, moved_state, Nat.eqb_refl. cbn [s_calls]. rewrite En. cbn [option_map].
    unfold state_of. rewrite En. cbn [option_map]. rewrite E. discriminate.
  - split; [reflexivity|]. intros i P. elim P. reflexivity.
  - unfold moved. cbn [s_pool s_queue]. split; [intros E; unfold queue_after; rewrite E; auto|]. fold (moved j x' cs [] s). intros i P E. rewrite moved_state in E. apply pending_after.
    destruct (Nat.eqb_spec j i) as [->|N]; [|apply W; auto]. rewrite En in E. cbn [option_map] in E. injection E as ->.
    destruct D as [(a & a' & _ & [= <-] & Wa & P')|(D & _)]; [|destruct D]. apply P'. destruct a as [[| |]|]; try contradiction. reflexivity.
  - unfold moved. cbn [s_pool s_queue]. split; [intros E; unfold queue_after; rewrite E; auto|]. fold (moved j x' cs op s). intros i P E. rewrite moved_state in E. apply pending_after.
    destruct (Nat.eqb_spec j i) as [->|N]; [|apply W; auto]. rewrite En in E. cbn [option_map] in E. injection E as ->. exfalso. inversion Fa as [| |? D']; subst. destruct D'.
Qed.

Lemma use_same i s s' tr t : state_of i s' = state_of i s -> addr_of i s' = addr_of i s -> used i t = [] -> released i t = [] -> use_ok i s tr -> use_ok i s' (tr ++ t).
Proof. intros E1 E2 E3 E4. unfold use_ok. rewrite E1, E2, used_app, released_app, E3, E4, !app_nil_r. auto. Qed.
Lemma pre_silent c a pre : pre = [] \/ pre = [EOpen c a] -> forall i, used i pre = [] /\ released i pre = [].
Proof. intros [-> | ->] i; auto. Qed.
Lemma use_step s s' t tr : coarse s s' t -> (forall i, use_ok i s tr) -> forall i, use_ok i s' (tr ++ t).
Proof.
  intros Q Us i. destruct Q as [addr p req|now f p cm q o p' Ep Eq Eh| |j pc x' cs t En Hx Hc Ht D|j pc c0 x' cs op pre ts rs t En Fa Pe D A].
  - destruct (Nat.eqb_spec i (length (s_calls s))) as [E|N].
    + specialize (Us i). unfold use_ok, state_of in *. cbn [s_calls]. rewrite nth_snoc, app_nil_r. replace (nth_error (s_calls s) i) with (@None pcall) in Us by (symmetry; apply nth_error_None; lia).
      apply Nat.eqb_eq in E. rewrite E. cbn [option_map c_state] in *. exact Us.
    + apply (use_same i s); auto; unfold state_of, addr_of; cbn [s_calls]; rewrite nth_snoc; apply Nat.eqb_neq in N; rewrite N; reflexivity.
  - destruct (after_command_state s p' q o f i) as [E|(E & a & _ & E')]; [apply (use_same i s); auto; apply after_command_addr|].
    specialize (Us i). unfold use_ok in *. rewrite E in Us. rewrite E', app_nil_r. exact Us.
  - apply (use_same i s); auto.
  - assert (Tu : used i t = [] /\ released i t = []) by (destruct Ht as [-> | ->]; auto). destruct Tu as [Tu Tr].
    destruct (Nat.eqb_spec j i) as [->|N]; [|apply (use_same i s); auto; [rewrite moved_state; apply Nat.eqb_neq in N; rewrite N; reflexivity | apply moved_addr]].
    specialize (Us i). unfold use_ok in *. rewrite moved_state, Nat.eqb_refl, En, used_app, released_app, Tu, Tr, !app_nil_r. unfold state_of in Us. rewrite En in Us. cbn [option_map] in *.
    destruct D as [(a & a' & Es & -> & _)|(D & [(a & Es)|(c & k & Es)])]; rewrite Es in Us.
    + exact Us.
    + destruct Us as [U1 U2]. rewrite U2. destruct x'; try contradiction; split; auto; exists 0%nat; constructor.
    + destruct Us as (U1 & U2 & U3). destruct x'; try contradiction; split; eauto.
  - destruct Pe as (-> & Ft & _ & _ & _). pose proof (fate_used _ _ _ _ _ _ i Fa) as Ru.
    assert (Ps : used i pre = [] /\ released i pre = []) by (apply (pre_silent c0 (c_addr pc)); tauto). destruct Ps as [Pu Pr].
    assert (Tu : used i (pre ++ map (EAct j) ts ++ rs) = if Nat.eqb i j then map act_conn ts else []) by (rewrite !used_app, acts_used, Pu, Ru, app_nil_r; reflexivity).
    assert (Tr : released i (pre ++ map (EAct j) ts ++ rs) = released i rs) by (rewrite !released_app, acts_released, Pr; reflexivity).
    destruct (Nat.eqb_spec j i) as [->|N].
    2: { apply (use_same i s); auto; [rewrite moved_state; apply Nat.eqb_neq in N; rewrite N; reflexivity | apply moved_addr | rewrite Tu; destruct (Nat.eqb_spec i j); [congruence | reflexivity] |].
         rewrite Tr. destruct Fa; try reflexivity. cbn [released]. destruct (Nat.eqb_spec i j); [congruence | reflexivity]. }
    rewrite Nat.eqb_refl in Tu. assert (Fm : Forall (eq c0) (map act_conn ts)) by (apply Forall_forall; intros y Iy; apply in_map_iff in Iy; destruct Iy as (a & <- & Ia); rewrite Forall_forall in Ft; symmetry; auto).
    assert (Old : released i tr = [] /\ Forall (eq c0) (used i tr) /\ (alive x' -> used i tr ++ map act_conn ts <> [])).
    { specialize (Us i). unfold use_ok, state_of in Us. rewrite En in Us. cbn [option_map] in Us.
      assert (Cs : (exists a, c_state pc = Acquiring a) \/ exists k, c_state pc = Talking c0 k) by (destruct D as [(_ & _ & _ & [E|[k E]])|(_ & _ & _ & _ & E)]; eauto).
      destruct Cs as [(a & Es)|(k & Es)]; rewrite Es in Us.
      - destruct Us as [U1 U2]. rewrite U2. split; [exact U1|]. split; [constructor|]. intros Al. destruct (A Al) as [T|(k & Es')]; [|congruence]. destruct ts; [congruence | discriminate].
      - destruct Us as (U1 & U2 & U3). split; [exact U1|]. split; [exact U3|]. intros _. destruct (used i tr); [congruence | discriminate]. }
    destruct Old as (O1 & O2 & O3). unfold use_ok. rewrite moved_state, Nat.eqb_refl, En, moved_addr. cbn [option_map]. rewrite used_app, released_app, Tu, Tr, O1. cbn [app].
    assert (Fu : Forall (eq c0) (used i tr ++ map act_conn ts)) by (apply Forall_app; auto).
    destruct Fa as [k K|v b|x' Dx].
    + split; [reflexivity|]. split; [apply O3; exact I | exact Fu].
    + exists (c_addr pc), c0. split; [unfold addr_of; rewrite En; reflexivity|]. split; [cbn [released]; rewrite Nat.eqb_refl; reflexivity|]. split; [apply O3; exact I | exact Fu].
    + destruct x'; try contradiction; split; eauto.
Qed.

(** ** Sole use *)
Lemma sole_step s s' t tr i c : coarse s s' t -> invA s tr -> sole i c s -> (forall addr, ~ In (ERelease i addr c) t) -> sole i c s'.
Proof.
  intros Q Iv [L S] Nr. destruct (coarse_opened s s' t Q) as [op' Eop]. split; [rewrite Eop, app_length; lia|].
  pose proof (coarse_H s s' t c Q L) as Le. destruct Q as [addr p req|now f p cm q o p' Ep Eq Eh| |j pc x' cs t En Hx Hc Ht D|j pc c0 x' cs op pre ts rs t En Fa Pe D A].
  - etransitivity; [exact Le|]. etransitivity; [exact S|]. unfold held_at. cbn [s_calls]. rewrite nth_snoc. destruct (Nat.eqb_spec i (length (s_calls s))) as [->|N]; [|apply le_n].
    replace (nth_error (s_calls s) (length (s_calls s))) with (@None pcall) by (symmetry; apply nth_error_None; lia). cbn. lia.
  - etransitivity; [exact Le|]. etransitivity; [exact S|]. pose proof (after_command_state s p' q o f i) as Cs. revert Cs. unfold held_at, state_of.
    destruct (nth_error (s_calls s) i) as [pc|]; [|rewrite cnt_nil; lia]. rewrite held_eq. cbn [option_map]. intros [E|(E & a & _ & E')].
    + destruct (nth_error (s_calls (after_command s p' q o f)) i) as [pc'|]; [|discriminate]. cbn [option_map] in E. rewrite (held_eq pc'). injection E as ->. apply le_n.
    + injection E as E. rewrite E. cbn [held_in]. rewrite cnt_nil. lia.
  - etransitivity; [exact Le|]. exact S.
  - rewrite moved_held_at. destruct (Nat.eqb_spec j i) as [->|N]; [|lia]. rewrite En, Hx. pose proof (moved_H i x' cs [] s pc c En) as M.
    unfold held_at in S. rewrite En in S. rewrite Hx, (moves_carried _ _ Hc) in M. rewrite cnt_nil in *. lia.
  - rewrite moved_held_at. destruct (Nat.eqb_spec j i) as [->|N]; [|lia]. rewrite En. pose proof (moved_H i x' cs op s pc c En) as M.
    unfold held_at in S. rewrite En in S. destruct Fa as [k K|v b|x' Dx].
    + cbn [flat_map] in M. rewrite cnt_nil in M. lia.
    + destruct (Nat.eq_dec c0 c) as [->|Nc].
      * elim (Nr (c_addr pc)). destruct Pe as (-> & _). apply in_or_app. right. apply in_or_app. right. left. reflexivity.
      * cbn [held_in flat_map carried app] in *. rewrite cnt_cons, (one_other _ _ Nc), !cnt_nil in M. lia.
    + replace (held_in x') with (@nil conn) in * by (destruct x'; try contradiction; reflexivity). cbn [flat_map] in M. rewrite cnt_nil in *. lia.
Qed.

Lemma in_use_app i c tr t : in_use i c (tr ++ t) -> in_use i c tr /\ (forall addr, ~ In (ERelease i addr c) t) \/ in_use i c t.
Proof.
  intros (t1 & a & t2 & E & Ea & Nr). apply split_app in E. destruct E as [(m & -> & ->)|(m & -> & ->)].
  - left. split; [exists t1, a, m; repeat split; auto|]; intros addr I; apply (Nr addr); apply in_or_app; auto.
  - right. exists m, a, t2. auto.
Qed.
Lemma coarse_act s s' t i a : coarse s s' t -> In (EAct i a) t -> exists pc c x cs op pre ts rs,
  nth_error (s_calls s) i = Some pc /\ act_conn a = c /\ fate i (c_addr pc) c x cs rs /\ poll_events i c pre ts rs t /\ s' = moved i x cs op s /\
  (held pc = [c] \/ c = length (s_opened s) /\ op = [c_addr pc] /\ pre = [EOpen c (c_addr pc)]).
Proof.
  intros Q I. destruct Q as [addr p req|now f p cm q o p' Ep Eq Eh| |j pc x' cs t En Hx Hc Ht D|j pc c0 x' cs op pre ts rs t En Fa Pe D A]; try contradiction.
  - destruct Ht as [-> | ->]; [contradiction|]. destruct I as [E|[]]. discriminate.
  - destruct (poll_events_act _ _ _ _ _ _ _ _ Pe I) as [-> Ec]. exists pc, c0, x', cs, op, pre, ts, rs. repeat split; auto; try apply Pe. destruct D as [(_ & _ & Hp & _)|(-> & -> & -> & _)]; auto.
Qed.

Lemma sole_new s s' t tr i c : coarse s s' t -> invA s tr -> in_use i c t -> sole i c s'.
Proof.
  intros Q Iv (t1 & a & t2 & E & Ea & Nr). assert (I : In (EAct i a) t) by (rewrite E; apply in_or_app; right; left; reflexivity).
  destruct (coarse_act _ _ _ _ _ Q I) as (pc & c0 & x & cs & op & pre & ts & rs & En & Ec & Fa & Pe & -> & D). rewrite Ea in Ec. subst c0.
  assert (Nf : forall v b, x <> Finished v b).
  { intros v b ->. destruct Pe as (Et & _). rewrite Et in E. rewrite app_assoc in E. inversion Fa as [|v' b' E1 E2 E3|? Dx]; [|destruct Dx]. apply (Nr (c_addr pc)).
    rewrite <- E3 in E. eapply last_after; [|exact E]. discriminate. }
  split.
  - unfold moved. cbn [s_opened]. rewrite app_length. destruct D as [Hp|(-> & -> & _)]; [|cbn; lia].
    assert (P : (0 < H s (act_conn a))%nat).
    { pose proof (held_at_le i s (act_conn a)) as Lh. unfold held_at in Lh. rewrite En, Hp, Ea in Lh. rewrite cnt_cons, one_self in Lh. rewrite Ea. lia. }
    rewrite <- Ea. pose proof (a_fresh _ _ Iv _ P). lia.
  - rewrite moved_held_at, Nat.eqb_refl, En. pose proof (moved_H i x cs op s pc c En) as M. pose proof (a_once _ _ Iv c) as O.
    assert (Cs : flat_map carried cs = []) by (destruct Fa as [k K|v b|x Dx]; [reflexivity | elim (Nf v b); reflexivity | reflexivity]). rewrite Cs, cnt_nil in M.
    destruct D as [Hp|(-> & _ & _)].
    + rewrite Hp in M. rewrite cnt_cons, one_self in M. lia.
    + assert (Z : H s (length (s_opened s)) = 0%nat) by (destruct (H s (length (s_opened s))) eqn:Eh; [reflexivity | pose proof (a_fresh _ _ Iv (length (s_opened s)) ltac:(lia)); lia]). lia.
Qed.

Lemma excl_step s s' t tr : coarse s s' t -> invA s tr -> exclusive (tr ++ t).
Proof.
  intros Q Iv t1 i a t2 k b t3 E Ec N.
  change (t1 ++ EAct i a :: t2 ++ EAct k b :: t3) with (t1 ++ (EAct i a :: t2) ++ EAct k b :: t3) in E. rewrite app_assoc in E.
  destruct (split_app tr t (t1 ++ EAct i a :: t2) t3 (EAct k b) E) as [(m & Et & _)|(m & E1 & E2)].
  - apply (a_excl _ _ Iv t1 i a t2 k b m); [rewrite Et, <- app_assoc; reflexivity | exact Ec | exact N].
  - symmetry in E1. destruct (split_app tr m t1 t2 (EAct i a) E1) as [(m' & Et & Em)|(m' & _ & Em)].
    + subst t2. destruct (released_dec i (act_conn a) m') as [(addr & I)|Nr]; [exists addr; apply in_or_app; auto|]. exfalso.
      assert (So : sole i (act_conn a) s) by (apply (a_sole _ _ Iv); exists t1, a, m'; auto). destruct So as [L S].
      assert (I : In (EAct k b) t) by (rewrite E2; apply in_or_app; right; left; reflexivity).
      destruct (coarse_act _ _ _ _ _ Q I) as (pc & c0 & x & cs & op & pre & ts & rs & En & Eb & Fa & Pe & _ & D). rewrite <- Ec in Eb. subst c0. destruct D as [Hp|(E' & _)]; [|lia].
      pose proof (held_at2_le i k s (act_conn a) N) as L2. unfold held_at at 2 in L2. rewrite En, Hp, cnt_cons, one_self in L2. lia.
    + exfalso. assert (I : In (EAct k b) t) by (rewrite E2; apply in_or_app; right; left; reflexivity).
      assert (I' : In (EAct i a) t) by (rewrite E2, Em; apply in_or_app; left; apply in_or_app; right; left; reflexivity).
      destruct (coarse_act _ _ _ _ _ Q I) as (pc & c0 & x & cs & op & pre & ts & rs & En & Eb & Fa & Pe & _ & D).
      destruct (poll_events_act _ _ _ _ _ _ _ _ Pe I') as [E' _]. congruence.
Qed.

Theorem invA_step s s' t tr : invA s tr -> coarse s s' t -> invA s' (tr ++ t).
Proof.
  intros Iv Q. assert (New : forall c, (0 < H s' c)%nat -> (c < length (s_opened s'))%nat /\ (H s' c <= 1)%nat).
  { intros c P. destruct (Nat.lt_ge_cases c (length (s_opened s))) as [L|L].
    - pose proof (coarse_H s s' t c Q L). pose proof (a_once _ _ Iv c). destruct (coarse_opened s s' t Q) as [op ->]. rewrite app_length. lia.
    - destruct (coarse_new s s' t c Q (a_fresh _ _ Iv) L P). lia. }
  destruct (wait_step s s' t Q (a_gone _ _ Iv) (a_wait _ _ Iv)) as [G W]. constructor.
  - exact (keeps_step s s' t (a_keeps _ _ Iv) Q).
  - intros c. destruct (H s' c) eqn:E; [lia|]. destruct (New c ltac:(lia)). lia.
  - intros c P. apply New. exact P.
  - exact G.
  - exact W.
  - exact (use_step s s' t tr Q (a_use _ _ Iv)).
  - intros i c Us. apply in_use_app in Us. destruct Us as [[Us Nr]|Us]; [|exact (sole_new s s' t tr i c Q Iv Us)].
    exact (sole_step s s' t tr i c Q Iv (a_sole _ _ Iv i c Us) Nr).
  - exact (excl_step s s' t tr Q Iv).
Qed.

Lemma nth_nil {A} i : nth_error (@nil A) i = None.
Proof. destruct i; reflexivity. Qed.
Lemma invA_new size d : invA (psys_new size d) [].
Proof.
  assert (Hz : forall c, H (psys_new size d) c = 0%nat) by reflexivity.
  constructor.
  - intros i x E. unfold state_of, psys_new in E. cbn [s_calls] in E. rewrite nth_nil in E. discriminate.
  - intros c. rewrite Hz. lia.
  - intros c. rewrite Hz. lia.
  - discriminate.
  - intros i _ E. unfold state_of, psys_new in E. cbn [s_calls] in E. rewrite nth_nil in E. discriminate.
  - intros i. unfold use_ok, state_of, psys_new. cbn [s_calls]. rewrite nth_nil. cbn. auto.
  - intros i c ([|] & a & t2 & E & _); discriminate.
  - intros [|] i a t2 j b t3 E; discriminate.
Qed.

Theorem invA_run ls : forall s tr, Forall honest_label ls -> invA s tr -> let '(s', t) := prun tmax checks ls s in invA s' (tr ++ t).
Proof.
  induction ls as [|l ls IH]; intros s tr Fh Iv; cbn [prun]; [rewrite app_nil_r; exact Iv|]. inversion Fh as [|? ? Hl Fh']; subst.
  destruct (pstep tmax checks l s) as [[s1 t]|] eqn:E; [|apply IH; assumption].
  assert (Iv1 : invA s1 (tr ++ t)) by (eapply invA_step; [exact Iv | eapply effect_coarse, step_effect; try eassumption; apply (a_keeps _ _ Iv)]).
  specialize (IH s1 (tr ++ t) Fh' Iv1). destruct (prun tmax checks ls s1) as [s' t']. rewrite app_assoc. exact IH.
Qed.
End Inv.
