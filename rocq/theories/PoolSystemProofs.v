(** * Proofs about a pool and its calls. *)
From Coq Require Import Sorting.Permutation.
From Verif Require Import Base Serde Procedure Router SerRequest DeHeader DeResponse DepUrl Error Client ClientSpec ClientProofs Pool PoolSpec PoolProofs PoolSystem PoolSystemSpec.
Open Scope N_scope.

(** ** Counting connections *)
Definition cnt (c : conn) (l : list conn) : nat := count_occ Nat.eq_dec l c.
Lemma cnt_app c l1 l2 : cnt c (l1 ++ l2) = (cnt c l1 + cnt c l2)%nat.
Proof. apply count_occ_app. Qed.
Lemma cnt_in c l : In c l <-> (0 < cnt c l)%nat.
Proof. apply count_occ_In. Qed.
Lemma cnt_nil c : cnt c [] = 0%nat.
Proof. reflexivity. Qed.
Definition one (x c : conn) : nat := if Nat.eq_dec x c then 1 else 0.
Lemma cnt_cons c x l : cnt c (x :: l) = (one x c + cnt c l)%nat.
Proof. unfold cnt, one. cbn. destruct (Nat.eq_dec x c); reflexivity. Qed.
Lemma one_self c : one c c = 1%nat.
Proof. unfold one. destruct (Nat.eq_dec c c); congruence. Qed.
Lemma one_other x c : x <> c -> one x c = 0%nat.
Proof. unfold one. destruct (Nat.eq_dec x c); congruence. Qed.

Section Count.
  Context {K : Type} (cmp : K -> K -> comparison).
  Implicit Types l : list (K * conn).
  Lemma insert_cnt c k v l : (cnt c (map snd (bt_insert cmp k v l)) <= cnt c [v] + cnt c (map snd l))%nat.
  Proof.
    induction l as [|[k' v'] l IH]; cbn [bt_insert map snd]; [rewrite cnt_nil; lia|]. destruct (cmp k k'); cbn [map snd]; rewrite !cnt_cons in *; lia.
  Qed.
  Lemma remove_cnt c k l : (cnt c (match fst (bt_remove cmp k l) with Some v => [v] | None => [] end) + cnt c (map snd (snd (bt_remove cmp k l))) = cnt c (map snd l))%nat.
  Proof.
    induction l as [|[k' v'] l IH]; cbn [bt_remove map snd fst]; [reflexivity|]. destruct (cmp k k'); cbn [map snd fst].
    - rewrite !cnt_cons. rewrite cnt_nil. lia.
    - reflexivity.
    - destruct (bt_remove cmp k l) as [o r]. cbn [map snd fst] in *. rewrite !cnt_cons. lia.
  Qed.
End Count.

Definition given (a : answer conn) : list conn := match a with Idle c => [c] | _ => [] end.
Definition answered (o : option (nat * answer conn)) : list conn := match o with Some (_, a) => given a | None => [] end.
Lemma acquire_cnt a p x p' c : acquire_connection (C := conn) a p = Ok (x, p') -> (cnt c (given x) + cnt c (map snd (p_conns p')) <= cnt c (map snd (p_conns p)))%nat.
Proof.
  unfold acquire_connection. destruct (bt_from cid_cmp (mkCid a 0) (p_conns p)) as [|[id c0] r]; [intros [= <- <-]; cbn [given]; rewrite cnt_nil; lia|].
  destruct (saddr_eqb (id_addr id) a); [|intros [= <- <-]; cbn [given]; rewrite cnt_nil; lia].
  pose proof (remove_cnt cid_cmp c id (p_conns p)) as L. destruct (bt_remove cid_cmp id (p_conns p)) as [[y|] conns]; [|discriminate].
  intros [= <- <-]. cbn [given p_conns fst snd] in *. lia.
Qed.
Lemma drop_cnt c : forall fuel (p p' : pool conn), drop_exceeded fuel p = Ok p' -> (cnt c (map snd (p_conns p')) <= cnt c (map snd (p_conns p)))%nat.
Proof.
  induction fuel as [|fuel IH]; intros p p'; cbn [drop_exceeded]; [discriminate|].
  destruct (N.ltb_spec (p_size p) (N.of_nat (length (p_conns p)))) as [Lt|Ge]; [|intros [= <-]; auto].
  destruct (p_lru p) as [|[s a] r]; [discriminate|]. intros E. specialize (IH _ _ E). cbn [p_conns] in IH.
  pose proof (remove_cnt cid_cmp c (mkCid a s) (p_conns p)). lia.
Qed.
Lemma handle_cnt tmax checks now cmd (p : pool conn) o p' c : handle_command tmax checks now cmd p = Ok (o, p') ->
  (cnt c (answered o) + cnt c (map snd (p_conns p')) <= cnt c (carried cmd) + cnt c (map snd (p_conns p)))%nat.
Proof.
  destruct cmd as [a i|a x|a]; cbn [handle_command carried].
  - destruct (hm_remove a (p_black p)) as [[t|] black].
    + destruct (now <? t)%Z; [intros [= <- <-]; apply le_n|]. destruct (acquire_connection a _) as [[x q]| | |] eqn:E; cbn [bind]; try discriminate.
      intros [= <- <-]. apply (acquire_cnt _ _ _ _ c) in E. cbn [answered p_conns] in *. lia.
    + destruct (acquire_connection a _) as [[x q]| | |] eqn:E; cbn [bind]; try discriminate.
      intros [= <- <-]. apply (acquire_cnt _ _ _ _ c) in E. cbn [answered p_conns] in *. lia.
  - unfold release_connection. destruct (next_seq checks (p_seq p)) as [n| | |]; cbn [bind]; try discriminate.
    destruct (drop_exceeded _ _) as [q| | |] eqn:E; cbn [bind]; try discriminate. intros [= <- <-].
    apply (drop_cnt c) in E. cbn [p_conns answered id_seq id_addr] in *. pose proof (insert_cnt cid_cmp c (mkCid a (p_seq p)) x (p_conns p)). rewrite cnt_nil. lia.
  - destruct (now + p_susp p <=? tmax)%Z; [|discriminate]. intros [= <- <-]. apply le_n.
Qed.

Section Proofs.
Context {F : floatlib} {U : urlenv}.
Variables (tmax : Z) (checks : bool).

(** ** The inner call keeps its connection *)
Definition keeps (c : conn) (k : call conn) : Prop :=
  match k_phase k with
  | PhA f | PhB f => forall c', settle f = Comes c' -> c' = c
  | PhC f => forall r, settle f = Comes r -> r_conn r = c
  | PhD f => forall r b, settle f = Comes (r, b) -> r_conn r = c
  end.
Definition kept (c : conn) (r : list (act conn) * res (outcome conn)) : Prop :=
  Forall (fun a => act_conn a = c) (fst r) /\
  match snd r with Ok (Pending k) => keeps c k | Ok (Done _ _ c') => c' = c | _ => True end.
Lemma poll_keeps w p c : honest w -> forall fuel k, keeps c k -> kept c (poll w p fuel k).
Proof.
  intros (Hw & Hh & Hb). induction fuel as [|fuel IH]; intros k K; cbn [poll]; [split; constructor|].
  destruct k as [rq ph]. unfold keeps in K. cbn [k_phase k_request] in *. destruct ph as [f|f|f|f]; cbn [phase_poll].
  - destruct f as [c0|e|f|]; cbn [fpoll settle] in *; try (split; [constructor | exact I]).
    + specialize (K c0 eq_refl). subst c0. destruct (on_connected p rq c) as [[r b]|e| |]; try (split; constructor).
      pose proof (IH (mkCall None (PhB (w_write w r b c))) (Hw r b c)) as [Q1 Q2].
      destruct (poll w p fuel _) as [t o]. split; [constructor; [reflexivity | exact Q1] | exact Q2].
    + split; [constructor | exact K].
    + split; [constructor|]. intros c' E. discriminate E.
  - destruct f as [c0|e|f|]; cbn [fpoll settle] in *; try (split; [constructor | exact I]).
    + specialize (K c0 eq_refl). subst c0. pose proof (IH (mkCall rq (PhC (w_head w c))) (Hh c)) as [Q1 Q2].
      destruct (poll w p fuel _) as [t o]. split; [constructor; [reflexivity | exact Q1] | exact Q2].
    + split; [constructor | exact K].
    + split; [constructor|]. intros c' E. discriminate E.
  - destruct f as [r|e|f|]; cbn [fpoll settle] in *; try (split; [constructor | exact I]).
    + specialize (K r eq_refl). destruct (is_head p).
      * apply IH. intros r0 b0 [= <- <-]. exact K.
      * assert (K' : keeps c (mkCall rq (PhD (w_body w r)))) by (intros r0 b0 E; rewrite (Hb _ _ _ E); exact K).
        pose proof (IH _ K') as [Q1 Q2]. destruct (poll w p fuel _) as [t o]. split; [constructor; [exact K | exact Q1] | exact Q2].
    + split; [constructor | exact K].
    + split; [constructor|]. intros c' E. discriminate E.
  - destruct f as [[r b]|e|f|]; cbn [fpoll settle] in *; try (split; [constructor | exact I]).
    + specialize (K r b eq_refl). split; [constructor|]. cbn [snd]. destruct (on_received p r); cbn [bind]; try exact I. exact K.
    + split; [constructor | exact K].
    + split; [constructor|]. intros r b E. discriminate E.
Qed.

(** ** Lists of calls *)
Lemma set_length i x l : length (set_state i x l) = length l.
Proof. revert i. induction l as [|c l IH]; intros [|i]; cbn; auto. Qed.
Lemma set_nth i x l j : nth_error (set_state i x l) j =
  if Nat.eqb i j then option_map (fun c => mkPcall (c_addr c) (c_proc c) (c_req c) x) (nth_error l j) else nth_error l j.
Proof.
  revert i j. induction l as [|c l IH]; intros [|i] [|j]; cbn [set_state nth_error Nat.eqb option_map]; try reflexivity.
  - destruct (Nat.eqb i j); reflexivity.
  - apply IH.
Qed.
Definition held_in (x : cstate) : list conn := match x with Acquiring (Some (PIdle c)) => [c] | Talking c _ => [c] | _ => [] end.
Lemma held_eq pc : held pc = held_in (c_state pc).
Proof. reflexivity. Qed.
Lemma set_cnt c i x l pc : nth_error l i = Some pc ->
  (cnt c (flat_map held (set_state i x l)) + cnt c (held pc) = cnt c (flat_map held l) + cnt c (held_in x))%nat.
Proof.
  revert i. induction l as [|c0 l IH]; intros [|i]; cbn [nth_error set_state flat_map]; try discriminate.
  - intros [= ->]. rewrite !cnt_app. change (held (mkPcall (c_addr pc) (c_proc pc) (c_req pc) x)) with (held_in x). lia.
  - intros E. specialize (IH i E). rewrite !cnt_app. lia.
Qed.
Lemma nth_cnt c l i pc : nth_error l i = Some pc -> (cnt c (held pc) <= cnt c (flat_map held l))%nat.
Proof.
  revert i. induction l as [|c0 l IH]; intros [|i]; cbn [nth_error flat_map]; try discriminate.
  - intros [= ->]. rewrite cnt_app. lia.
  - intros E. specialize (IH i E). rewrite cnt_app. lia.
Qed.
Lemma nth2_cnt c l i j pc pc' : nth_error l i = Some pc -> nth_error l j = Some pc' -> i <> j ->
  (cnt c (held pc) + cnt c (held pc') <= cnt c (flat_map held l))%nat.
Proof.
  revert i j. induction l as [|c0 l IH]; intros [|i] [|j]; cbn [nth_error flat_map]; try discriminate; try congruence.
  - intros [= ->] E _. pose proof (nth_cnt c l j pc' E). rewrite cnt_app. lia.
  - intros E [= ->] _. pose proof (nth_cnt c l i pc E). rewrite cnt_app. lia.
  - intros E E' N. specialize (IH i j E E' ltac:(congruence)). rewrite cnt_app. lia.
Qed.

(** ** The steps *)
Definition queue_after (s : psys) (cs : list (command conn)) : list (command conn) :=
  match s_pool s with Some _ => s_queue s ++ cs | None => s_queue s end.
Lemma send_eq c s : send c s = mkPsys (s_pool s) (queue_after s [c]) (s_calls s) (s_opened s).
Proof. unfold send, queue_after. destruct s as [[p|] q cs o]; reflexivity. Qed.
Lemma queue_after_nil s : queue_after s [] = s_queue s.
Proof. unfold queue_after. rewrite app_nil_r. destruct (s_pool s); reflexivity. Qed.

(** States that hold nothing and are final. *)
Definition dead (x : cstate) : Prop := match x with Broken _ | Dropped | Panicked => True | _ => False end.
Definition wait_state (a a' : option pooled) : Prop :=
  match a, a' with None, None => True | Some (PConnect _), Some (PConnect _) => True | _, _ => False end.

(** What happens to the connection a call uses in a poll, and the state the call is in then. *)
Inductive fate (i : nat) (addr : saddr) (c : conn) : cstate -> list (command conn) -> list pevent -> Prop :=
| f_talking k : keeps c k -> fate i addr c (Talking c k) [] []
| f_finished v b : fate i addr c (Finished v b) [ReleaseConnection addr c] [ERelease i addr c]
| f_dead x : dead x -> fate i addr c x [] [].

Definition alive (x : cstate) : Prop := match x with Talking _ _ | Finished _ _ => True | _ => False end.
Inductive effect (s : psys) : plabel -> psys -> list pevent -> Prop :=
| e_call addr p req : effect s (LCall addr p req)
    (mkPsys (s_pool s) (queue_after s [AcquireConnection addr (length (s_calls s))]) (s_calls s ++ [mkPcall addr p req (Acquiring None)]) (s_opened s)) []
| e_pool now f p c q o p' : s_pool s = Some p -> s_queue s = c :: q -> handle_command tmax checks now c p = Ok (o, p') ->
    effect s (LPool now f) (let s1 := mkPsys (Some p') q (s_calls s) (s_opened s) in match o with Some (i, a) => reply i (to_pooled a f) s1 | None => s1 end) []
| e_dies now f p c q : s_pool s = Some p -> s_queue s = c :: q -> (forall x, handle_command tmax checks now c p <> Ok x) -> effect s (LPool now f) (pool_gone s) []
| e_dropped p : s_pool s = Some p -> effect s LPoolDrop (pool_gone s) []
| e_waits i w pc a a' : nth_error (s_calls s) i = Some pc -> c_state pc = Acquiring a -> wait_state a a' -> (a = None -> pending i (s_queue s) = true) ->
    effect s (LPoll i w) (put_state i (Acquiring a') s) []
| e_fails i w pc a e : nth_error (s_calls s) i = Some pc -> c_state pc = Acquiring a ->
    (a = None /\ pending i (s_queue s) = false /\ e = Other \/ a = Some PSuspended /\ e = Other) ->
    effect s (LPoll i w) (put_state i (Broken e) s) []
| e_unreached i w pc f x : nth_error (s_calls s) i = Some pc -> c_state pc = Acquiring (Some (PConnect f)) -> f = Failed x ->
    effect s (LPoll i w) (mkPsys (s_pool s) (queue_after s [AddToBlacklist (c_addr pc)]) (set_state i (Broken (error_of x)) (s_calls s)) (s_opened s)) [EBlacklist i (c_addr pc)]
| e_opens i w pc x cs ts rs : nth_error (s_calls s) i = Some pc -> c_state pc = Acquiring (Some (PConnect (Ready tt))) ->
    Forall (fun a => act_conn a = length (s_opened s)) ts -> fate i (c_addr pc) (length (s_opened s)) x cs rs -> (alive x -> ts <> []) ->
    effect s (LPoll i w) (mkPsys (s_pool s) (queue_after s cs) (set_state i x (s_calls s)) (s_opened s ++ [c_addr pc]))
      (EOpen (length (s_opened s)) (c_addr pc) :: map (EAct i) ts ++ rs)
| e_uses i w pc c x cs ts rs : nth_error (s_calls s) i = Some pc -> held pc = [c] ->
    Forall (fun a => act_conn a = c) ts -> fate i (c_addr pc) c x cs rs -> (alive x -> c_state pc = Acquiring (Some (PIdle c)) -> ts <> []) ->
    effect s (LPoll i w) (mkPsys (s_pool s) (queue_after s cs) (set_state i x (s_calls s)) (s_opened s)) (map (EAct i) ts ++ rs)
| e_drops i pc : nth_error (s_calls s) i = Some pc -> (exists a, c_state pc = Acquiring a) \/ (exists c k, c_state pc = Talking c k) ->
    effect s (LDrop i) (put_state i Dropped s) [].

Definition keeps_state (x : cstate) : Prop := match x with Talking c k => keeps c k | _ => True end.
Definition keeps_all (s : psys) : Prop := forall i x, state_of i s = Some x -> keeps_state x.

Lemma first_poll w p req c : match snd (poll_call (Conn := conn) w p (call_new req (Ready c))) with Ok _ => fst (poll_call w p (call_new req (Ready c))) <> [] | _ => True end.
Proof.
  unfold poll_call, call_new. generalize 4%nat as n. intros n. cbn [poll k_phase k_request phase_poll fpoll]. destruct (on_connected p (Some req) c) as [[r b]|e| |]; try exact I.
  destruct (poll w p n _) as [t o]. cbn [fst snd]. destruct o; try exact I. discriminate.
Qed.

Lemma inner_fate i pc c r s : kept c r -> exists x cs ts rs,
  inner_result i pc c r s = (mkPsys (s_pool s) (queue_after s cs) (set_state i x (s_calls s)) (s_opened s), map (EAct i) ts ++ rs) /\
  Forall (fun a => act_conn a = c) ts /\ fate i (c_addr pc) c x cs rs /\ (match snd r with Ok _ => fst r <> [] | _ => True end -> alive x -> ts <> []).
Proof.
  destruct r as [ts o]. intros [K1 K2]. cbn [fst snd] in *. unfold inner_result. destruct o as [[k|v b c']|e| |].
  - exists (Talking c k), [], ts, []. rewrite queue_after_nil, app_nil_r. split; [reflexivity|]. split; [exact K1|]. split; [constructor; exact K2 | auto].
  - subst c'. exists (Finished v b), [ReleaseConnection (c_addr pc) c], ts, [ERelease i (c_addr pc) c]. rewrite send_eq. split; [reflexivity|]. split; [exact K1|]. split; [constructor | auto].
  - exists (Broken e), [], ts, []. rewrite queue_after_nil, app_nil_r. split; [reflexivity|]. split; [exact K1|]. split; [constructor; exact I | intros _ []].
  - exists Panicked, [], ts, []. rewrite queue_after_nil, app_nil_r. split; [reflexivity|]. split; [exact K1|]. split; [constructor; exact I | intros _ []].
  - exists Panicked, [], ts, []. rewrite queue_after_nil, app_nil_r. split; [reflexivity|]. split; [exact K1|]. split; [constructor; exact I | intros _ []].
Qed.

Lemma error_wrapped e : error_of (FromPhase IxA (FromError (error_of e))) = error_of e.
Proof. reflexivity. Qed.

Lemma step_effect l s s' t : keeps_all s -> honest_label l -> pstep tmax checks l s = Some (s', t) -> effect s l s' t.
Proof.
  intros Ka Hl. destruct l as [addr p req|now f| |i w|i]; cbn [pstep].
  - intros [= <- <-]. rewrite send_eq. cbn. unfold queue_after. cbn. fold (queue_after s [AcquireConnection addr (length (s_calls s))]). constructor.
  - destruct (s_pool s) as [p|] eqn:Ep; [|discriminate]. destruct (s_queue s) as [|c q] eqn:Eq; [discriminate|].
    destruct (handle_command tmax checks now c p) as [[o p']|e| |] eqn:E; intros [= <- <-]; try (eapply e_dies; [eassumption | eassumption | intros x; rewrite E; discriminate]).
    exact (e_pool s now f p c q o p' Ep Eq E).
  - destruct (s_pool s) as [p|] eqn:Ep; [|discriminate]. intros [= <- <-]. eapply e_dropped; eassumption.
  - destruct (nth_error (s_calls s) i) as [pc|] eqn:En; [|discriminate]. unfold poll_pooled. destruct (c_state pc) as [a|c k|v b|k| |] eqn:Es; try discriminate.
    + destruct a as [[|c|f]|]; cbn [acquire_poll].
      * intros [= <- <-]. eapply e_fails; [eassumption | eassumption |]. right. auto.
      * intros E. assert (K : kept c (poll_call w (c_proc pc) (call_new (c_req pc) (Ready c)))) by (apply poll_keeps; [exact Hl|]; intros c' [= <-]; reflexivity).
        destruct (inner_fate i pc c _ s K) as (x & cs & ts & rs & Ei & F1 & F2 & F3). rewrite Ei in E. injection E as <- <-.
        eapply e_uses; try eassumption; [unfold held; rewrite Es; reflexivity|]. intros A _. exact (F3 (first_poll w (c_proc pc) (c_req pc) c) A).
      * destruct f as [[]|e|f|]; cbn [fpoll].
        -- cbv zeta. set (s1 := mkPsys (s_pool s) (s_queue s) (s_calls s) (s_opened s ++ [c_addr pc])). assert (K : kept (length (s_opened s)) (poll_call (Conn := conn) w (c_proc pc) (call_new (Conn := conn) (c_req pc) (Ready (A := conn) (length (s_opened s)))))) by (apply poll_keeps; [exact Hl|]; intros c' [= <-]; reflexivity).
           destruct (inner_fate i pc _ _ s1 K) as (x & cs & ts & rs & Ei & F1 & F2 & F3). rewrite Ei. intros [= <- <-].
           exact (e_opens s i w pc x cs ts rs En Es F1 F2 (F3 (first_poll w (c_proc pc) (c_req pc) _))).
        -- intros [= <- <-]. rewrite send_eq. cbn. unfold queue_after. cbn. fold (queue_after s [AddToBlacklist (c_addr pc)]). eapply e_unreached; [eassumption | eassumption | reflexivity].
        -- intros [= <- <-]. eapply e_waits; [eassumption | eassumption | exact I | discriminate].
        -- intros [= <- <-]. eapply e_waits; [eassumption | eassumption | exact I | discriminate].
      * destruct (pending i (s_queue s)) eqn:Ed; intros [= <- <-].
        -- eapply e_waits; [eassumption | eassumption | exact I | auto].
        -- eapply e_fails; [eassumption | eassumption |]. left. auto.
    + intros E. assert (K : kept c (poll_call w (c_proc pc) k)).
      { apply poll_keeps; [exact Hl|]. specialize (Ka i (Talking c k)). unfold state_of in Ka. rewrite En in Ka. cbn [option_map] in Ka. rewrite Es in Ka. exact (Ka eq_refl). }
      destruct (inner_fate i pc c _ s K) as (x & cs & ts & rs & Ei & F1 & F2 & F3). rewrite Ei in E. injection E as <- <-.
      eapply e_uses; try eassumption; [unfold held; rewrite Es; reflexivity|]. rewrite Es. discriminate.
  - destruct (nth_error (s_calls s) i) as [pc|] eqn:En; [|discriminate]. destruct (c_state pc) as [a|c k|v b|k| |] eqn:Es; try discriminate;
      intros [= <- <-]; eapply e_drops; eauto.
Qed.

(** ** Who holds a connection *)
Definition H (s : psys) (c : conn) : nat := (cnt c (flat_map held (s_calls s)) + cnt c (flat_map carried (s_queue s)) + cnt c (idle_conns (s_pool s)))%nat.
Lemma holders_cnt s c : cnt c (holders s) = H s c.
Proof. unfold holders, H. rewrite !cnt_app. lia. Qed.
Definition held_at (i : nat) (s : psys) : list conn := match nth_error (s_calls s) i with Some pc => held pc | None => [] end.
Lemma held_at_le i s c : (cnt c (held_at i s) <= H s c)%nat.
Proof. unfold held_at, H. destruct (nth_error (s_calls s) i) as [pc|] eqn:E; [pose proof (nth_cnt c _ _ _ E); lia | rewrite cnt_nil; lia]. Qed.
Lemma held_at2_le i j s c : i <> j -> (cnt c (held_at i s) + cnt c (held_at j s) <= H s c)%nat.
Proof.
  intros N. pose proof (held_at_le i s c) as A. pose proof (held_at_le j s c) as B. revert A B. unfold held_at, H. destruct (nth_error (s_calls s) i) as [pc|] eqn:E; [|rewrite cnt_nil; lia].
  destruct (nth_error (s_calls s) j) as [pc'|] eqn:E'; [|rewrite cnt_nil; lia]. pose proof (nth2_cnt c _ _ _ _ _ E E' N). lia.
Qed.

Lemma queue_after_cnt s cs c : (cnt c (flat_map carried (queue_after s cs)) <= cnt c (flat_map carried (s_queue s)) + cnt c (flat_map carried cs))%nat.
Proof. unfold queue_after. destruct (s_pool s); [rewrite flat_map_app, cnt_app|]; lia. Qed.

(** A call changes state and perhaps sends commands. *)
Definition moved (j : nat) (x : cstate) (cs : list (command conn)) (op : list saddr) (s : psys) : psys :=
  mkPsys (s_pool s) (queue_after s cs) (set_state j x (s_calls s)) (s_opened s ++ op).
Lemma moved_H j x cs op s pc c : nth_error (s_calls s) j = Some pc ->
  (H (moved j x cs op s) c + cnt c (held pc) <= H s c + cnt c (held_in x) + cnt c (flat_map carried cs))%nat.
Proof.
  intros E. unfold H, moved. cbn [s_calls s_queue s_pool]. pose proof (set_cnt c j x _ _ E). pose proof (queue_after_cnt s cs c). lia.
Qed.
Lemma moved_held_at j x cs op s i : held_at i (moved j x cs op s) = if Nat.eqb j i then match nth_error (s_calls s) i with Some _ => held_in x | None => [] end else held_at i s.
Proof.
  unfold held_at, moved. cbn [s_calls]. rewrite set_nth. destruct (Nat.eqb j i); [|reflexivity]. destruct (nth_error (s_calls s) i); reflexivity.
Qed.
Lemma moved_state j x cs op s i : state_of i (moved j x cs op s) = if Nat.eqb j i then option_map (fun _ => x) (nth_error (s_calls s) i) else state_of i s.
Proof.
  unfold state_of, moved. cbn [s_calls]. rewrite set_nth. destruct (Nat.eqb j i); [|reflexivity]. destruct (nth_error (s_calls s) i); reflexivity.
Qed.
Lemma moved_addr j x cs op s i : addr_of i (moved j x cs op s) = addr_of i s.
Proof.
  unfold addr_of, moved. cbn [s_calls]. rewrite set_nth. destruct (Nat.eqb j i); [|reflexivity]. destruct (nth_error (s_calls s) i); reflexivity.
Qed.
Lemma put_moved j x s : put_state j x s = moved j x [] [] s.
Proof. unfold put_state, moved. rewrite queue_after_nil, app_nil_r. reflexivity. Qed.

Lemma fate_cnt i addr c x cs rs d : fate i addr c x cs rs -> (cnt d (held_in x) + cnt d (flat_map carried cs) <= one c d)%nat.
Proof.
  intros Fa. destruct Fa as [k K|v b|x D].
  - cbn [held_in flat_map]. rewrite cnt_cons, !cnt_nil. lia.
  - cbn [held_in flat_map carried app]. rewrite cnt_cons, !cnt_nil. lia.
  - assert (Eh : held_in x = []) by (destruct x; try contradiction; reflexivity). rewrite Eh. cbn [flat_map]. rewrite !cnt_nil. lia.
Qed.

(** Handling a command. *)
Lemma reply_cases i a s : reply i a s = s \/ (state_of i s = Some (Acquiring None) /\ reply i a s = put_state i (Acquiring (Some a)) s).
Proof.
  unfold reply, state_of. destruct (nth_error (s_calls s) i) as [pc|]; [|auto]. cbn [option_map]. destruct (c_state pc) as [[a0|]| | | | |]; auto.
Qed.
Lemma to_pooled_held a f : held_in (Acquiring (Some (to_pooled a f))) = given a.
Proof. destruct a; reflexivity. Qed.

Definition after_command (s : psys) (p' : pool conn) (q : list (command conn)) (o : option (nat * answer conn)) (f : fut unit) : psys :=
  let s1 := mkPsys (Some p') q (s_calls s) (s_opened s) in match o with Some (i, a) => reply i (to_pooled a f) s1 | None => s1 end.
Lemma after_command_H now f p c q o p' s d : s_pool s = Some p -> s_queue s = c :: q -> handle_command tmax checks now c p = Ok (o, p') ->
  (H (after_command s p' q o f) d <= H s d)%nat.
Proof.
  intros Ep Eq E. pose proof (handle_cnt _ _ _ _ _ _ _ d E) as L. unfold after_command. set (s1 := mkPsys (Some p') q (s_calls s) (s_opened s)).
  assert (A : (H s1 d + cnt d (answered o) <= H s d)%nat).
  { unfold H, s1. cbn [s_calls s_queue s_pool idle_conns]. rewrite Eq, Ep. cbn [flat_map idle_conns]. rewrite cnt_app. lia. }
  destruct o as [[i a]|]; [|cbn [answered] in A; rewrite cnt_nil in A; lia]. destruct (reply_cases i (to_pooled a f) s1) as [->|[Es ->]]; [lia|].
  unfold state_of in Es. destruct (nth_error (s_calls s1) i) as [pc|] eqn:En; [|discriminate]. cbn [option_map] in Es. injection Es as Es.
  rewrite put_moved. pose proof (moved_H i (Acquiring (Some (to_pooled a f))) [] [] s1 pc d En) as M. rewrite to_pooled_held in M. cbn [answered] in A. cbn [flat_map] in M. rewrite cnt_nil in M. lia.
Qed.

(** ** Traces *)
Lemma split_app {A} (tr ev t1 t2 : list A) x : tr ++ ev = t1 ++ x :: t2 ->
  (exists m, tr = t1 ++ x :: m /\ t2 = m ++ ev) \/ (exists m, t1 = tr ++ m /\ ev = m ++ x :: t2).
Proof.
  revert t1. induction tr as [|y tr IH]; intros t1 E; [right; exists t1; auto|]. destruct t1 as [|z t1]; cbn [app] in E; injection E as -> E.
  - left. exists tr. auto.
  - destruct (IH t1 E) as [(m & -> & ->)|(m & -> & ->)]; [left | right]; exists m; auto.
Qed.
Lemma last_after {A} (l m t : list A) r x : x <> r -> l ++ [r] = m ++ x :: t -> In r t.
Proof.
  intros N E. destruct t as [|y t0]; [apply app_inj_tail in E; destruct E; congruence|].
  destruct (exists_last (l := y :: t0) ltac:(discriminate)) as (t & z & Ez). rewrite Ez in *. clear y t0 Ez.
  change (x :: t ++ [z]) with ((x :: t) ++ [z]) in E. rewrite app_assoc in E. apply app_inj_tail in E. destruct E as [_ <-]. apply in_or_app. right. left. reflexivity.
Qed.

Definition in_use (i : nat) (c : conn) (tr : list pevent) : Prop := exists t1 a t2, tr = t1 ++ EAct i a :: t2 /\ act_conn a = c /\ forall addr, ~ In (ERelease i addr c) t2.
Definition sole (i : nat) (c : conn) (s : psys) : Prop := (c < length (s_opened s))%nat /\ (H s c <= cnt c (held_at i s))%nat.

Lemma released_app i t1 t2 : released i (t1 ++ t2) = released i t1 ++ released i t2.
Proof. induction t1 as [|[] t1 IH]; cbn [app released]; auto. destruct (Nat.eqb i i0); cbn [app]; congruence. Qed.
Lemma used_app i t1 t2 : used i (t1 ++ t2) = used i t1 ++ used i t2.
Proof. induction t1 as [|[] t1 IH]; cbn [app used]; auto. destruct (Nat.eqb i i0); cbn [app]; congruence. Qed.
Lemma released_in i tr addr c : In (ERelease i addr c) tr <-> In (addr, c) (released i tr).
Proof.
  induction tr as [|e tr IH]; [split; intros []|]. cbn [In]. rewrite IH. destruct e as [c0 a0|j a|j a0 c0|j a0]; cbn [released]; try (split; [intros [E|I]; [discriminate | exact I] | auto]).
  destruct (Nat.eqb_spec i j) as [->|N]; cbn [In].
  - split; (intros [E|I]; [left; congruence | auto]).
  - split; [intros [E|I]; [congruence | exact I] | auto].
Qed.
Lemma released_dec i c tr : (exists addr, In (ERelease i addr c) tr) \/ (forall addr, ~ In (ERelease i addr c) tr).
Proof.
  destruct (in_dec Nat.eq_dec c (map snd (released i tr))) as [I|N].
  - left. apply in_map_iff in I. destruct I as ([addr c'] & <- & I). exists addr. apply released_in. exact I.
  - right. intros addr I. apply N. apply released_in in I. apply in_map_iff. exists (addr, c). auto.
Qed.

Lemma acts_used i j ts : used i (map (EAct j) ts) = if Nat.eqb i j then map act_conn ts else [].
Proof. induction ts as [|a ts IH]; cbn [map used]; [destruct (Nat.eqb i j); reflexivity|]. rewrite IH. destruct (Nat.eqb i j); reflexivity. Qed.
Lemma acts_released i j ts : released i (map (EAct j) ts) = [].
Proof. induction ts as [|a ts IH]; cbn [map released]; auto. Qed.
Lemma fate_used i addr c x cs rs k : fate i addr c x cs rs -> used k rs = [].
Proof. intros Fa. destruct Fa; reflexivity. Qed.

(** The events of a poll that uses connection [c]. *)
Definition poll_events (j : nat) (c : conn) (pre : list pevent) (ts : list (act conn)) (rs ev : list pevent) : Prop :=
  ev = pre ++ map (EAct j) ts ++ rs /\ Forall (fun a => act_conn a = c) ts /\ (forall i a, ~ In (EAct i a) pre) /\ (forall i a d, ~ In (ERelease i a d) pre) /\ (forall i a, ~ In (EAct i a) rs).
Lemma poll_events_act j c pre ts rs ev i a : poll_events j c pre ts rs ev -> In (EAct i a) ev -> i = j /\ act_conn a = c.
Proof.
  intros (-> & Fa & P & _ & R) I. apply in_app_or in I. destruct I as [I|I]; [elim (P _ _ I)|]. apply in_app_or in I. destruct I as [I|I]; [|elim (R _ _ I)].
  apply in_map_iff in I. destruct I as (b & [= -> ->] & I). rewrite Forall_forall in Fa. auto.
Qed.
End Proofs.
