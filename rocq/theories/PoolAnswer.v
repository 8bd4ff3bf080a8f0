(** * Calls through a pool each get the answer to their own request. *)
From Verif Require Import Base Utf8 Decimal DepUrl Serde Procedure FieldSpec Status SerHeader SerRequest SerResponse DeHeader DeRequest DeResponse Router RouterSpec RouterProofs DepHttp
  Error Client ClientSpec ClientProofs Server ServerSpec ServerProofs EndToEndSpec SessionSpec Pool PoolSpec PoolProofs PoolSystem PoolSystemSpec PoolSystemProofs PoolSystemInv PoolSystemAddr PoolSystemGone
  PoolAnswerSpec.
From Verif Require ServerFair SessionProofs.
Open Scope nat_scope.

(** ** The server's side *)
Section Server.
Context {F : floatlib} {U : urlenv} {W : httpenv} {SConn R : Type}.
Variable explain : request SConn -> ekind -> ustr * option ustr * option (list ustr).
Variable reason : status -> ustr.
Variables (ln : link SConn) (ps : saddr -> list (hproc SConn R)) (near : conn -> SConn).
Variables (queue : SConn -> list asking) (content : SConn -> bytes).
Notation nth_reply := (nth_reply explain reason ln ps near).

Lemma nth_reply_same a c n h b h' b' : nth_reply a c n h b -> nth_reply a c n h' b' -> h = h' /\ b = b'.
Proof.
  unfold PoolAnswerSpec.nth_reply, replies_on. intros [k E] [k' E']. destruct (ServerFair.rounds_more explain reason ln (ps a) k' k (task_new (Ready (near c)))) as [x Ex].
  destruct (ServerFair.rounds_more explain reason ln (ps a) k k' (task_new (Ready (near c)))) as [y Ey].
  rewrite (Nat.add_comm k' k) in Ex. rewrite Ex in Ey. apply (f_equal replied) in Ey. rewrite !SessionProofs.replied_app in Ey.
  apply (f_equal (fun l => nth_error l n)) in Ey. rewrite nth_error_app1 in Ey by (apply nth_error_Some; rewrite E; discriminate).
  rewrite nth_error_app1 in Ey by (apply nth_error_Some; rewrite E'; discriminate). rewrite E, E' in Ey. injection Ey as -> ->. auto.
Qed.

Lemma replies_ext a a' c k : ps a = ps a' -> replies_on explain reason ln ps near a c k = replies_on explain reason ln ps near a' c k.
Proof. intros E. unfold replies_on. rewrite E. reflexivity. Qed.

Hypothesis Rd : reading ln ps queue content.
Lemma refusal_keeps q st p s h b : refusal ln q st p = Sends s h b -> queue s = queue (q_conn q).
Proof.
  unfold refusal, once. destruct (settle (l_drain ln q)) as [q'|e|] eqn:E; try discriminate. intros [= <- _ _]. exact (rd_drain _ _ _ _ Rd _ _ E).
Qed.
Lemma reply_keeps a q s h b : reply_to explain reason ln (ps a) q = Sends s h b -> queue s = queue (q_conn q).
Proof.
  unfold reply_to, invalid_request. destruct (parse_url (q_target q)) as [[[segs|] qs]|]; [|discriminate|apply refusal_keeps].
  destruct (route_spec _ (q_method q) segs) as [p|[]] eqn:Er; [|apply refusal_keeps|apply refusal_keeps].
  assert (I : In p (ps a)).
  { apply route_spec_sound in Er. destruct Er as (ep & I & _). apply accepted_spec in I. destruct I as (l1 & l2 & E & _).
    assert (I : In (q_method q, ep, p) (map (fun p => (hp_method p, hp_entry p, p)) (ps a))) by (rewrite E; apply in_elt).
    apply in_map_iff in I. destruct I as (p' & E' & I). injection E' as _ _ ->. exact I. }
  destruct (de_request _ _ _ _) as [v|k| |]; try discriminate; [|apply refusal_keeps].
  unfold once. destruct (settle (hp_body p v q)) as [[q' x]|e|] eqn:Eb; try discriminate. destruct (nsettle (hp_call p x)) as [[v' b']|e|]; try discriminate.
  destruct (encode_response v' _); try discriminate. intros [= <- _ _]. exact (rd_body _ _ _ _ Rd _ _ _ _ _ _ I Eb).
Qed.
(** What is written in turn answers what is read in turn. *)
Lemma dialogue_nth a f l : dialogue explain reason ln (ps a) f l -> forall s n h b, settle f = Comes s -> nth_error (replied l) n = Some (h, b) ->
  exists x q s' b0, nth_error (queue s) n = Some x /\ reads_request content x q /\ reply_to explain reason ln (ps a) q = Sends s' h b0 /\
    b = match a_method x with MHead => None | _ => Some b0 end.
Proof.
  induction 1 as [f|f c E|f c r c' h0 b0 body l E1 E2 E3 E4 D IH]; intros s n h b Es.
  - destruct n; discriminate.
  - destruct n; discriminate.
  - rewrite Es in E1. injection E1 as ->. destruct (rd_read _ _ _ _ Rd _ _ E2) as (x & rest & Q1 & Q2 & Q3). destruct n as [|n].
    + intros [= <- <-]. exists x, r, c', b0. rewrite Q1. repeat split; try apply Q2; try exact E3. destruct Q2 as [<- _]. exact E4.
    + cbn [replied flat_map app nth_error]. intros E. destruct (settle (l_write ln h0 body c')) as [s'|e|] eqn:Ew.
      * destruct (IH s' n h b eq_refl E) as (x' & q' & s'' & b' & P1 & P2). exists x', q', s'', b'. split; [|exact P2].
        rewrite Q1. cbn [nth_error]. rewrite <- Q3, <- (reply_keeps _ _ _ _ _ E3), <- (rd_write _ _ _ _ Rd _ _ _ _ Ew). exact P1.
      * exfalso. revert E. inversion D as [|f' c0 E' |f' c0 ? ? ? ? ? ? E']; subst; try congruence; destruct n; discriminate.
      * exfalso. revert E. inversion D as [|f' c0 E' |f' c0 ? ? ? ? ? ? E']; subst; try congruence; destruct n; discriminate.
Qed.
Theorem nth_reply_answers a c n h b : nth_reply a c n h b ->
  exists x q s' b0, nth_error (queue (near c)) n = Some x /\ reads_request content x q /\ reply_to explain reason ln (ps a) q = Sends s' h b0 /\
    b = match a_method x with MHead => None | _ => Some b0 end.
Proof. intros [k E]. exact (dialogue_nth _ _ _ (rounds_dialogue explain reason ln (ps a) k (Ready (near c))) (near c) n h b eq_refl E). Qed.
End Server.

(** ** The client's side *)
Section Call.
Context {F : floatlib} {U : urlenv} {W : httpenv} {SConn R : Type}.
Variable explain : request SConn -> ekind -> ustr * option ustr * option (list ustr).
Variable reason : status -> ustr.
Variables (ln : link SConn) (ps : saddr -> list (hproc SConn R)) (near : conn -> SConn).
Notation nth_reply := (nth_reply explain reason ln ps near).
Notation act_ok := (act_ok explain reason ln ps near).
Notation acts_ok := (acts_ok explain reason ln ps near).
Variable opened : conn -> saddr -> Prop.
Variable sF : psys.
Notation asked_on := (asked_on sF).

Lemma asked_app c t1 t2 : asked_on c (t1 ++ t2) = asked_on c t1 ++ asked_on c t2.
Proof. apply flat_map_app. Qed.
Lemma heads_app c t1 t2 : heads c (t1 ++ t2) = heads c t1 + heads c t2.
Proof. unfold heads. rewrite filter_app, app_length. reflexivity. Qed.
Lemma acts_ok_app w t1 : forall before t2, acts_ok opened w before (t1 ++ t2) <-> acts_ok opened w before t1 /\ acts_ok opened w (before ++ t1) t2.
Proof.
  induction t1 as [|e t1 IH]; intros before t2; cbn [app acts_ok PoolAnswerSpec.acts_ok]; [rewrite app_nil_r; tauto|].
  rewrite IH, <- app_assoc. cbn [app]. tauto.
Qed.

(** The call's own request is the [n]th written on the connection. *)
Definition own_at (c : conn) (tr : list pevent) (n : nat) (pc : pcall) : Prop :=
  exists r, encode_request (pr_entry (c_proc pc)) (fst (c_req pc)) (N.of_nat (length (snd (c_req pc)))) = Ok r /\
    nth_error (asked_on c tr) n = Some (mkAsking (pr_method (c_proc pc)) r (snd (c_req pc))).
Lemma own_grows c tr t n pc : own_at c tr n pc -> own_at c (tr ++ t) n pc.
Proof.
  intros (r & E1 & E2). exists r. split; [exact E1|]. rewrite asked_app, nth_error_app1; [exact E2|]. apply nth_error_Some. rewrite E2. discriminate.
Qed.
Definition balanced (c : conn) (tr : list pevent) : Prop := heads c tr = length (asked_on c tr).
(** The head, and the whole, of the [n]th reply. *)
Definition head_at (c : conn) (n : nat) (pc : pcall) (x : response conn) : Prop :=
  opened c (c_addr pc) -> exists h b, nth_reply (c_addr pc) c n h b /\ head_of x h.
Definition whole_at (c : conn) (n : nat) (pc : pcall) (x : response conn) (b : bytes) : Prop :=
  opened c (c_addr pc) -> exists h bo, nth_reply (c_addr pc) c n h bo /\ head_of x h /\ if is_head (c_proc pc) then b = [] else bo = Some b.
Definition local (c : conn) (tr : list pevent) (pc : pcall) (k : call conn) : Prop :=
  match k_phase k with
  | PhA f => k_request k = Some (c_req pc) /\ balanced c tr
  | PhB f => length (asked_on c tr) = S (heads c tr) /\ own_at c tr (heads c tr) pc
  | PhC f => balanced c tr /\ exists n, heads c tr = S n /\ own_at c tr n pc /\ forall x, settle f = Comes x -> head_at c n pc x
  | PhD f => balanced c tr /\ exists n, heads c tr = S n /\ own_at c tr n pc /\ forall x b, settle f = Comes (x, b) -> whole_at c n pc x b
  end.
Definition answered_at (c : conn) (tr : list pevent) (pc : pcall) (v : value) (b : bytes) : Prop :=
  exists n x, own_at c tr n pc /\ whole_at c n pc x b /\ de_response (r_code x) (r_headers x) (pr_resp (c_proc pc)) = Ok v.
Lemma answered_grows c tr t pc v b : answered_at c tr pc v b -> answered_at c (tr ++ t) pc v b.
Proof. intros (n & x & A & B). exists n, x. split; [apply own_grows, A | exact B]. Qed.
(** What happens elsewhere does not matter. *)
Lemma local_frame c tr t pc k : asked_on c t = [] -> heads c t = 0 -> local c tr pc k -> local c (tr ++ t) pc k.
Proof.
  intros A B. unfold local, balanced. rewrite heads_app, asked_app, A, B, app_nil_r, Nat.add_0_r.
  destruct (k_phase k) as [f|f|f|f]; [auto|intros [L1 L2]; split; [exact L1 | apply own_grows, L2]| |]; intros [L1 (n & L2 & L3 & L4)]; split; auto; exists n; split; auto; split; auto; apply own_grows, L3.
Qed.

Definition went (c : conn) (tr : list pevent) (pc : pcall) (o : res (outcome conn)) : Prop :=
  match o with
  | Ok (Pending k) => local c tr pc k
  | Ok (Done v b _) => balanced c tr /\ answered_at c tr pc v b
  | _ => True
  end.
Lemma poll_local w j pc c : honest w -> method_of sF j = Some (pr_method (c_proc pc)) -> forall fuel k before,
  keeps c k -> local c before pc k -> acts_ok opened w before (map (EAct j) (fst (poll w (c_proc pc) fuel k))) ->
  went c (before ++ map (EAct j) (fst (poll w (c_proc pc) fuel k))) pc (snd (poll w (c_proc pc) fuel k)).
Proof.
  intros (Hw & Hh & Hb) Em. induction fuel as [|fuel IH]; intros k before K L; cbn [poll]; [intros _; exact I|].
  destruct k as [rq ph]. unfold keeps in K. unfold local in L. cbn [k_phase k_request] in *. destruct ph as [f|f|f|f]; cbn [phase_poll].
  - destruct f as [c0|e|f|]; cbn [fpoll settle] in *; try (intros _; exact I).
    + specialize (K c0 eq_refl). subst c0. destruct L as [-> Ba]. unfold on_connected. destruct (c_req pc) as [v b] eqn:Er.
      destruct (encode_request (pr_entry (c_proc pc)) v (N.of_nat (length b))) as [r|e| |] eqn:Ee; cbn [bind]; try (intros _; exact I).
      specialize (IH (mkCall None (PhB (w_write w r b c))) (before ++ [EAct j (Write r b c)]) (Hw r b c)).
      destruct (poll w (c_proc pc) fuel (mkCall None (PhB (w_write w r b c)))) as [t o]. cbn [fst snd map acts_ok PoolAnswerSpec.acts_ok] in *. intros [_ A].
      rewrite <- app_assoc in IH. apply IH; [|exact A]. unfold local. cbn [k_phase]. rewrite heads_app, asked_app. cbn [asked_on PoolAnswerSpec.asked_on flat_map asks].
      rewrite Nat.eqb_refl, Em. cbn [app heads]. rewrite app_length. unfold heads at 2 4. cbn [filter length]. rewrite Nat.add_0_r. unfold balanced in Ba. split; [rewrite Ba; cbn [length]; lia|].
      exists r. rewrite Er. cbn [fst snd]. split; [exact Ee|]. rewrite asked_app, Ba, nth_error_app2 by lia. rewrite Nat.sub_diag.
      cbn [asked_on PoolAnswerSpec.asked_on flat_map asks]. rewrite Nat.eqb_refl, Em. reflexivity.
    + intros _. cbn [fst snd map]. rewrite app_nil_r. exact L.
    + intros _. cbn [fst snd map]. rewrite app_nil_r. exact L.
  - destruct f as [c0|e|f|]; cbn [fpoll settle] in *; try (intros _; exact I).
    + specialize (K c0 eq_refl). subst c0. destruct L as [La Lo].
      specialize (IH (mkCall rq (PhC (w_head w c))) (before ++ [EAct j (ReadHead c)]) (Hh c)).
      destruct (poll w (c_proc pc) fuel (mkCall rq (PhC (w_head w c)))) as [t o]. cbn [fst snd map acts_ok PoolAnswerSpec.acts_ok] in *. intros [Ok1 A].
      rewrite <- app_assoc in IH. apply IH; [|exact A]. unfold local, balanced. cbn [k_phase]. rewrite heads_app, asked_app. cbn [asked_on PoolAnswerSpec.asked_on flat_map asks app].
      rewrite app_nil_r. unfold heads at 2 4. cbn [filter length]. rewrite Nat.eqb_refl. cbn [length]. split; [lia|]. exists (heads c before). split; [lia|]. split; [apply own_grows, Lo|].
      intros x Ex Op. exact (Ok1 x _ Ex Op).
    + intros _. cbn [fst snd map]. rewrite app_nil_r. exact L.
    + intros _. cbn [fst snd map]. rewrite app_nil_r. exact L.
  - destruct f as [r|e|f|]; cbn [fpoll settle] in *; try (intros _; exact I).
    + specialize (K r eq_refl). destruct L as [Ba (n & Ln & Lo & Lh)]. specialize (Lh r eq_refl). destruct (is_head (c_proc pc)) eqn:Ei.
      * apply IH; [intros r0 b0 [= <- <-]; exact K|]. unfold local. cbn [k_phase]. split; [exact Ba|]. exists n. split; [exact Ln|]. split; [exact Lo|].
        intros x b [= <- <-] Op. destruct (Lh Op) as (h & bo & P1 & P2). exists h, bo. rewrite Ei. auto.
      * specialize (IH (mkCall rq (PhD (w_body w r))) (before ++ [EAct j (ReadBody r)])). 
        assert (K' : keeps c (mkCall rq (PhD (w_body w r)))) by (intros r0 b0 E; rewrite (Hb _ _ _ E); exact K). specialize (IH K').
        destruct (poll w (c_proc pc) fuel (mkCall rq (PhD (w_body w r)))) as [t o]. cbn [fst snd map acts_ok PoolAnswerSpec.acts_ok] in *. intros [Ok1 A].
        rewrite <- app_assoc in IH. apply IH; [|exact A]. unfold local, balanced. cbn [k_phase]. rewrite heads_app, asked_app. cbn [asked_on PoolAnswerSpec.asked_on flat_map asks app].
        rewrite app_nil_r. unfold heads at 2 4. cbn [filter length]. rewrite Nat.add_0_r. split; [exact Ba|]. exists n. split; [exact Ln|]. split; [apply own_grows, Lo|].
        intros x b Ex Op. destruct (Ok1 _ _ Ex) as (Q1 & Q2 & Q3). rewrite K in Q3. destruct (Q3 _ Op) as (h & Q4). rewrite Ln in Q4. cbn [pred] in Q4.
        destruct (Lh Op) as (h' & bo & P1 & P2 & P3). destruct (nth_reply_same explain reason ln ps near _ _ _ _ _ _ _ P1 Q4) as [-> ->].
        exists h, (Some b). rewrite Ei. split; [exact Q4|]. split; [|reflexivity]. split; [congruence|]. intros hs E. rewrite Q2. exact (P3 hs E).
    + intros _. cbn [fst snd map]. rewrite app_nil_r. exact L.
    + intros _. cbn [fst snd map]. rewrite app_nil_r. destruct L as [Ba (n & Ln & Lo & Lh)]. split; [exact Ba|]. exists n. split; [exact Ln|]. split; [exact Lo|]. intros x E; discriminate E.
  - destruct f as [[r b]|e|f|]; cbn [fpoll settle] in *; try (intros _; exact I).
    + intros _. cbn [fst snd map]. rewrite app_nil_r. unfold on_received. destruct (de_response (r_code r) (r_headers r) (pr_resp (c_proc pc))) as [v|e| |] eqn:Ed; cbn [bind]; try exact I.
      destruct L as [Ba (n & Ln & Lo & Lh)]. split; [exact Ba|]. exists n, r. split; [exact Lo|]. split; [exact (Lh _ _ eq_refl) | exact Ed].
    + intros _. cbn [fst snd map]. rewrite app_nil_r. exact L.
    + intros _. cbn [fst snd map]. rewrite app_nil_r. destruct L as [Ba (n & Ln & Lo & Lh)]. split; [exact Ba|]. exists n. split; [exact Ln|]. split; [exact Lo|]. intros x b E; discriminate E.
Qed.
End Call.

(** ** The pool and the calls *)
Section System.
Context {F : floatlib} {U : urlenv} {W : httpenv} {SConn R : Type}.
Variable explain : request SConn -> ekind -> ustr * option ustr * option (list ustr).
Variable reason : status -> ustr.
Variables (ln : link SConn) (ps : saddr -> list (hproc SConn R)) (near : conn -> SConn).
Variables (tmax : Z) (checks : bool).
Variable opened : conn -> saddr -> Prop.
Variable sF : psys.
Notation acts_ok := (acts_ok explain reason ln ps near opened).
Notation asked_on := (asked_on sF).
Notation local := (local explain reason ln ps near opened sF).
Notation answered_at := (answered_at explain reason ln ps near opened sF).
Notation balanced := (balanced sF).
Notation coarse := (coarse tmax checks).
Notation pstep := (pstep tmax checks).

Lemma inner_poll i pc c r s : kept c r -> exists x cs rs,
  inner_result i pc c r s = (mkPsys (s_pool s) (queue_after s cs) (set_state i x (s_calls s)) (s_opened s), map (EAct i) (fst r) ++ rs) /\
  fate i (c_addr pc) c x cs rs /\
  match snd r with Ok (Pending k) => x = Talking c k | Ok (Done v b _) => x = Finished v b /\ rs = [ERelease i (c_addr pc) c] | _ => dead x end.
Proof.
  destruct r as [ts o]. intros [K1 K2]. cbn [fst snd] in *. unfold inner_result. destruct o as [[k|v b c']|e| |].
  - exists (Talking c k), [], []. rewrite queue_after_nil, app_nil_r. split; [reflexivity|]. split; [constructor; exact K2 | auto].
  - subst c'. exists (Finished v b), [ReleaseConnection (c_addr pc) c], [ERelease i (c_addr pc) c]. rewrite send_eq. split; [reflexivity|]. split; [constructor | auto].
  - exists (Broken e), [], []. rewrite queue_after_nil, app_nil_r. split; [reflexivity|]. split; [constructor; exact I | exact I].
  - exists Panicked, [], []. rewrite queue_after_nil, app_nil_r. split; [reflexivity|]. split; [constructor; exact I | exact I].
  - exists Panicked, [], []. rewrite queue_after_nil, app_nil_r. split; [reflexivity|]. split; [constructor; exact I | exact I].
Qed.

(** A step polls the inner call of some call, or no message is sent or asked for. *)
Definition uses_at (l : plabel) (s s' : psys) (t : list pevent) : Prop := exists j w pc c k x cs op pre rs,
  l = LPoll j w /\ nth_error (s_calls s) j = Some pc /\ keeps c k /\ s' = moved j x cs op s /\ t = pre ++ map (EAct j) (fst (poll_call w (c_proc pc) k)) ++ rs /\
  fate j (c_addr pc) c x cs rs /\
  match snd (poll_call w (c_proc pc) k) with Ok (Pending k) => x = Talking c k | Ok (Done v b _) => x = Finished v b /\ rs = [ERelease j (c_addr pc) c] | _ => dead x end /\
  (op = [] /\ pre = [] /\ held pc = [c] /\ (c_state pc = Talking c k \/ c_state pc = Acquiring (Some (PIdle c)) /\ k = call_new (c_req pc) (Ready c)) \/
   op = [c_addr pc] /\ pre = [EOpen c (c_addr pc)] /\ c = length (s_opened s) /\ held pc = [] /\ c_state pc = Acquiring (Some (PConnect (Ready tt))) /\ k = call_new (c_req pc) (Ready c)).
Definition silent (t : list pevent) : Prop := forall i a, ~ In (EAct i a) t.
Definition quiet (s s' : psys) (t : list pevent) : Prop :=
  silent t /\ coarse s s' t /\
  (forall i pc', nth_error (s_calls s') i = Some pc' -> (exists pc, nth_error (s_calls s) i = Some pc /\ same_job pc pc' /\ c_state pc' = c_state pc) \/
     match c_state pc' with Talking _ _ | Finished _ _ => False | _ => True end) /\
  (forall i c k, state_of i s = Some (Talking c k) -> state_of i s' = Some (Talking c k) \/ (H s' c + 1 <= H s c)%nat).
Lemma quiet_moved j pc x cs t s : nth_error (s_calls s) j = Some pc -> coarse s (moved j x cs [] s) t -> silent t -> held_in x = [] -> flat_map carried cs = [] ->
  match x with Talking _ _ | Finished _ _ => False | _ => True end -> quiet s (moved j x cs [] s) t.
Proof.
  intros En Q Si Hx Hc Px. split; [exact Si|]. split; [exact Q|]. split.
  - intros i pc' E. cbn [moved s_calls] in E. destruct (nth_error (s_calls s) i) as [pc0|] eqn:E0.
    + destruct (set_job j x (s_calls s) i pc0 E0) as (pc1 & E1 & J & S1). rewrite E1 in E. injection E as <-. destruct (Nat.eqb j i); [right; rewrite S1; exact Px | left; exists pc0; auto].
    + exfalso. assert (i < length (set_state j x (s_calls s))) by (apply nth_error_Some; rewrite E; discriminate). rewrite set_length in *. apply nth_error_None in E0. lia.
  - intros i c k E. rewrite moved_state. destruct (Nat.eqb_spec j i) as [->|N]; [right | left; exact E].
    pose proof (moved_H i x cs [] s pc c En) as M. rewrite Hx, Hc in M. rewrite cnt_nil in M. unfold state_of in E. rewrite En in E. injection E as E.
    unfold held in M. rewrite E in M. rewrite cnt_cons, one_self, cnt_nil in M. lia.
Qed.
Lemma silent_nil : silent [].
Proof. intros i a []. Qed.

Lemma sent_moved j x cs s : mkPsys (s_pool (put_state j x s)) (queue_after (put_state j x s) cs) (s_calls (put_state j x s)) (s_opened (put_state j x s)) = moved j x cs [] s.
Proof. rewrite <- moved_nil. reflexivity. Qed.

Lemma step_cases l s s' t : keeps_all s -> honest_label l -> pstep l s = Some (s', t) -> uses_at l s s' t \/ quiet s s' t.
Proof.
  intros Ka Hl Hs. pose proof (effect_coarse tmax checks _ _ _ _ (step_effect tmax checks l s s' t Ka Hl Hs)) as Q. revert Hs Q.
  destruct l as [addr p req|now f| |j w|j]; cbn [PoolSystem.pstep].
  - intros [= <- <-] Q. right. split; [exact silent_nil|]. split; [exact Q|]. rewrite send_eq. cbn [s_calls]. split.
    + intros i pc' E. rewrite nth_snoc in E. destruct (Nat.eqb i (length (s_calls s))); [injection E as <-; right; exact I | left; exists pc'; repeat split; exact E].
    + intros i c k E. left. unfold state_of in *. cbn [s_calls]. rewrite nth_snoc. destruct (Nat.eqb_spec i (length (s_calls s))) as [->|N]; [|exact E].
      exfalso. rewrite (proj2 (nth_error_None _ _)) in E by lia. discriminate.
  - destruct (s_pool s) as [p|] eqn:Ep; [|discriminate]. destruct (s_queue s) as [|c q] eqn:Eq; [discriminate|].
    destruct (handle_command tmax checks now c p) as [[o p']|e| |] eqn:E; intros [= <- <-] Q; right; (split; [exact silent_nil|]; split; [exact Q|]);
      try (split; [intros i pc' En; left; exists pc'; repeat split; exact En | intros i c0 k En; left; exact En]).
    fold (after_command s p' q o f). split.
    + intros i pc' En. assert (A : exists pc0, nth_error (s_calls s) i = Some pc0 /\ (pc' = pc0 \/ exists a, c_state pc' = Acquiring a)).
      { revert En. unfold after_command. destruct o as [[j a]|]; [|eauto]. set (s1 := mkPsys (Some p') q (s_calls s) (s_opened s)). destruct (reply_cases j (to_pooled a f) s1) as [->|[_ ->]]; [eauto|].
        unfold put_state, s1; cbn [s_calls]. rewrite set_nth. destruct (nth_error (s_calls s) i) as [pc0|]; [|destruct (Nat.eqb j i); discriminate]. intros En. exists pc0. split; [reflexivity|].
        destruct (Nat.eqb j i); cbn [option_map] in En; injection En as <-; [right; cbn; eauto | auto]. }
      destruct A as (pc0 & A1 & [->|[a A2]]); [left; exists pc0; repeat split; exact A1 | right; rewrite A2; exact I].
    + intros i c0 k En. left. destruct (after_command_state s p' q o f i) as [A|[A _]]; [rewrite A; exact En | congruence].
  - destruct (s_pool s) as [p|] eqn:Ep; [|discriminate]. intros [= <- <-] Q. right. split; [exact silent_nil|]. split; [exact Q|].
    split; [intros i pc' En; left; exists pc'; repeat split; exact En | intros i c0 k En; left; exact En].
  - destruct (nth_error (s_calls s) j) as [pc|] eqn:En; [|discriminate]. unfold poll_pooled. destruct (c_state pc) as [a|c k|v b|k| |] eqn:Es; try discriminate.
    + destruct a as [[|c|f]|]; cbn [acquire_poll].
      * intros [= <- <-] Q. right. rewrite put_moved in *. apply (quiet_moved j pc); auto using silent_nil.
      * intros E _. left. assert (Kc : keeps c (call_new (c_req pc) (Ready c))) by (intros c' [= <-]; reflexivity).
        pose proof (poll_keeps w (c_proc pc) c Hl 5 _ Kc) as K. destruct (inner_poll j pc c _ s K) as (x & cs & rs & Ei & F1 & F2). unfold poll_call in E. rewrite Ei in E. injection E as <- <-.
        exists j, w, pc, c, (call_new (c_req pc) (Ready c)), x, cs, [], [], rs. rewrite moved_nil. repeat (split; [first [reflexivity | assumption]|]). left.
        repeat split; [unfold held; rewrite Es; reflexivity | right; auto].
      * destruct f as [[]|e|f|]; cbn [fpoll].
        -- cbv zeta. set (s1 := mkPsys (s_pool s) (s_queue s) (s_calls s) (s_opened s ++ [c_addr pc])). set (c := length (s_opened s)). intros E _. left.
           assert (Kc : keeps c (call_new (Conn := conn) (c_req pc) (Ready (A := conn) c))) by (intros c' [= <-]; reflexivity).
           pose proof (poll_keeps w (c_proc pc) c Hl 5 _ Kc) as K. destruct (inner_poll j pc c _ s1 K) as (x & cs & rs & Ei & F1 & F2). unfold poll_call in E. rewrite Ei in E. injection E as <- <-.
           exists j, w, pc, c, (call_new (c_req pc) (Ready c)), x, cs, [c_addr pc], [EOpen c (c_addr pc)], rs. repeat (split; [first [reflexivity | assumption]|]). right.
           repeat split; [unfold held; rewrite Es; reflexivity | exact Es].
        -- rewrite send_eq, sent_moved. intros [= <- <-] Q. right.
           apply (quiet_moved j pc); auto. intros i a [E|[]]. discriminate E.
        -- intros [= <- <-] Q. right. rewrite put_moved in *. apply (quiet_moved j pc); auto using silent_nil.
        -- intros [= <- <-] Q. right. rewrite put_moved in *. apply (quiet_moved j pc); auto using silent_nil.
      * destruct (pending j (s_queue s)) eqn:Ed; intros [= <- <-] Q; right; rewrite put_moved in *; apply (quiet_moved j pc); auto using silent_nil.
    + intros E _. left. assert (Kc : keeps c k).
      { specialize (Ka j (Talking c k)). unfold state_of in Ka. rewrite En in Ka. cbn [option_map] in Ka. rewrite Es in Ka. exact (Ka eq_refl). }
      pose proof (poll_keeps w (c_proc pc) c Hl 5 _ Kc) as K. destruct (inner_poll j pc c _ s K) as (x & cs & rs & Ei & F1 & F2). unfold poll_call in E. rewrite Ei in E. injection E as <- <-.
      exists j, w, pc, c, k, x, cs, [], [], rs. rewrite moved_nil. repeat (split; [first [reflexivity | assumption]|]). left.
      repeat split; [unfold held; rewrite Es; reflexivity | left; exact Es].
  - destruct (nth_error (s_calls s) j) as [pc|] eqn:En; [|discriminate]. destruct (c_state pc) as [a|c k|v b|k| |] eqn:Es; try discriminate;
      intros [= <- <-] Q; right; rewrite put_moved in *; apply (quiet_moved j pc); auto using silent_nil.
Qed.

(** ** The invariant *)
Record invJ (s : psys) (tr : list pevent) : Prop := {
  j_fresh : forall c, length (s_opened s) <= c -> asked_on c tr = [] /\ heads c tr = 0;
  j_free : forall c, 0 < H s c -> (forall i k, state_of i s <> Some (Talking c k)) -> balanced c tr;
  j_calls : forall i pc, nth_error (s_calls s) i = Some pc ->
    match c_state pc with
    | Talking c k => local c tr pc k
    | Finished v b => exists c, In (ERelease i (c_addr pc) c) tr /\ answered_at c tr pc v b
    | _ => True
    end
}.
Lemma silent_asked c t : silent t -> asked_on c t = [] /\ heads c t = 0.
Proof.
  intros Si. induction t as [|e t IH]; [split; reflexivity|]. assert (St : silent t) by (intros i a I; exact (Si i a (or_intror I))). destruct (IH St) as [A B].
  destruct e as [c0 a|i a|i a c0|i a]; try (split; [exact A | exact B]). exfalso. exact (Si i a (or_introl eq_refl)).
Qed.
Lemma local_job c tr pc pc' k : same_job pc pc' -> local c tr pc k -> local c tr pc' k.
Proof.
  destruct pc as [a p r x], pc' as [a' p' r' x']. intros (E1 & E2 & E3). cbn [c_addr c_proc c_req] in *. subst a' p' r'. exact (fun L => L).
Qed.
Lemma answered_job c tr pc pc' v b : same_job pc pc' -> answered_at c tr pc v b -> answered_at c tr pc' v b.
Proof.
  destruct pc as [a p r x], pc' as [a' p' r' x']. intros (E1 & E2 & E3). cbn [c_addr c_proc c_req] in *. subst a' p' r'. exact (fun L => L).
Qed.

Lemma invJ_quiet s s' tr t : invA s tr -> invJ s tr -> quiet s s' t -> invJ s' (tr ++ t).
Proof.
  intros A [Jf Jb Jc] (Si & Q & Qc & Qt).
  assert (Za : forall c, asked_on c (tr ++ t) = asked_on c tr) by (intros c; rewrite asked_app, (proj1 (silent_asked c t Si)), app_nil_r; reflexivity).
  assert (Zh : forall c, heads c (tr ++ t) = heads c tr) by (intros c; rewrite heads_app, (proj2 (silent_asked c t Si)), Nat.add_0_r; reflexivity).
  destruct (coarse_opened _ _ _ _ _ Q) as [op Eop]. split.
  - intros c L. rewrite Za, Zh. apply Jf. rewrite Eop, app_length in L. lia.
  - intros c P N. unfold balanced, PoolAnswer.balanced. rewrite Za, Zh. destruct (Nat.lt_ge_cases c (length (s_opened s))) as [L|L].
    + pose proof (coarse_H tmax checks _ _ _ c Q L) as M. apply Jb; [lia|]. intros i k E. destruct (Qt i c k E) as [E'|E']; [exact (N i k E')|]. pose proof (a_once _ _ A c). lia.
    + destruct (Jf c L) as [-> ->]. reflexivity.
  - intros i pc' E. destruct (Qc i pc' E) as [(pc & E0 & J & Es)|P].
    + specialize (Jc i pc E0). rewrite Es. destruct (c_state pc) as [a|c k|v b|k| |]; try exact I.
      * apply local_frame; [apply silent_asked, Si | apply silent_asked, Si|]. exact (local_job _ _ _ _ _ J Jc).
      * destruct Jc as (c & I1 & I2). exists c. split; [apply in_or_app; left; destruct J as [<- _]; exact I1 | apply answered_grows; exact (answered_job _ _ _ _ _ _ J I2)].
    + destruct (c_state pc'); try exact I; contradiction.
Qed.

(** Messages on one connection do not matter for the others. *)
Lemma elsewhere c d j ts : Forall (fun a => act_conn a = c) ts -> c <> d -> asked_on d (map (EAct j) ts) = [] /\ heads d (map (EAct j) ts) = 0.
Proof.
  intros Fa N. induction Fa as [|a ts E Fa IH]; [split; reflexivity|]. destruct IH as [I1 I2].
  change (map (EAct j) (a :: ts)) with ([EAct j a] ++ map (EAct j) ts). rewrite asked_app, heads_app, I1, I2, app_nil_r, Nat.add_0_r.
  destruct a as [r b c'|c'|x]; cbn [act_conn] in E; unfold heads; cbn [asked_on PoolAnswerSpec.asked_on flat_map asks filter length app].
  - destruct (Nat.eqb_spec d c') as [->|]; [congruence | auto].
  - destruct (Nat.eqb_spec d c') as [->|]; [congruence | auto].
  - auto.
Qed.

Definition label_ok (tr : list pevent) (l : plabel) (t : list pevent) : Prop := match l with LPoll _ w => acts_ok w tr t | _ => True end.
Lemma invJ_uses l s s' tr t : honest_label l -> invA s tr -> invJ s tr -> (forall i pc, nth_error (s_calls s) i = Some pc -> method_of sF i = Some (pr_method (c_proc pc))) ->
  label_ok tr l t -> uses_at l s s' t -> coarse s s' t -> invJ s' (tr ++ t).
Proof.
  intros Hl A [Jf Jb Jc] Me Lo (j & w & pc & c & k & x & cs & op & pre & rs & -> & En & Kk & -> & -> & Fa & Fx & D) Q.
  cbn [label_ok honest_label] in *. set (r := poll_call w (c_proc pc) k) in *.
  assert (Sp : silent pre) by (destruct D as [(_ & -> & _)|(_ & -> & _)]; [exact silent_nil | intros i a [E|[]]; discriminate E]).
  assert (Sr : silent rs) by (intros i a; exact (fate_rs _ _ _ _ _ _ Fa i a)).
  pose proof (poll_keeps w (c_proc pc) c Hl 5 k Kk) as [Ka _]. fold (poll_call w (c_proc pc) k) in Ka. fold r in Ka.
  (* what is known of the connection before *)
  assert (Lc : local c (tr ++ pre) pc k).
  { apply local_frame; [apply silent_asked, Sp | apply silent_asked, Sp|]. destruct D as [(_ & _ & Hh & [Es|[Es ->]])|(_ & _ & Ec & Hh & Es & ->)].
    - specialize (Jc j pc En). rewrite Es in Jc. exact Jc.
    - split; [reflexivity|]. apply Jb.
      + pose proof (held_at_le j s c) as M. unfold held_at in M. rewrite En, Hh, cnt_cons, one_self in M. lia.
      + intros i k' E. assert (Ni : i <> j) by (intros ->; unfold state_of in E; rewrite En in E; cbn in E; rewrite Es in E; discriminate E).
        pose proof (held_at2_le i j s c Ni) as M. unfold held_at in M. rewrite En, Hh in M. unfold state_of in E. destruct (nth_error (s_calls s) i) as [pi|]; [|discriminate].
        injection E as E. unfold held in M. rewrite E in M. rewrite !cnt_cons, one_self, !cnt_nil in M. pose proof (a_once _ _ A c). lia.
    - split; [reflexivity|]. unfold PoolAnswer.balanced. destruct (Jf c ltac:(lia)) as [-> ->]. reflexivity. }
  rewrite !acts_ok_app in Lo. destruct Lo as (_ & Lo & _).
  pose proof (poll_local explain reason ln ps near opened sF w j pc c Hl (Me j pc En) 5 k (tr ++ pre) Kk Lc Lo) as Po. fold (poll_call w (c_proc pc) k) in Po. fold r in Po.
  (* the others *)
  assert (El : forall d, c <> d -> asked_on d (pre ++ map (EAct j) (fst r) ++ rs) = [] /\ heads d (pre ++ map (EAct j) (fst r) ++ rs) = 0).
  { intros d N. rewrite !asked_app, !heads_app. destruct (silent_asked d pre Sp) as [-> ->]. destruct (silent_asked d rs Sr) as [-> ->]. destruct (elsewhere c d j (fst r) Ka N) as [-> ->]. auto. }
  assert (Eo : s_opened (moved j x cs op s) = s_opened s ++ op) by reflexivity.
  assert (Lc' : c < length (s_opened s ++ op)).
  { destruct D as [(_ & _ & Hh & _)|(-> & _ & -> & _)]; [|rewrite app_length; cbn; lia]. rewrite app_length. pose proof (held_at_le j s c) as M. unfold held_at in M. rewrite En, Hh, cnt_cons, one_self in M.
    pose proof (a_fresh _ _ A c ltac:(lia)). lia. }
  assert (Ot : forall i pi d k', i <> j -> nth_error (s_calls s) i = Some pi -> c_state pi = Talking d k' -> c <> d).
  { intros i pi d k' Ni Ei Es <-. pose proof (a_once _ _ A c) as On. destruct D as [(_ & _ & Hh & _)|(_ & _ & Ec & _)].
    - pose proof (held_at2_le i j s c Ni) as M. unfold held_at in M. rewrite En, Ei, Hh in M. unfold held in M. rewrite Es in M. rewrite !cnt_cons, one_self, !cnt_nil in M. lia.
    - pose proof (held_at_le i s c) as M. unfold held_at in M. rewrite Ei in M. unfold held in M. rewrite Es in M. rewrite cnt_cons, one_self, cnt_nil in M. pose proof (a_fresh _ _ A c ltac:(lia)). lia. }
  split.
  - intros d L. rewrite Eo in L. assert (N : c <> d) by lia. rewrite app_length in L. rewrite asked_app, heads_app. destruct (El d N) as [-> ->]. rewrite app_nil_r, Nat.add_0_r. apply Jf. lia.
  - intros d P N. destruct (Nat.eq_dec c d) as [<-|Nd].
    + unfold PoolAnswer.balanced. rewrite app_assoc, (app_assoc (tr ++ pre)). rewrite asked_app, heads_app. destruct (silent_asked c rs Sr) as [-> ->]. rewrite app_nil_r, Nat.add_0_r.
      destruct (snd r) as [[k'|v b c']|e| |]; try (
        exfalso; assert (Hx : held_in x = []) by (destruct x; try contradiction; reflexivity); assert (Cs : flat_map carried cs = []) by (destruct Fa; try contradiction; reflexivity);
        pose proof (moved_H j x cs op s pc c En) as M; rewrite Hx, Cs in M; rewrite cnt_nil in M; pose proof (a_once _ _ A c) as On;
        destruct D as [(_ & _ & Hh & _)|(_ & _ & Ec & Hh & _)]; rewrite Hh in M; [rewrite cnt_cons, one_self in M; lia|];
        assert (Z : H s c = 0) by (destruct (H s c) eqn:Eh; [reflexivity | pose proof (a_fresh _ _ A c ltac:(lia)); lia]); lia).
      * exfalso. apply (N j k'). rewrite moved_state, Nat.eqb_refl, En. cbn. rewrite Fx. reflexivity.
      * exact (proj1 Po).
    + unfold PoolAnswer.balanced. rewrite asked_app, heads_app. destruct (El d Nd) as [-> ->]. rewrite app_nil_r, Nat.add_0_r. destruct (Nat.lt_ge_cases d (length (s_opened s))) as [L|L].
      * pose proof (coarse_H tmax checks _ _ _ d Q L) as M. apply Jb; [lia|]. intros i k' E. destruct (Nat.eq_dec i j) as [->|Ni].
        -- unfold state_of in E. rewrite En in E. injection E as E. destruct D as [(_ & _ & Hh & _)|(_ & _ & _ & _ & Es & _)]; [|congruence]. unfold held in Hh. rewrite E in Hh. congruence.
        -- apply (N i k'). rewrite moved_state. destruct (Nat.eqb_spec j i); [congruence | exact E].
      * destruct (Jf d L) as [-> ->]. reflexivity.
  - intros i pc' E. cbn [moved s_calls] in E. destruct (nth_error (s_calls s) i) as [pi|] eqn:Ei.
    2:{ exfalso. assert (i < length (set_state j x (s_calls s))) by (apply nth_error_Some; rewrite E; discriminate). rewrite set_length in *. apply nth_error_None in Ei. lia. }
    destruct (set_job j x (s_calls s) i pi Ei) as (p1 & E1 & J & S1). rewrite E1 in E. injection E as <-. rewrite S1. destruct (Nat.eqb_spec j i) as [<-|N].
    + rewrite En in Ei. injection Ei as <-. destruct (snd r) as [[k'|v b c']|e| |]; try (destruct x; try contradiction; exact I).
      * subst x. apply (local_job c _ pc); [exact J|]. rewrite app_assoc, (app_assoc (tr ++ pre)). apply local_frame; [apply silent_asked, Sr | apply silent_asked, Sr | exact Po].
      * destruct Fx as [-> ->]. exists c. split; [apply in_or_app; right; apply in_or_app; right; apply in_or_app; right; left; destruct J as [-> _]; reflexivity|].
        apply (answered_job c _ pc); [exact J|]. rewrite app_assoc, (app_assoc (tr ++ pre)). apply answered_grows. exact (proj2 Po).
    + specialize (Jc i pi Ei). destruct (c_state pi) as [a|d k'|v b|e| |] eqn:Es; try exact I.
      * pose proof (Ot i pi d k' ltac:(congruence) Ei Es) as Nd. apply local_frame; [apply El, Nd | apply El, Nd | exact (local_job _ _ _ _ _ J Jc)].
      * destruct Jc as (d & I1 & I2). exists d. split; [apply in_or_app; left; destruct J as [<- _]; exact I1 | apply answered_grows; exact (answered_job _ _ _ _ _ _ J I2)].
Qed.

(** ** Calls keep their procedure *)
Lemma coarse_job s s' t i pc : coarse s s' t -> nth_error (s_calls s) i = Some pc -> exists pc', nth_error (s_calls s') i = Some pc' /\ same_job pc pc'.
Proof.
  assert (Re : same_job pc pc) by (repeat split).
  intros Q E. destruct Q as [addr p req|now f p cm q o p' Ep Eq Eh| |j pj x cs t En Hx Hc Ht D|j pj c0 x cs op pre ts rs t En Fa Pe D A].
  - exists pc. split; [|exact Re]. cbn [s_calls]. rewrite nth_error_app1; [exact E | apply nth_error_Some; rewrite E; discriminate].
  - unfold after_command. destruct o as [[j a]|]; [|eauto]. set (s1 := mkPsys (Some p') q (s_calls s) (s_opened s)). destruct (reply_cases j (to_pooled a f) s1) as [->|[_ ->]]; [eauto|].
    destruct (set_job j (Acquiring (Some (to_pooled a f))) (s_calls s) i pc E) as (pc' & E1 & J & _). eauto.
  - eauto.
  - destruct (set_job j x (s_calls s) i pc E) as (pc' & E1 & J & _). eauto.
  - destruct (set_job j x (s_calls s) i pc E) as (pc' & E1 & J & _). eauto.
Qed.
Lemma run_job ls : forall s tr i pc, Forall honest_label ls -> invA s tr -> nth_error (s_calls s) i = Some pc -> exists pc', nth_error (s_calls (fst (prun tmax checks ls s))) i = Some pc' /\ same_job pc pc'.
Proof.
  induction ls as [|l ls IH]; intros s tr i pc Fh A E; [exists pc; repeat split; exact E|]. inversion Fh as [|? ? Hl Hr]; subst. cbn [prun].
  destruct (pstep l s) as [[s1 t1]|] eqn:Es; [|eapply IH; eassumption].
  pose proof (effect_coarse tmax checks _ _ _ _ (step_effect tmax checks l s s1 t1 (a_keeps _ _ A) Hl Es)) as Q. destruct (coarse_job _ _ _ _ _ Q E) as (p1 & E1 & J1).
  destruct (IH s1 (tr ++ t1) i p1 Hr (invA_step _ _ _ _ _ _ A Q) E1) as (p2 & E2 & J2). destruct (prun tmax checks ls s1) as [s2 t2]. exists p2. split; [exact E2|].
  destruct J1 as (a1 & b1 & c1), J2 as (a2 & b2 & c2). repeat split; congruence.
Qed.

Theorem invJ_run ls : forall s tr, Forall honest_label ls -> invA s tr -> invJ s tr -> sF = fst (prun tmax checks ls s) -> orderly explain reason ln ps near opened tr (plog tmax checks ls s) ->
  invJ sF (tr ++ snd (prun tmax checks ls s)).
Proof.
  induction ls as [|l ls IH]; intros s tr Fh A J Ef O; [cbn [prun fst snd] in *; rewrite app_nil_r, Ef; exact J|]. pose proof (Forall_inv Fh) as Hl. pose proof (Forall_inv_tail Fh) as Hr.
  assert (Me : forall i pc, nth_error (s_calls s) i = Some pc -> method_of sF i = Some (pr_method (c_proc pc))).
  { intros i pc E. destruct (run_job (l :: ls) s tr i pc Fh A E) as (p & E' & (_ & Jp & _)). unfold method_of. rewrite Ef, E'. cbn. rewrite Jp. reflexivity. }
  cbn [prun plog] in *. destruct (pstep l s) as [[s1 t1]|] eqn:Es; [|apply IH; assumption].
  pose proof (effect_coarse tmax checks _ _ _ _ (step_effect tmax checks l s s1 t1 (a_keeps _ _ A) Hl Es)) as Q. pose proof (invA_step _ _ _ _ _ _ A Q) as A'.
  cbn [orderly] in O. destruct O as [O1 O2].
  assert (J' : invJ s1 (tr ++ t1)).
  { destruct (step_cases l s s1 t1 (a_keeps _ _ A) Hl Es) as [Us|Qu]; [|exact (invJ_quiet _ _ _ _ A J Qu)]. exact (invJ_uses l s s1 tr t1 Hl A J Me O1 Us Q). }
  specialize (IH s1 (tr ++ t1) Hr A' J'). destruct (prun tmax checks ls s1) as [s2 t2]. cbn [fst snd] in *. rewrite app_assoc. apply IH; assumption.
Qed.
Lemma invJ_new size d : invJ (psys_new size d) [].
Proof.
  split.
  - intros c _. split; reflexivity.
  - intros c P _. reflexivity.
  - intros i pc E. destruct i; discriminate.
Qed.
End System.

(** ** Every finished call has its own answer *)
Section Theorems.
Context {F : floatlib} {U : urlenv} {W : httpenv} {SConn R : Type}.
Variable explain : request SConn -> ekind -> ustr * option ustr * option (list ustr).
Variable reason : status -> ustr.
Variables (ln : link SConn) (ps : saddr -> list (hproc SConn R)) (near : conn -> SConn).
Variables (queue : SConn -> list asking) (content : SConn -> bytes).
Variables (tmax : Z) (checks : bool).

Theorem own_answers ls size d s tr i pc v b :
  prun tmax checks ls (psys_new size d) = (s, tr) -> Forall honest_label ls -> told_apart checks s tr ->
  reading ln ps queue content -> (forall c, agrees (queue (near c)) (asked_on s c tr)) ->
  orderly explain reason ln ps near (fun c a => In (EOpen c a) tr) [] (plog tmax checks ls (psys_new size d)) ->
  nth_error (s_calls s) i = Some pc -> c_state pc = Finished v b -> own_answer explain reason ln ps content pc v b.
Proof.
  intros Er Fh Sm Rd Ag Or En Es.
  pose proof (invA_new size d) as A0. destruct (reached_addr tmax checks size d ls s tr Fh Er Sm) as [wr Br].
  pose proof (invJ_run explain reason ln ps near tmax checks (fun c a => In (EOpen c a) tr) s ls (psys_new size d) [] Fh A0 (invJ_new _ _ _ _ _ _ _ _ _)) as Jr. rewrite Er in Jr.
  specialize (Jr eq_refl Or). cbn [snd app] in Jr. pose proof (j_calls _ _ _ _ _ _ _ _ _ Jr i pc En) as Jc. rewrite Es in Jc.
  destruct Jc as (c & Ir & n & x & (r & Ee & Eo) & Wh & Ed). destruct (in_split _ _ Ir) as (t1 & t2 & Et).
  destruct (b_rels _ _ _ _ _ Br _ _ _ _ _ Et) as (_ & ? & Io & ->). assert (Io' : In (EOpen c (c_addr pc)) tr) by (rewrite Et; apply in_or_app; left; exact Io).
  destruct (Wh Io') as (h & bo & Nr & (Hc & Hh) & Hb). destruct (nth_reply_answers explain reason ln ps near queue content Rd _ _ _ _ _ Nr) as (a & q & s' & b0 & Qa & Qr & Qs & Qb).
  rewrite (Ag c n _ _ Qa Eo) in *. exists r, q, s', h, b0. split; [exact Ee|]. split; [exact Qr|]. split; [exact Qs|]. split.
  - intros hs E. rewrite <- Hc, <- (Hh hs E). exact Ed.
  - cbn [a_method] in Qb. unfold is_head, method_eqb in Hb. destruct (method_eq_dec (pr_method (c_proc pc)) MHead) as [Em|Em]; [rewrite Em; exact Hb|].
    destruct (pr_method (c_proc pc)); congruence.
Qed.
End Theorems.

Section Meant.
Context {F : floatlib} {U : urlenv} {W : httpenv} {SConn R : Type}.
Variable explain : request SConn -> ekind -> ustr * option ustr * option (list ustr).
Variable reason : status -> ustr.
Variables (ln : link SConn) (ps : saddr -> list (hproc SConn R)).
Variables (queue : SConn -> list asking) (content : SConn -> bytes).
Definition job_of (pc : pcall) : errand := mkErrand (c_proc pc) (fst (c_req pc)) (snd (c_req pc)).
Lemma own_is_meant pc v b o : own_answer explain reason ln ps content pc v b -> meant explain reason ln (ps (c_addr pc)) queue content (job_of pc) o -> (v, b) = o.
Proof.
  intros (r & q & s' & h & b0 & E1 & E2 & E3 & E4 & E5) (r' & M1 & M2). cbn [job_of e_proc e_value e_body] in *. rewrite E1 in M1. injection M1 as <-.
  destruct (M2 q E2) as (s1 & h1 & b1 & hs & Q1 & _ & Q2 & Q3 & Q4). rewrite E3 in Q1. injection Q1 as <- <- <-. specialize (E4 hs Q2). destruct o as [v1 b2]. cbn [fst snd] in *. congruence.
Qed.
End Meant.

(** ** Networks that keep order exist *)
Section Script.
Context {F : floatlib} {U : urlenv} {W : httpenv} {R : Type}.
Lemma script_reading (ps : saddr -> list (hproc sconn R)) :
  (forall a p v q q' x, In p (ps a) -> settle (hp_body p v q) = Comes (q', x) -> sc_queue (q_conn q') = sc_queue (q_conn q)) -> reading script_link ps sc_queue sc_content.
Proof.
  intros Hb. split.
  - intros [[|a rest] b] q; cbn [script_link l_read sc_queue]; [discriminate|]. intros [= <-]. exists a, rest. repeat split. cbn [q_headers].
    intros hs E. unfold arrived. rewrite E. reflexivity.
  - intros h b s s' [= <-]. reflexivity.
  - intros q q' [= <-]. reflexivity.
  - exact Hb.
Qed.
End Script.
