(** * Proofs about responses that come for calls through a pool. *)
From Verif Require Import Base Utf8 Decimal DepUrl Serde Procedure FieldSpec Status SerHeader SerRequest SerResponse DeHeader DeRequest DeResponse Router RouterSpec DepHttp
  Error Client ClientSpec Server ServerSpec ServerProofs ClientProofs EndToEndSpec SessionSpec SessionProofs Pool PoolSpec PoolProofs PoolSystem PoolSystemSpec PoolSystemProofs PoolSystemInv PoolSystemAddr PoolSystemGone
  PoolAnswerSpec PoolAnswer PoolCauseSpec PoolCause PoolReceivedSpec.
Open Scope nat_scope.

Section System.
Context {F : floatlib} {U : urlenv} {W : httpenv} {SConn R : Type}.
Variable explain : request SConn -> ekind -> ustr * option ustr * option (list ustr).
Variable reason : status -> ustr.
Variables (ln : link SConn) (ps : saddr -> list (hproc SConn R)) (near : conn -> SConn).
Variables (tmax : Z) (checks : bool).
Variable opened : conn -> saddr -> Prop.
Variable sF : psys.
Notation acts_ok := (acts_ok explain reason ln ps near opened).
Notation asked_on := (asked_on sF).
Notation local := (local explain reason ln ps near opened sF).
Notation own_at := (own_at sF).
Notation head_at := (head_at explain reason ln ps near opened).
Notation whole_at := (whole_at explain reason ln ps near opened).
Notation balanced := (balanced sF).
Notation invJ := (invJ explain reason ln ps near opened sF).
Notation coarse := (coarse tmax checks).
Notation pstep := (pstep tmax checks).
Notation prun := (prun tmax checks).
Notation plog := (plog tmax checks).

(** ** In one poll *)
Definition got (w : wire conn) (p : proc) (ts : list (act conn)) (x : response conn) (b : bytes) : Prop :=
  if is_head p then b = [] /\ exists c, In (ReadHead c) ts /\ settle (w_head w c) = Comes x
  else exists x0, In (ReadBody x0) ts /\ settle (w_body w x0) = Comes (x, b).
Lemma got_nil w p x b : ~ got w p [] x b.
Proof. unfold got. destruct (is_head p); [intros (_ & c & [] & _) | intros (x0 & [] & _)]. Qed.
Lemma poll_done_quiet (w : wire conn) p fuel rq f : fst (poll w p fuel (mkCall rq (PhD f))) = [].
Proof. destruct fuel; [reflexivity|]. cbn [poll k_phase phase_poll]. destruct f as [[r b]|e|f|]; reflexivity. Qed.
Lemma poll_received w j pc c : honest w -> method_of sF j = Some (pr_method (c_proc pc)) -> forall fuel k before,
  keeps c k -> local c before pc k -> acts_ok w before (map (EAct j) (fst (poll w (c_proc pc) fuel k))) ->
  forall x b, got w (c_proc pc) (fst (poll w (c_proc pc) fuel k)) x b ->
  exists n, own_at c (before ++ map (EAct j) (fst (poll w (c_proc pc) fuel k))) n pc /\ whole_at c n pc x b.
Proof.
  intros (Hw & Hh & Hb) Em. induction fuel as [|fuel IH]; intros k before K L; cbn [poll]; [intros _ x b G; elim (got_nil _ _ _ _ G)|].
  destruct k as [rq ph]. unfold keeps in K. unfold PoolAnswer.local in L. cbn [k_phase k_request] in *. destruct ph as [f|f|f|f]; cbn [phase_poll].
  - destruct f as [c0|e|f|]; cbn [fpoll settle] in *; try (intros _ x b G; elim (got_nil _ _ _ _ G)).
    specialize (K c0 eq_refl). subst c0. destruct L as [-> Ba]. unfold on_connected. destruct (c_req pc) as [v b] eqn:Er.
    destruct (encode_request (pr_entry (c_proc pc)) v (N.of_nat (length b))) as [r|e| |] eqn:Ee; cbn [bind]; try (intros _ x0 b0 G; elim (got_nil _ _ _ _ G)).
    specialize (IH (mkCall None (PhB (w_write w r b c))) (before ++ [EAct j (Write r b c)]) (Hw r b c)).
    destruct (poll w (c_proc pc) fuel (mkCall None (PhB (w_write w r b c)))) as [t o]. cbn [fst snd map PoolAnswerSpec.acts_ok] in *. intros [_ A] x b0 G.
    rewrite <- app_assoc in IH. apply IH; [|exact A|].
    + unfold PoolAnswer.local. cbn [k_phase]. rewrite heads_app, asked_app. cbn [PoolAnswerSpec.asked_on flat_map asks].
      rewrite Nat.eqb_refl, Em. cbn [app heads]. rewrite app_length. unfold heads at 2 4. cbn [filter length]. rewrite Nat.add_0_r. unfold PoolAnswer.balanced in Ba. split; [rewrite Ba; cbn [length]; lia|].
      exists r. rewrite Er. cbn [fst snd]. split; [exact Ee|]. rewrite asked_app, Ba, nth_error_app2 by lia. rewrite Nat.sub_diag.
      cbn [PoolAnswerSpec.asked_on flat_map asks]. rewrite Nat.eqb_refl, Em. reflexivity.
    + revert G. unfold got. destruct (is_head (c_proc pc)); [intros (-> & d & [Q|I] & E); [discriminate|]; eauto | intros (x1 & [Q|I] & E); [discriminate|]; eauto].
  - destruct f as [c0|e|f|]; cbn [fpoll settle] in *; try (intros _ x b G; elim (got_nil _ _ _ _ G)).
    specialize (K c0 eq_refl). subst c0. destruct L as [La Lo].
    specialize (IH (mkCall rq (PhC (w_head w c))) (before ++ [EAct j (ReadHead c)]) (Hh c)).
    destruct (poll w (c_proc pc) fuel (mkCall rq (PhC (w_head w c)))) as [t o] eqn:Ep. cbn [fst snd map PoolAnswerSpec.acts_ok] in *. intros [Ok1 A] x b G.
    rewrite <- app_assoc in IH. assert (Lc : local c (before ++ [EAct j (ReadHead c)]) pc (mkCall rq (PhC (w_head w c)))).
    { unfold PoolAnswer.local, PoolAnswer.balanced. cbn [k_phase]. rewrite heads_app, asked_app. cbn [PoolAnswerSpec.asked_on flat_map asks app].
      rewrite app_nil_r. unfold heads at 2 4. cbn [filter length]. rewrite Nat.eqb_refl. cbn [length]. split; [lia|]. exists (heads c before). split; [lia|]. split; [apply own_grows, Lo|].
      intros x0 Ex Op. exact (Ok1 x0 _ Ex Op). }
    specialize (IH Lc A). revert G. unfold got in IH |- *. destruct (is_head (c_proc pc)) eqn:Ei.
    + intros (-> & d & [[= <-]|I] & E); [|apply IH; eauto]. exists (heads c before). split; [apply own_grows, Lo|].
      intros Op. destruct (Ok1 x _ E Op) as (h & b & P1 & P2). exists h, b. rewrite Ei. auto.
    + intros (x1 & [Q|I] & E); [discriminate|]. apply IH. eauto.
  - destruct f as [r|e|f|]; cbn [fpoll settle] in *; try (intros _ x b G; elim (got_nil _ _ _ _ G)).
    specialize (K r eq_refl). destruct L as [Ba (n & Ln & Lo & Lh)]. specialize (Lh r eq_refl). destruct (is_head (c_proc pc)) eqn:Ei.
    + intros _ x b G. rewrite poll_done_quiet in G. elim (got_nil _ _ _ _ G).
    + pose proof (poll_done_quiet w (c_proc pc) fuel rq (w_body w r)) as Z. destruct (poll w (c_proc pc) fuel (mkCall rq (PhD (w_body w r)))) as [t o]. cbn [fst snd map PoolAnswerSpec.acts_ok] in *. subst t. cbn [map].
      intros [Ok1 _] x b. unfold got. rewrite Ei. intros (x1 & [[= <-]|[]] & Ex). exists n. split; [apply own_grows, Lo|]. intros Op.
      destruct (Ok1 _ _ Ex) as (Q1 & Q2 & Q3). rewrite K in Q3. destruct (Q3 _ Op) as (h & Q4). rewrite Ln in Q4. cbn [pred] in Q4.
      destruct (Lh Op) as (h' & bo & P1 & P2 & P3). destruct (nth_reply_same explain reason ln ps near _ _ _ _ _ _ _ P1 Q4) as [-> ->].
      exists h, (Some b). rewrite Ei. split; [exact Q4|]. split; [|reflexivity]. split; [congruence|]. intros hs E. rewrite Q2. exact (P3 hs E).
  - intros _ x b G. elim (got_nil w (c_proc pc) x b). destruct f as [[r b0]|e|f|]; exact G.
Qed.

(** ** In a step *)
Lemma local_before j pc c k s tr pre : invA s tr -> invJ s tr -> nth_error (s_calls s) j = Some pc -> silent pre ->
  (held pc = [c] /\ (c_state pc = Talking c k \/ c_state pc = Acquiring (Some (PIdle c)) /\ k = call_new (c_req pc) (Ready c)) \/
   c = length (s_opened s) /\ held pc = [] /\ c_state pc = Acquiring (Some (PConnect (Ready tt))) /\ k = call_new (c_req pc) (Ready c)) ->
  local c (tr ++ pre) pc k.
Proof.
  intros A [Jf Jb Jc] En Sp D. apply (local_frame explain reason ln ps near opened sF); [exact (proj1 (silent_asked sF c pre Sp)) | exact (proj2 (silent_asked sF c pre Sp))|]. destruct D as [(Hh & [Es|[Es ->]])|(Ec & Hh & Es & ->)].
  - specialize (Jc j pc En). rewrite Es in Jc. exact Jc.
  - split; [reflexivity|]. apply Jb.
    + pose proof (held_at_le j s c) as M. unfold held_at in M. rewrite En, Hh, cnt_cons, one_self in M. lia.
    + intros i k' E. assert (Ni : i <> j) by (intros ->; unfold state_of in E; rewrite En in E; cbn in E; rewrite Es in E; discriminate E).
      pose proof (held_at2_le i j s c Ni) as M. unfold held_at in M. rewrite En, Hh in M. unfold state_of in E. destruct (nth_error (s_calls s) i) as [pi|]; [|discriminate].
      injection E as E. unfold held in M. rewrite E in M. rewrite !cnt_cons, one_self, !cnt_nil in M. pose proof (a_once _ _ A c). lia.
  - split; [reflexivity|]. unfold PoolAnswer.balanced. destruct (Jf c ltac:(lia)) as [-> ->]. reflexivity.
Qed.
Definition got_own (tr : list pevent) (pc : pcall) (i : nat) (x : response conn) (b : bytes) : Prop :=
  exists c n, own_at c tr n pc /\ whole_at c n pc x b /\ exists a, In (EAct i a) tr /\ act_conn a = c.
Lemma got_own_grows tr t pc i x b : got_own tr pc i x b -> got_own (tr ++ t) pc i x b.
Proof. intros (c & n & A & B & a & I & E). exists c, n. split; [apply own_grows, A|]. split; [exact B|]. exists a. split; [apply in_or_app; auto | exact E]. Qed.
Lemma got_own_job tr pc pc' i x b : same_job pc pc' -> got_own tr pc i x b -> got_own tr pc' i x b.
Proof. destruct pc as [a p r st], pc' as [a' p' r' st']. intros (E1 & E2 & E3). cbn [c_addr c_proc c_req] in *. subst a' p' r'. exact (fun L => L). Qed.

Lemma step_received l s s' tr t i pc x b : honest_label l -> invA s tr -> invJ s tr -> (forall i pc, nth_error (s_calls s) i = Some pc -> method_of sF i = Some (pr_method (c_proc pc))) ->
  label_ok explain reason ln ps near opened tr l t -> pstep l s = Some (s', t) -> nth_error (s_calls s) i = Some pc -> received (pr_method (c_proc pc)) [(l, t)] i x b -> got_own (tr ++ t) pc i x b.
Proof.
  intros Hl A J Me Lo Es En Re.
  assert (Ac : exists a w, l = LPoll i w /\ In (EAct i a) t).
  { unfold received in Re. destruct (pr_method (c_proc pc)); try (destruct Re as (w & x0 & (t0 & [[= El Et]|[]] & I) & _); subst; eauto).
    destruct Re as (_ & w & c & (t0 & [[= El Et]|[]] & I) & _). subst. eauto. }
  destruct Ac as (a0 & w & -> & I0).
  destruct (step_cases ps near tmax checks opened (LPoll i w) s s' t (a_keeps _ _ A) Hl Es) as [(j & w' & pj & c & k & y & cs & op & pre & rs & [= <- <-] & Ej & Kk & _ & Et & Fa & _ & D)|Qu]; [|elim (proj1 Qu i a0 I0)].
  rewrite En in Ej. injection Ej as <-. cbn [label_ok honest_label] in *. set (r := poll_call w (c_proc pc) k) in *.
  assert (Sp : silent pre) by (destruct D as [(_ & -> & _)|(_ & -> & _)]; [exact silent_nil | intros i0 a [E|[]]; discriminate E]).
  assert (Sr : silent rs) by (intros i1 a; exact (fate_rs _ _ _ _ _ _ Fa i1 a)).
  pose proof (poll_keeps w (c_proc pc) c Hl 5 k Kk) as [Ka _]. fold (poll_call w (c_proc pc) k) in Ka. fold r in Ka.
  assert (Lc : local c (tr ++ pre) pc k) by (apply (local_before i pc c k s tr pre A J En Sp); destruct D as [(_ & _ & D)|(_ & _ & D)]; tauto).
  assert (In_r : forall a, In (EAct i a) t -> In a (fst r)).
  { intros a I. rewrite Et in I. apply in_app_or in I. destruct I as [I|I]; [elim (Sp _ _ I)|]. apply in_app_or in I. destruct I as [I|I]; [|elim (Sr _ _ I)].
    apply in_map_iff in I. destruct I as (a' & [= ->] & I). exact I. }
  rewrite Et in Lo. unfold label_ok in Lo. rewrite !acts_ok_app in Lo. destruct Lo as (_ & Lo & _).
  destruct (poll_received w i pc c Hl (Me i pc En) 5 k (tr ++ pre) Kk Lc Lo x b) as (n & Ow & Wh).
  { fold (poll_call w (c_proc pc) k). fold r. unfold got, is_head, method_eqb. unfold received in Re. destruct (method_eq_dec (pr_method (c_proc pc)) MHead) as [Em|Em].
    - rewrite Em in Re. destruct Re as (-> & w0 & d & (t0 & [[= El Et0]|[]] & I) & E). subst w0 t0. eauto.
    - destruct (pr_method (c_proc pc)); try congruence; destruct Re as (w0 & x0 & (t0 & [[= El Et0]|[]] & I) & E); subst w0 t0; eauto. }
  fold (poll_call w (c_proc pc) k) in Ow. fold r in Ow. exists c, n. split; [|split; [exact Wh|]].
  - rewrite Et, app_assoc, (app_assoc (tr ++ pre)). apply own_grows. exact Ow.
  - exists a0. split; [apply in_or_app; right; exact I0|]. rewrite Forall_forall in Ka. exact (Ka _ (In_r _ I0)).
Qed.
Lemma received_cons m l t (lg : list (plabel * list pevent)) i x b : received m ((l, t) :: lg) i x b -> received m [(l, t)] i x b \/ received m lg i x b.
Proof.
  unfold received, did.
  destruct m; first
    [ intros (-> & w & c & (t0 & [E|I] & J) & Q); [left | right]; (split; [reflexivity|]); exists w, c; (split; [|exact Q]); exists t0; (split; [|exact J]); [left; exact E | exact I]
    | intros (w & x0 & (t0 & [E|I] & J) & Q); [left | right]; exists w, x0; (split; [|exact Q]); exists t0; (split; [|exact J]); [left; exact E | exact I] ].
Qed.

Lemma received_run ls : forall s tr, Forall honest_label ls -> invA s tr -> invJ s tr -> sF = fst (prun ls s) -> orderly explain reason ln ps near opened tr (plog ls s) ->
  forall i pc x b, nth_error (s_calls sF) i = Some pc -> received (pr_method (c_proc pc)) (plog ls s) i x b -> got_own (tr ++ snd (prun ls s)) pc i x b.
Proof.
  induction ls as [|l ls IH]; intros s tr Fh A J Ef O i pc x b En Re.
  { exfalso. cbn [PoolSystemSpec.plog] in Re. unfold received in Re. destruct (pr_method (c_proc pc)); try (destruct Re as (w & x0 & (t0 & [] & _) & _)). destruct Re as (_ & w & c & (t0 & [] & _) & _). }
  pose proof (Forall_inv Fh) as Hl. pose proof (Forall_inv_tail Fh) as Hr.
  assert (Me : forall i pc, nth_error (s_calls s) i = Some pc -> method_of sF i = Some (pr_method (c_proc pc))).
  { intros i0 pc0 E. destruct (run_job tmax checks (l :: ls) s tr i0 pc0 Fh A E) as (p & E' & (_ & Jp & _)). unfold method_of. rewrite Ef, E'. cbn. rewrite Jp. reflexivity. }
  assert (Jo : forall i pc, nth_error (s_calls s) i = Some pc -> exists pc', nth_error (s_calls sF) i = Some pc' /\ same_job pc pc').
  { intros i0 pc0 E. rewrite Ef. exact (run_job tmax checks (l :: ls) s tr i0 pc0 Fh A E). }
  cbn [PoolSystem.prun PoolSystemSpec.plog] in *. destruct (pstep l s) as [[s1 t1]|] eqn:Es; [|eapply IH; eassumption].
  pose proof (effect_coarse tmax checks _ _ _ _ (step_effect tmax checks l s s1 t1 (a_keeps _ _ A) Hl Es)) as Q. pose proof (invA_step _ _ _ _ _ _ A Q) as A'.
  cbn [orderly] in O. destruct O as [O1 O2].
  assert (J' : invJ s1 (tr ++ t1)).
  { destruct (step_cases ps near tmax checks opened l s s1 t1 (a_keeps _ _ A) Hl Es) as [Us|Qu]; [|exact (invJ_quiet explain reason ln ps near tmax checks opened sF _ _ _ _ A J Qu)].
    exact (invJ_uses explain reason ln ps near tmax checks opened sF l s s1 tr t1 Hl A J Me O1 Us Q). }
  specialize (IH s1 (tr ++ t1) Hr A' J'). destruct (prun ls s1) as [s2 t2]. cbn [fst snd] in *. rewrite app_assoc.
  destruct (received_cons _ _ _ _ _ _ _ Re) as [R1|R2]; [|exact (IH Ef O2 i pc x b En R2)].
  apply got_own_grows. destruct (nth_error (s_calls s) i) as [p0|] eqn:E0.
  - destruct (Jo i p0 E0) as (p1 & E1 & Jp). rewrite En in E1. injection E1 as <-. apply (got_own_job _ p0 _ _ _ _ Jp).
    destruct Jp as (_ & Jp & _). rewrite <- Jp in R1. exact (step_received l s s1 tr t1 i p0 x b Hl A J Me O1 Es E0 R1).
  - exfalso. assert (X : exists w, l = LPoll i w).
    { unfold received in R1. destruct (pr_method (c_proc pc)); try (destruct R1 as (w & x0 & (t0 & [[= El Et]|[]] & I) & _); subst; eauto).
      destruct R1 as (_ & w & c & (t0 & [[= El Et]|[]] & I) & _). subst. eauto. }
    destruct X as [w ->]. cbn [PoolSystem.pstep] in Es. rewrite E0 in Es. discriminate.
Qed.
End System.

(** ** What comes for a call is its own *)
Section Theorems.
Context {F : floatlib} {U : urlenv} {W : httpenv} {SConn R : Type}.
Variable explain : request SConn -> ekind -> ustr * option ustr * option (list ustr).
Variable reason : status -> ustr.
Variables (ln : link SConn) (ps : saddr -> list (hproc SConn R)) (near : conn -> SConn).
Variables (queue : SConn -> list asking) (content : SConn -> bytes).
Variables (tmax : Z) (checks : bool).

(** In whatever way the server reads: its [n]th reply on a connection answers the [n]th request written on it. *)
Theorem own_received_by (reads : asking -> request SConn -> Prop) ls size d s tr i pc x b :
  prun tmax checks ls (psys_new size d) = (s, tr) -> Forall honest_label ls -> told_apart checks s tr ->
  (forall a c n h bo y, In (EOpen c a) tr -> nth_reply explain reason ln ps near a c n h bo -> nth_error (asked_on s c tr) n = Some y ->
     exists q s' b0, reads y q /\ reply_to explain reason ln (ps a) q = Sends s' h b0 /\ bo = match a_method y with MHead => None | _ => Some b0 end) ->
  orderly explain reason ln ps near (fun c a => In (EOpen c a) tr) [] (plog tmax checks ls (psys_new size d)) ->
  nth_error (s_calls s) i = Some pc -> received (pr_method (c_proc pc)) (plog tmax checks ls (psys_new size d)) i x b ->
  exists r q s' h b0, encode_request (pr_entry (c_proc pc)) (fst (c_req pc)) (N.of_nat (length (snd (c_req pc)))) = Ok r /\
    reads (mkAsking (pr_method (c_proc pc)) r (snd (c_req pc))) q /\ reply_to explain reason ln (ps (c_addr pc)) q = Sends s' h b0 /\
    head_of x h /\ b = match pr_method (c_proc pc) with MHead => [] | _ => b0 end.
Proof.
  intros Er Fh Sm An Or En Re.
  pose proof (invA_new size d) as A0. destruct (reached_addr tmax checks size d ls s tr Fh Er Sm) as [wr Br].
  pose proof (received_run explain reason ln ps near tmax checks (fun c a => In (EOpen c a) tr) s ls (psys_new size d) [] Fh A0 (invJ_new _ _ _ _ _ _ _ _ _)) as Jr. rewrite Er in Jr.
  specialize (Jr eq_refl Or i pc x b En Re). cbn [snd app] in Jr.
  destruct Jr as (c & n & (r & Ee & Eo) & Wh & a & Ia & Ea). destruct (in_split _ _ Ia) as (t1 & t2 & Et).
  destruct (b_acts _ _ _ _ _ Br _ _ _ _ Et) as (addr & b1 & Ead & Io & ->). unfold addr_of in Ead. rewrite En in Ead. injection Ead as <-. rewrite Ea in Io.
  assert (Io' : In (EOpen c (c_addr pc)) tr) by (rewrite Et; apply in_or_app; left; exact Io).
  destruct (Wh Io') as (h & bo & Nr & Hd & Hb). destruct (An _ _ _ _ _ _ Io' Nr Eo) as (q & s' & b0 & Qr & Qs & Qb).
  exists r, q, s', h, b0. split; [exact Ee|]. split; [exact Qr|]. split; [exact Qs|]. split; [exact Hd|].
  cbn [a_method] in Qb. unfold is_head, method_eqb in Hb. destruct (method_eq_dec (pr_method (c_proc pc)) MHead) as [Em|Em]; [rewrite Em; exact Hb|].
  destruct (pr_method (c_proc pc)); congruence.
Qed.
Theorem own_received ls size d s tr i pc x b :
  prun tmax checks ls (psys_new size d) = (s, tr) -> Forall honest_label ls -> told_apart checks s tr ->
  reading ln ps queue content -> (forall c, agrees (queue (near c)) (asked_on s c tr)) ->
  orderly explain reason ln ps near (fun c a => In (EOpen c a) tr) [] (plog tmax checks ls (psys_new size d)) ->
  nth_error (s_calls s) i = Some pc -> received (pr_method (c_proc pc)) (plog tmax checks ls (psys_new size d)) i x b ->
  own_reply explain reason ln ps content pc x b.
Proof.
  intros Er Fh Sm Rd Ag Or En Re. apply (own_received_by (reads_request content) ls size d s tr i pc x b Er Fh Sm); auto.
  intros a c n h bo y _ Nr Ey. destruct (nth_reply_answers explain reason ln ps near queue content Rd _ _ _ _ _ Nr) as (a1 & q & s' & b0 & Qa & Qr & Qs & Qb).
  rewrite (Ag c n _ _ Qa Ey) in *. exists q, s', b0. auto.
Qed.
End Theorems.
