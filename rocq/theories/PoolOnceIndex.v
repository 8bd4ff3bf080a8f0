(** * Which calls through a pool are run by servers: the response to a call is the one to its own request (C92).
    The definitions are for the proof, none models code. *)
From Verif Require Import Base Utf8 Decimal DepUrl Serde Procedure FieldSpec Status SerHeader SerRequest SerResponse DeHeader DeRequest DeResponse Router RouterSpec RouterProofs DepHttp Error Client ClientSpec ClientProofs Server ServerSpec ServerProofs EndToEndSpec SessionSpec Pool PoolSpec PoolProofs PoolSystem PoolSystemSpec PoolSystemProofs PoolSystemInv PoolSystemAddr PoolSystemGone PoolAnswerSpec PoolAnswer PoolOnceSpec PoolOnceProofs.
Open Scope nat_scope.

Definition reader_on (c : conn) (e : pevent) : list nat := match e with EAct i (ReadHead c') => if Nat.eqb c c' then [i] else [] | _ => [] end.
Definition readers_on (c : conn) (tr : list pevent) : list nat := flat_map (reader_on c) tr.
Lemma readers_on_app c a b : readers_on c (a ++ b) = readers_on c a ++ readers_on c b.
Proof. apply flat_map_app. Qed.
Lemma heads_readers c tr : heads c tr = length (readers_on c tr).
Proof.
  unfold heads, readers_on. induction tr as [|e tr IH]; [reflexivity|]. cbn [flat_map filter]. rewrite app_length, <- IH. destruct e as [|j [r b d|d|x]| |]; try reflexivity. cbn [reader_on]. destruct (Nat.eqb c d); reflexivity.
Qed.
Lemma on_write c j r b : writers_on c [EAct j (Write r b c)] = [j] /\ readers_on c [EAct j (Write r b c)] = [].
Proof. unfold writers_on. cbn [flat_map writer_on]. rewrite Nat.eqb_refl. split; reflexivity. Qed.
Lemma on_read c j : writers_on c [EAct j (ReadHead c)] = [] /\ readers_on c [EAct j (ReadHead c)] = [j].
Proof. unfold readers_on. cbn [flat_map reader_on]. rewrite Nat.eqb_refl. split; reflexivity. Qed.
Definition even (c : conn) (tr : list pevent) : Prop := readers_on c tr = writers_on c tr.

Section Call.
Context {F : floatlib} {U : urlenv} {W : httpenv} {SConn R : Type}.
Variable explain : request SConn -> ekind -> ustr * option ustr * option (list ustr).
Variable reason : status -> ustr.
Variables (ln : link SConn) (ps : saddr -> list (hproc SConn R)) (near : conn -> SConn).
Notation nth_reply := (nth_reply explain reason ln ps near).
Notation acts_ok := (acts_ok explain reason ln ps near).
Variable opened : conn -> saddr -> Prop.

Definition placed (j : nat) (c : conn) (tr : list pevent) (n : nat) : Prop := nth_error (writers_on c tr) n = Some j.
Definition reply_at (a : saddr) (c : conn) (n : nat) : Prop := opened c a -> exists h b, nth_reply a c n h b.
Definition settled_at (j : nat) (a : saddr) (c : conn) (tr : list pevent) : Prop := exists n, placed j c tr n /\ reply_at a c n.
Definition stance (j : nat) (a : saddr) (c : conn) (tr : list pevent) (k : call conn) : Prop :=
  match k_phase k with
  | PhA f => even c tr
  | PhB f => writers_on c tr = readers_on c tr ++ [j]
  | PhC f => even c tr /\ exists n, placed j c tr n /\ forall x, settle f = Comes x -> reply_at a c n
  | PhD f => even c tr /\ settled_at j a c tr
  end.
Lemma placed_grows j c tr t n : placed j c tr n -> placed j c (tr ++ t) n.
Proof. intros E. unfold placed in *. rewrite writers_on_app, nth_error_app1; [exact E|]. apply nth_error_Some. rewrite E. discriminate. Qed.
Lemma settled_grows j a c tr t : settled_at j a c tr -> settled_at j a c (tr ++ t).
Proof. intros (n & A & B). exists n. split; [apply placed_grows, A | exact B]. Qed.
Lemma stance_frame j a c tr t k : writers_on c t = [] -> readers_on c t = [] -> stance j a c tr k -> stance j a c (tr ++ t) k.
Proof.
  intros A B. unfold stance, even. rewrite readers_on_app, writers_on_app, A, B, !app_nil_r.
  destruct (k_phase k) as [f|f|f|f]; [auto | auto | |]; intros [L1 L2]; (split; [exact L1|]).
  - destruct L2 as (n & L2 & L3). exists n. split; [apply placed_grows, L2 | exact L3].
  - apply settled_grows, L2.
Qed.
Definition outgo (j : nat) (a : saddr) (c : conn) (tr : list pevent) (o : res (outcome conn)) : Prop :=
  match o with
  | Ok (Pending k) => stance j a c tr k
  | Ok (Done v b _) => even c tr /\ settled_at j a c tr
  | _ => True
  end.
Lemma poll_stance w j a p c : honest w -> forall fuel k before,
  keeps c k -> stance j a c before k -> acts_ok opened w before (map (EAct j) (fst (poll w p fuel k))) ->
  outgo j a c (before ++ map (EAct j) (fst (poll w p fuel k))) (snd (poll w p fuel k)).
Proof.
  intros (Hw & Hh & Hb). induction fuel as [|fuel IH]; intros k before K L; cbn [poll]; [intros _; exact I|].
  destruct k as [rq ph]. unfold keeps in K. unfold stance in L. cbn [k_phase k_request] in *. destruct ph as [f|f|f|f]; cbn [phase_poll].
  - destruct f as [c0|e|f|]; cbn [fpoll settle] in *; try (intros _; exact I).
    + specialize (K c0 eq_refl). subst c0. destruct rq as [[v b]|]; [|intros _; exact I]. unfold on_connected.
      destruct (encode_request (pr_entry p) v (N.of_nat (length b))) as [r|e| |] eqn:Ee; cbn [bind]; try (intros _; exact I).
      specialize (IH (mkCall None (PhB (w_write w r b c))) (before ++ [EAct j (Write r b c)]) (Hw r b c)).
      destruct (poll w p fuel (mkCall None (PhB (w_write w r b c)))) as [t o]. cbn [fst snd map acts_ok PoolAnswerSpec.acts_ok] in *. intros [_ A].
      rewrite <- app_assoc in IH. apply IH; [|exact A]. unfold stance. cbn [k_phase]. rewrite readers_on_app, writers_on_app, L. destruct (on_write c j r b) as [-> ->].
      rewrite app_nil_r. reflexivity.
    + intros _. cbn [fst snd map]. rewrite app_nil_r. exact L.
    + intros _. cbn [fst snd map]. rewrite app_nil_r. exact L.
  - destruct f as [c0|e|f|]; cbn [fpoll settle] in *; try (intros _; exact I).
    + specialize (K c0 eq_refl). subst c0.
      specialize (IH (mkCall rq (PhC (w_head w c))) (before ++ [EAct j (ReadHead c)]) (Hh c)).
      destruct (poll w p fuel (mkCall rq (PhC (w_head w c)))) as [t o]. cbn [fst snd map acts_ok PoolAnswerSpec.acts_ok] in *. intros [Ok1 A].
      rewrite <- app_assoc in IH. apply IH; [|exact A]. unfold stance, even. cbn [k_phase]. rewrite readers_on_app, writers_on_app, L. destruct (on_read c j) as [-> ->].
      rewrite app_nil_r. split; [reflexivity|]. exists (heads c before). split.
      * apply placed_grows. unfold placed. rewrite L, heads_readers, nth_error_app2, Nat.sub_diag by lia. reflexivity.
      * intros x Ex Op. destruct (Ok1 x _ Ex Op) as (h & b & N & _). eauto.
    + intros _. cbn [fst snd map]. rewrite app_nil_r. exact L.
    + intros _. cbn [fst snd map]. rewrite app_nil_r. exact L.
  - destruct f as [r|e|f|]; cbn [fpoll settle] in *; try (intros _; exact I).
    + specialize (K r eq_refl). destruct L as [Ba (n & Lo & Lh)]. specialize (Lh r eq_refl). destruct (is_head p) eqn:Ei.
      * apply IH; [intros r0 b0 [= <- <-]; exact K|]. unfold stance. cbn [k_phase]. split; [exact Ba|]. exists n. split; [exact Lo | exact Lh].
      * specialize (IH (mkCall rq (PhD (w_body w r))) (before ++ [EAct j (ReadBody r)])).
        assert (K' : keeps c (mkCall rq (PhD (w_body w r)))) by (intros r0 b0 E; rewrite (Hb _ _ _ E); exact K). specialize (IH K').
        destruct (poll w p fuel (mkCall rq (PhD (w_body w r)))) as [t o]. cbn [fst snd map acts_ok PoolAnswerSpec.acts_ok] in *. intros [_ A].
        rewrite <- app_assoc in IH. apply IH; [|exact A]. unfold stance, even. cbn [k_phase]. rewrite readers_on_app, writers_on_app. change (readers_on c [EAct j (ReadBody r)]) with (@nil nat). change (writers_on c [EAct j (ReadBody r)]) with (@nil nat).
        rewrite !app_nil_r. split; [exact Ba|]. apply settled_grows. exists n. split; [exact Lo | exact Lh].
    + intros _. cbn [fst snd map]. rewrite app_nil_r. exact L.
    + intros _. cbn [fst snd map]. rewrite app_nil_r. destruct L as [Ba (n & Lo & Lh)]. split; [exact Ba|]. exists n. split; [exact Lo|]. intros x E; discriminate E.
  - destruct f as [[r b]|e|f|]; cbn [fpoll settle] in *; try (intros _; exact I).
    + intros _. cbn [fst snd map]. rewrite app_nil_r. unfold on_received. destruct (de_response (r_code r) (r_headers r) (pr_resp p)) as [v|e| |] eqn:Ed; cbn [bind]; try exact I. exact L.
    + intros _. cbn [fst snd map]. rewrite app_nil_r. exact L.
    + intros _. cbn [fst snd map]. rewrite app_nil_r. exact L.
Qed.

(** ** The pool and the calls *)
Variables (tmax : Z) (checks : bool).
Notation acts_okp := (PoolAnswerSpec.acts_ok explain reason ln ps near opened).
Notation coarse := (coarse tmax checks).
Notation quiet := (quiet tmax checks).
Record invW (s : psys) (tr : list pevent) : Prop := {
  w_fresh : forall c, length (s_opened s) <= c -> writers_on c tr = [] /\ readers_on c tr = [];
  w_free : forall c, 0 < H s c -> (forall i k, state_of i s <> Some (Talking c k)) -> even c tr;
  w_calls : forall i pc, nth_error (s_calls s) i = Some pc ->
    match c_state pc with
    | Talking c k => stance i (c_addr pc) c tr k
    | Finished v b => exists c, In (ERelease i (c_addr pc) c) tr /\ settled_at i (c_addr pc) c tr
    | _ => True
    end
}.
Lemma silent_on c t : silent t -> writers_on c t = [] /\ readers_on c t = [].
Proof.
  intros Si. induction t as [|e t IH]; [split; reflexivity|]. assert (St : silent t) by (intros i a I; exact (Si i a (or_intror I))). destruct (IH St) as [A B].
  destruct e as [c0 a|i a|i a c0|i a]; try (split; [exact A | exact B]). exfalso. exact (Si i a (or_introl eq_refl)).
Qed.
Lemma invW_quiet s s' tr t : invA s tr -> invW s tr -> quiet s s' t -> invW s' (tr ++ t).
Proof.
  intros A [Jf Jb Jc] (Si & Q & Qc & Qt).
  assert (Za : forall c, writers_on c (tr ++ t) = writers_on c tr) by (intros c; rewrite writers_on_app, (proj1 (silent_on c t Si)), app_nil_r; reflexivity).
  assert (Zh : forall c, readers_on c (tr ++ t) = readers_on c tr) by (intros c; rewrite readers_on_app, (proj2 (silent_on c t Si)), app_nil_r; reflexivity).
  destruct (coarse_opened _ _ _ _ _ Q) as [op Eop]. split.
  - intros c L. rewrite Za, Zh. apply Jf. rewrite Eop, app_length in L. lia.
  - intros c P N. unfold even. rewrite Za, Zh. destruct (Nat.lt_ge_cases c (length (s_opened s))) as [L|L].
    + pose proof (coarse_H tmax checks _ _ _ c Q L) as M. apply Jb; [lia|]. intros i k E. destruct (Qt i c k E) as [E'|E']; [exact (N i k E')|]. pose proof (a_once _ _ A c). lia.
    + destruct (Jf c L) as [-> ->]. reflexivity.
  - intros i pc' E. destruct (Qc i pc' E) as [(pc & E0 & J & Es)|P].
    + specialize (Jc i pc E0). rewrite Es. destruct J as [J _]. rewrite <- J. destruct (c_state pc) as [a|c k|v b|k| |]; try exact I.
      * apply stance_frame; [apply silent_on, Si | apply silent_on, Si|]. exact Jc.
      * destruct Jc as (c & I1 & I2). exists c. split; [apply in_or_app; left; exact I1 | apply settled_grows; exact I2].
    + destruct (c_state pc'); try exact I; contradiction.
Qed.
Lemma elsewhere_on c d j ts : Forall (fun a => act_conn a = c) ts -> c <> d -> writers_on d (map (EAct j) ts) = [] /\ readers_on d (map (EAct j) ts) = [].
Proof.
  intros Fa N. induction Fa as [|a ts E Fa IH]; [split; reflexivity|]. destruct IH as [I1 I2].
  change (map (EAct j) (a :: ts)) with ([EAct j a] ++ map (EAct j) ts). rewrite writers_on_app, readers_on_app, I1, I2, !app_nil_r.
  destruct a as [r b c'|c'|x]; cbn [act_conn] in E; unfold readers_on, writers_on; cbn [flat_map writer_on reader_on app]; try (destruct (Nat.eqb_spec d c') as [->|]; [congruence|]); auto.
Qed.
Lemma invW_uses l s s' tr t : honest_label l -> invA s tr -> invW s tr ->
  match l with LPoll _ w => acts_okp w tr t | _ => True end -> uses_at l s s' t -> coarse s s' t -> invW s' (tr ++ t).
Proof.
  intros Hl A [Jf Jb Jc] Lo (j & w & pc & c & k & x & cs & op & pre & rs & -> & En & Kk & -> & -> & Fa & Fx & D) Q.
  cbn [honest_label] in *. set (r := poll_call w (c_proc pc) k) in *.
  assert (Sp : silent pre) by (destruct D as [(_ & -> & _)|(_ & -> & _)]; [exact silent_nil | intros i a [E|[]]; discriminate E]).
  assert (Sr : silent rs) by (intros i a; exact (fate_rs _ _ _ _ _ _ Fa i a)).
  pose proof (poll_keeps w (c_proc pc) c Hl 5 k Kk) as [Ka _]. fold (poll_call w (c_proc pc) k) in Ka. fold r in Ka.
  (* what is known of the connection before *)
  assert (Lc : stance j (c_addr pc) c (tr ++ pre) k).
  { apply stance_frame; [apply silent_on, Sp | apply silent_on, Sp|]. destruct D as [(_ & _ & Hh & [Es|[Es ->]])|(_ & _ & Ec & Hh & Es & ->)].
    - specialize (Jc j pc En). rewrite Es in Jc. exact Jc.
    - apply Jb.
      + pose proof (held_at_le j s c) as M. unfold held_at in M. rewrite En, Hh, cnt_cons, one_self in M. lia.
      + intros i k' E. assert (Ni : i <> j) by (intros ->; unfold state_of in E; rewrite En in E; cbn in E; rewrite Es in E; discriminate E).
        pose proof (held_at2_le i j s c Ni) as M. unfold held_at in M. rewrite En, Hh in M. unfold state_of in E. destruct (nth_error (s_calls s) i) as [pi|]; [|discriminate].
        injection E as E. unfold held in M. rewrite E in M. rewrite !cnt_cons, one_self, !cnt_nil in M. pose proof (a_once _ _ A c). lia.
    - unfold stance, even. cbn [call_new k_phase]. destruct (Jf c ltac:(lia)) as [-> ->]. reflexivity. }
  rewrite !acts_ok_app in Lo. destruct Lo as (_ & Lo & _).
  pose proof (poll_stance w j (c_addr pc) (c_proc pc) c Hl 5 k (tr ++ pre) Kk Lc Lo) as Po. fold (poll_call w (c_proc pc) k) in Po. fold r in Po.
  (* the others *)
  assert (El : forall d, c <> d -> writers_on d (pre ++ map (EAct j) (fst r) ++ rs) = [] /\ readers_on d (pre ++ map (EAct j) (fst r) ++ rs) = []).
  { intros d N. rewrite !writers_on_app, !readers_on_app. destruct (silent_on d pre Sp) as [-> ->]. destruct (silent_on d rs Sr) as [-> ->]. destruct (elsewhere_on c d j (fst r) Ka N) as [-> ->]. auto. }
  assert (Eo : s_opened (moved j x cs op s) = s_opened s ++ op) by reflexivity.
  assert (Lc' : c < length (s_opened s ++ op)).
  { destruct D as [(_ & _ & Hh & _)|(-> & _ & -> & _)]; [|rewrite app_length; cbn; lia]. rewrite app_length. pose proof (held_at_le j s c) as M. unfold held_at in M. rewrite En, Hh, cnt_cons, one_self in M.
    pose proof (a_fresh _ _ A c ltac:(lia)). lia. }
  assert (Ot : forall i pi d k', i <> j -> nth_error (s_calls s) i = Some pi -> c_state pi = Talking d k' -> c <> d).
  { intros i pi d k' Ni Ei Es <-. pose proof (a_once _ _ A c) as On. destruct D as [(_ & _ & Hh & _)|(_ & _ & Ec & _)].
    - pose proof (held_at2_le i j s c Ni) as M. unfold held_at in M. rewrite En, Ei, Hh in M. unfold held in M. rewrite Es in M. rewrite !cnt_cons, one_self, !cnt_nil in M. lia.
    - pose proof (held_at_le i s c) as M. unfold held_at in M. rewrite Ei in M. unfold held in M. rewrite Es in M. rewrite cnt_cons, one_self, cnt_nil in M. pose proof (a_fresh _ _ A c ltac:(lia)). lia. }
  split.
  - intros d L. rewrite Eo in L. assert (N : c <> d) by lia. rewrite app_length in L. rewrite writers_on_app, readers_on_app. destruct (El d N) as [-> ->]. rewrite !app_nil_r. apply Jf. lia.
  - intros d P N. destruct (Nat.eq_dec c d) as [<-|Nd].
    + unfold even. rewrite app_assoc, (app_assoc (tr ++ pre)). rewrite writers_on_app, readers_on_app. destruct (silent_on c rs Sr) as [-> ->]. rewrite !app_nil_r.
      destruct (snd r) as [[k'|v b c']|e| |]; try (
        exfalso; assert (Hx : held_in x = []) by (destruct x; try contradiction; reflexivity); assert (Cs : flat_map carried cs = []) by (destruct Fa; try contradiction; reflexivity);
        pose proof (moved_H j x cs op s pc c En) as M; rewrite Hx, Cs in M; rewrite cnt_nil in M; pose proof (a_once _ _ A c) as On;
        destruct D as [(_ & _ & Hh & _)|(_ & _ & Ec & Hh & _)]; rewrite Hh in M; [rewrite cnt_cons, one_self in M; lia|];
        assert (Z : H s c = 0) by (destruct (H s c) eqn:Eh; [reflexivity | pose proof (a_fresh _ _ A c ltac:(lia)); lia]); lia).
      * exfalso. apply (N j k'). rewrite moved_state, Nat.eqb_refl, En. cbn. rewrite Fx. reflexivity.
      * exact (proj1 Po).
    + unfold even. rewrite writers_on_app, readers_on_app. destruct (El d Nd) as [-> ->]. rewrite !app_nil_r. destruct (Nat.lt_ge_cases d (length (s_opened s))) as [L|L].
      * pose proof (coarse_H tmax checks _ _ _ d Q L) as M. apply Jb; [lia|]. intros i k' E. destruct (Nat.eq_dec i j) as [->|Ni].
        -- unfold state_of in E. rewrite En in E. injection E as E. destruct D as [(_ & _ & Hh & _)|(_ & _ & _ & _ & Es & _)]; [|congruence]. unfold held in Hh. rewrite E in Hh. congruence.
        -- apply (N i k'). rewrite moved_state. destruct (Nat.eqb_spec j i); [congruence | exact E].
      * destruct (Jf d L) as [-> ->]. reflexivity.
  - intros i pc' E. cbn [moved s_calls] in E. destruct (nth_error (s_calls s) i) as [pi|] eqn:Ei.
    2:{ exfalso. assert (i < length (set_state j x (s_calls s))) by (apply nth_error_Some; rewrite E; discriminate). rewrite set_length in *. apply nth_error_None in Ei. lia. }
    destruct (set_job j x (s_calls s) i pi Ei) as (p1 & E1 & J & S1). rewrite E1 in E. injection E as <-. rewrite S1. destruct J as [J _]. rewrite <- J. destruct (Nat.eqb_spec j i) as [<-|N].
    + rewrite En in Ei. injection Ei as <-. destruct (snd r) as [[k'|v b c']|e| |]; try (destruct x; try contradiction; exact I).
      * subst x. rewrite app_assoc, (app_assoc (tr ++ pre)). apply stance_frame; [apply silent_on, Sr | apply silent_on, Sr | exact Po].
      * destruct Fx as [-> ->]. exists c. split; [apply in_or_app; right; apply in_or_app; right; apply in_or_app; right; left; reflexivity|].
        rewrite app_assoc, (app_assoc (tr ++ pre)). apply settled_grows. exact (proj2 Po).
    + specialize (Jc i pi Ei). destruct (c_state pi) as [a|d k'|v b|e| |] eqn:Es; try exact I.
      * pose proof (Ot i pi d k' ltac:(congruence) Ei Es) as Nd. apply stance_frame; [apply El, Nd | apply El, Nd | exact Jc].
      * destruct Jc as (d & I1 & I2). exists d. split; [apply in_or_app; left; exact I1 | apply settled_grows; exact I2].
Qed.
Lemma invW_run ls : forall s tr, Forall honest_label ls -> invA s tr -> invW s tr -> orderly explain reason ln ps near opened tr (plog tmax checks ls s) ->
  invW (fst (prun tmax checks ls s)) (tr ++ snd (prun tmax checks ls s)).
Proof.
  induction ls as [|l ls IH]; intros s tr Fh A J O; [cbn [prun fst snd] in *; rewrite app_nil_r; exact J|]. pose proof (Forall_inv Fh) as Hl. pose proof (Forall_inv_tail Fh) as Hr.
  cbn [prun plog] in *. destruct (pstep tmax checks l s) as [[s1 t1]|] eqn:Es; [|apply IH; assumption].
  pose proof (effect_coarse tmax checks _ _ _ _ (step_effect tmax checks l s s1 t1 (a_keeps _ _ A) Hl Es)) as Q. pose proof (invA_step _ _ _ _ _ _ A Q) as A'.
  cbn [orderly] in O. destruct O as [O1 O2].
  assert (J' : invW s1 (tr ++ t1)).
  { destruct (step_cases ps near tmax checks opened l s s1 t1 (a_keeps _ _ A) Hl Es) as [Us|Qu]; [|exact (invW_quiet _ _ _ _ A J Qu)]. exact (invW_uses l s s1 tr t1 Hl A J O1 Us Q). }
  specialize (IH s1 (tr ++ t1) Hr A' J'). destruct (prun tmax checks ls s1) as [s2 t2]. cbn [fst snd] in *. rewrite app_assoc. apply IH. exact O2.
Qed.
Lemma invW_new size d : invW (psys_new size d) [].
Proof.
  split.
  - intros c _. split; reflexivity.
  - intros c P _. reflexivity.
  - intros i pc E. destruct i; discriminate.
Qed.
End Call.

(** A call that has finished: the server at its address has answered its request. *)
Theorem answered_place {F : floatlib} {U : urlenv} {W : httpenv} {SConn R : Type} explain reason (ln : link SConn) (ps : saddr -> list (hproc SConn R)) near tmax checks ls size d s tr i pc v b :
  prun tmax checks ls (psys_new size d) = (s, tr) -> Forall honest_label ls -> told_apart checks s tr ->
  orderly explain reason ln ps near (fun c a => In (EOpen c a) tr) [] (plog tmax checks ls (psys_new size d)) ->
  nth_error (s_calls s) i = Some pc -> c_state pc = Finished v b ->
  exists c n h b0, In (EOpen c (c_addr pc)) tr /\ nth_error (writers_on c tr) n = Some i /\ nth_reply explain reason ln ps near (c_addr pc) c n h b0.
Proof.
  intros Er Fh Sm Or En Es. pose proof (invA_new size d) as A0. destruct (reached_addr tmax checks size d ls s tr Fh Er Sm) as [wr Br].
  pose proof (invW_run explain reason ln ps near (fun c a => In (EOpen c a) tr) tmax checks ls (psys_new size d) [] Fh A0 (invW_new _ _ _ _ _ _ _ _) Or) as Jr. rewrite Er in Jr. cbn [fst snd app] in Jr.
  pose proof (w_calls _ _ _ _ _ _ _ _ Jr i pc En) as Jc. rewrite Es in Jc. destruct Jc as (c & Ir & n & P & Re). destruct (in_split _ _ Ir) as (t1 & t2 & Et).
  destruct (b_rels _ _ _ _ _ Br _ _ _ _ _ Et) as (_ & ? & Io & ->). assert (Io' : In (EOpen c (c_addr pc)) tr) by (rewrite Et; apply in_or_app; left; exact Io).
  destruct (Re Io') as (h & b0 & N). exists c, n, h, b0. auto.
Qed.
