(** * What calls through a pool come to when nothing is known of the servers: proofs (C93).
    The definitions are for the proof, none models code. *)
From Verif Require Import Base Utf8 Decimal DepUrl Serde Procedure FieldSpec Status SerHeader SerRequest SerResponse DeHeader DeRequest DeResponse Router RouterSpec RouterProofs DepHttp
  Error Client ClientSpec ClientProofs Server ServerSpec ServerProofs EndToEndSpec SessionSpec Pool PoolSpec PoolProofs PoolSystem PoolSystemSpec PoolSystemProofs PoolSystemInv PoolSystemAddr PoolSystemGone
  PoolAnswerSpec PoolAnswer PoolCauseSpec HttpBytes HttpBytesSpec HttpBytesProofs CutsSpec WholeSpec Whole PoolBytesSpec PoolBytes PoolOnceSpec PoolOnceProofs PoolOnceIndex PoolTurnSpec.
Open Scope nat_scope.

Section Found.
Context {F : floatlib} {U : urlenv}.
Variables (room : nat) (parse : bytes -> parsed (N * list rheader)) (closed : bool).
Notation found_in := (found_in room parse).
Notation found_all := (found_all room parse).
Definition finds (e : errand) (s : bytes) := found_in (e_proc e) (e_value e) (e_body e) closed s.
(** The bytes that are left when all have found their responses. *)
Fixpoint rest_of (es : list errand) (s : bytes) : option bytes :=
  match es with
  | [] => Some s
  | e :: es => match finds e s with Finds _ _ rest => rest_of es rest | _ => None end
  end.
Lemma rest_snoc es e : forall s r v b r', rest_of es s = Some r -> finds e r = Finds v b r' -> rest_of (es ++ [e]) s = Some r'.
Proof.
  induction es as [|e0 es IH]; intros s r v b r' A B; cbn [rest_of app] in *; [injection A as ->; rewrite B; reflexivity|].
  destruct (finds e0 s); try discriminate. exact (IH _ _ _ _ _ A B).
Qed.
Lemma all_app es es' : forall s, prefix (found_all es closed s) (found_all (es ++ es') closed s).
Proof.
  induction es as [|e es IH]; intros s; cbn [WholeSpec.found_all app]; [eexists; reflexivity|]. destruct (found_in _ _ _ _ _); try (exists []; reflexivity).
  destruct (IH rest) as [z ->]. exists z. reflexivity.
Qed.
Lemma rest_all es : forall s r, rest_of es s = Some r -> length (found_all es closed s) = length es.
Proof.
  induction es as [|e es IH]; intros s r A; [reflexivity|]. cbn [rest_of WholeSpec.found_all] in *. unfold finds in A. destruct (found_in _ _ _ _ _); try discriminate. cbn [length]. f_equal. exact (IH _ _ A).
Qed.
Lemma rest_next es e : forall s r v b r', rest_of es s = Some r -> finds e r = Finds v b r' -> nth_error (found_all (es ++ [e]) closed s) (length es) = Some (v, b).
Proof.
  induction es as [|e0 es IH]; intros s r v b r' A B; cbn [rest_of app WholeSpec.found_all length] in *; unfold finds in *.
  - injection A as ->. rewrite B. reflexivity.
  - destruct (found_in (e_proc e0) _ _ _ _); try discriminate. exact (IH _ _ _ _ _ A B).
Qed.
End Found.

Section Call.
Context {F : floatlib} {U : urlenv}.
Variables (trims : bool) (cl : limits) (far : conn -> bconn).
Variables (tmax : Z) (checks : bool).
Variable sF : psys.
Notation room := (most_bytes cl).
Notation parse := (run (HttpBytes.pstep trims (most_headers cl)) (PVersion (u "HTTP/1.1 "))).
Notation act_bytes := (act_bytes trims cl).
Notation acts_bytes := (acts_bytes trims cl).
Notation after_act := (after_act trims cl).
Notation after_acts := (after_acts trims cl).
Hypothesis Far : forall c, length (b_held (far c)) <= room.
Definition errands (js : list nat) : list errand := flat_map (errand_of sF) js.
Definition left_on (c : conn) (js : list nat) (r : bytes) : Prop := rest_of room parse (b_closed (far c)) (errands js) (stream (far c)) = Some r /\ length (errands js) = length js.
Definition has (c : conn) (r : bytes) (x : bconn) : Prop := holds room (b_closed (far c)) r x.
Definition poised (c : conn) (tr : list pevent) (x : bconn) : Prop := exists r, left_on c (writers_on c tr) r /\ has c r x.
Definition behind (c : conn) (tr : list pevent) : Prop := exists js l r, writers_on c tr = js ++ l /\ length l <= 1 /\ left_on c js r.
(** The call [i] is the last that has written on the connection, and [r] was before it then. *)
Definition last_on (i : nat) (c : conn) (tr : list pevent) (pc : pcall) (r : bytes) : Prop := exists js rq,
  writers_on c tr = js ++ [i] /\ left_on c js r /\ errand_of sF i = [mkErrand (c_proc pc) (fst (c_req pc)) (snd (c_req pc))] /\
  encode_request (pr_entry (c_proc pc)) (fst (c_req pc)) (N.of_nat (length (snd (c_req pc)))) = Ok rq.
Definition content (p : proc) (c : conn) (hs : list rheader) (rest : bytes) : settled (bytes * bytes) :=
  match pr_method p with MHead => Comes ([], rest) | _ => body_in (b_closed (far c)) hs rest end.
Definition course (i : nat) (c : conn) (tr : list pevent) (st : conn -> bconn) (pc : pcall) (k : call conn) : Prop :=
  match k_phase k with
  | PhA f => k_request k = Some (c_req pc) /\ poised c tr (st c)
  | PhB f => exists r, last_on i c tr pc r /\ has c r (st c)
  | PhC f => exists r, last_on i c tr pc r /\ forall x, settle f = Comes x -> exists rest,
      head_in parse room (b_closed (far c)) r = Comes (Some (Some ((r_code x, r_headers x), rest))) /\ has c rest (st c) /\ b_left (st c) = body_length (r_headers x)
  | PhD f => exists r, last_on i c tr pc r /\ forall x b, settle f = Comes (x, b) -> exists rest rest',
      head_in parse room (b_closed (far c)) r = Comes (Some (Some ((r_code x, r_headers x), rest))) /\ content (c_proc pc) c (r_headers x) rest = Comes (b, rest') /\ has c rest' (st c)
  end.
Definition finished_on (i : nat) (c : conn) (tr : list pevent) (v : value) (b : bytes) : Prop := exists n,
  nth_error (writers_on c tr) n = Some i /\ nth_error (found_all room parse (errands (writers_on c tr)) (b_closed (far c)) (stream (far c))) n = Some (v, b).

Lemma errands_app a b : errands (a ++ b) = errands a ++ errands b.
Proof. apply flat_map_app. Qed.
Lemma poised_behind c tr x : poised c tr x -> behind c tr.
Proof. intros (r & A & _). exists (writers_on c tr), [], r. rewrite app_nil_r. auto. Qed.
Lemma last_behind i c tr pc r : last_on i c tr pc r -> behind c tr.
Proof. intros (js & rq & A & B & _). exists js, [i], r. auto. Qed.
Lemma left_length c : forall js r, left_on c js r -> length (found_all room parse (errands js) (b_closed (far c)) (stream (far c))) = length js.
Proof. intros js r [A <-]. exact (rest_all _ _ _ _ _ _ A). Qed.
Lemma behind_frame c tr t : writers_on c t = [] -> behind c tr -> behind c (tr ++ t).
Proof. intros A B. unfold behind. rewrite writers_on_app, A, app_nil_r. exact B. Qed.
Lemma course_frame i c tr t st st' pc k : writers_on c t = [] -> st' c = st c -> course i c tr st pc k -> course i c (tr ++ t) st' pc k.
Proof. intros A C. unfold course, poised, last_on. rewrite writers_on_app, A, C, app_nil_r. exact (fun L => L). Qed.
Lemma finished_grows i c tr t v b : finished_on i c tr v b -> finished_on i c (tr ++ t) v b.
Proof.
  intros (n & A & B). exists n. rewrite writers_on_app, errands_app. split; [rewrite nth_error_app1; [exact A|]; apply nth_error_Some; rewrite A; discriminate|].
  destruct (all_app room parse (b_closed (far c)) (errands (writers_on c tr)) (errands (writers_on c t)) (stream (far c))) as [z ->].
  rewrite nth_error_app1; [exact B|]. apply nth_error_Some. rewrite B. discriminate.
Qed.
Lemma course_job i c tr st pc pc' k : same_job pc pc' -> course i c tr st pc k -> course i c tr st pc' k.
Proof. destruct pc as [a p r x], pc' as [a' p' r' x']. intros (E1 & E2 & E3). cbn [c_addr c_proc c_req] in *. subst a' p' r'. exact (fun L => L). Qed.

(** A response that has been read, by a call of this procedure, value and body. *)
Lemma found_so (pc : pcall) c r (x : response conn) b rest rest' rq v :
  encode_request (pr_entry (c_proc pc)) (fst (c_req pc)) (N.of_nat (length (snd (c_req pc)))) = Ok rq ->
  head_in parse room (b_closed (far c)) r = Comes (Some (Some ((r_code x, r_headers x), rest))) -> content (c_proc pc) c (r_headers x) rest = Comes (b, rest') ->
  de_response (r_code x) (r_headers x) (pr_resp (c_proc pc)) = Ok v ->
  finds room parse (b_closed (far c)) (mkErrand (c_proc pc) (fst (c_req pc)) (snd (c_req pc))) r = Finds v b rest'.
Proof. intros A B C D. unfold finds, found_in. cbn [e_proc e_value e_body]. rewrite A. 
  match goal with |- context [@head_in ?T ?p ?q ?d ?s] => set (h := @head_in T p q d s); assert (B' : h = Comes (Some (Some ((r_code x, r_headers x), rest)))) by exact B; clearbody h; subst h end.
  cbv zeta. unfold content in C. rewrite C, D. reflexivity. Qed.

(** ** One poll *)
Definition comes_out (i : nat) (c : conn) (tr : list pevent) (st : conn -> bconn) (pc : pcall) (o : res (outcome conn)) : Prop :=
  match o with
  | Ok (Pending k) => course i c tr st pc k /\ behind c tr
  | Ok (Done v b _) => poised c tr (st c) /\ finished_on i c tr v b
  | _ => behind c tr
  end.
Lemma course_behind i c tr st pc k : course i c tr st pc k -> behind c tr.
Proof.
  unfold course. destruct (k_phase k); [intros [_ A]; exact (poised_behind _ _ _ A)| | |]; intros (r & A & _); exact (last_behind _ _ _ _ _ A).
Qed.
Lemma course_out i c tr st pc o k : o = Ok (Pending k) -> course i c tr st pc k -> comes_out i c tr st pc o.
Proof. intros -> L. split; [exact L | exact (course_behind _ _ _ _ _ _ L)]. Qed.
Lemma poll_course w j pc c : honest w -> errand_of sF j = [mkErrand (c_proc pc) (fst (c_req pc)) (snd (c_req pc))] -> forall fuel k before st,
  keeps c k -> course j c before st pc k -> acts_bytes st w (map (EAct j) (fst (poll w (c_proc pc) fuel k))) ->
  comes_out j c (before ++ map (EAct j) (fst (poll w (c_proc pc) fuel k))) (after_acts (map (EAct j) (fst (poll w (c_proc pc) fuel k))) st) pc (snd (poll w (c_proc pc) fuel k)).
Proof.
  intros (Hw & Hh & Hb) Em. induction fuel as [|fuel IH]; intros k before st K L; cbn [poll].
  { intros _. cbn [fst snd map comes_out]. rewrite app_nil_r. exact (course_behind _ _ _ _ _ _ L). }
  pose proof (course_behind _ _ _ _ _ _ L) as Lb.
  destruct k as [rq ph]. unfold keeps in K. unfold course in L. cbn [k_phase k_request] in *. destruct ph as [f|f|f|f]; cbn [phase_poll].
  - destruct f as [c0|e|f|]; cbn [fpoll settle] in *.
    + specialize (K c0 eq_refl). subst c0. destruct L as (-> & Cl). unfold on_connected. destruct (c_req pc) as [v b] eqn:Er.
      destruct (encode_request (pr_entry (c_proc pc)) v (N.of_nat (length b))) as [r|e| |] eqn:Ee; cbn [bind]; try (intros _; cbn [fst snd map comes_out]; rewrite app_nil_r; exact Lb).
      specialize (IH (mkCall None (PhB (w_write w r b c))) (before ++ [EAct j (Write r b c)]) st (Hw r b c)).
      destruct (poll w (c_proc pc) fuel (mkCall None (PhB (w_write w r b c)))) as [t o]. cbn [fst snd map PoolBytesSpec.acts_bytes] in *. intros [_ A].
      rewrite <- app_assoc in IH. apply IH; [|exact A]. unfold course. cbn [k_phase]. destruct Cl as (r0 & L1 & L2). exists r0. split; [|exact L2].
      exists (writers_on c before), r. rewrite writers_on_app, (proj1 (on_write c j r b)), Er. cbn [fst snd]. auto.
    + intros _. cbn [fst snd map comes_out]. rewrite app_nil_r. exact Lb.
    + intros _. cbn [fst snd map]. rewrite app_nil_r. apply (course_out _ _ _ _ _ _ _ eq_refl); exact L.
    + intros _. cbn [fst snd map]. rewrite app_nil_r. apply (course_out _ _ _ _ _ _ _ eq_refl); exact L.
  - destruct f as [c0|e|f|]; cbn [fpoll settle] in *.
    + specialize (K c0 eq_refl). subst c0. destruct L as (r & La & Lh).
      specialize (IH (mkCall rq (PhC (w_head w c))) (before ++ [EAct j (ReadHead c)]) (after_act st (EAct j (ReadHead c))) (Hh c)).
      destruct (poll w (c_proc pc) fuel (mkCall rq (PhC (w_head w c)))) as [t o]. cbn [fst snd map PoolBytesSpec.acts_bytes] in *. intros [A1 A].
      rewrite <- app_assoc in IH. apply IH; [|exact A]. unfold course. cbn [k_phase]. exists r. split.
      * unfold last_on. rewrite writers_on_app, (proj1 (on_read c j)), app_nil_r. exact La.
      * intros x Ex. cbn [PoolBytesSpec.act_bytes] in A1. destruct (A1 x Ex) as [c' Eh]. cbn [PoolBytesSpec.after_act]. rewrite Eh. unfold put_conn. rewrite Nat.eqb_refl. cbn [r_conn].
        pose proof (response_exact trims cl _ _ _ Lh) as X. cbn [w_head byte_wire] in X. rewrite Eh in X.
        destruct (head_in parse room (b_closed (far c)) r) as [[[[[n hs] rest]|]|]|e|]; try discriminate; [|contradiction].
        destruct X as (c1 & X1 & X2 & X3). injection X1 as <- <- <-. exists rest. auto.
    + intros _. cbn [fst snd map comes_out]. rewrite app_nil_r. exact Lb.
    + intros _. cbn [fst snd map]. rewrite app_nil_r. apply (course_out _ _ _ _ _ _ _ eq_refl); exact L.
    + intros _. cbn [fst snd map]. rewrite app_nil_r. apply (course_out _ _ _ _ _ _ _ eq_refl); exact L.
  - destruct f as [x|e|f|]; cbn [fpoll settle] in *.
    + specialize (K x eq_refl). destruct L as (r & La & Lh). destruct (Lh x eq_refl) as (rest & L1 & L2 & L3). destruct (is_head (c_proc pc)) eqn:Ei.
      * apply IH; [intros r0 b0 [= <- <-]; exact K|]. unfold course. cbn [k_phase]. exists r. split; [exact La|]. intros x0 b0 E. cbn [settle] in E. injection E as <- <-. exists rest, rest. split; [exact L1|]. split; [|exact L2].
        unfold content. unfold is_head, method_eqb in Ei. destruct (method_eq_dec (pr_method (c_proc pc)) MHead) as [->|]; [reflexivity | discriminate].
      * specialize (IH (mkCall rq (PhD (w_body w x))) (before ++ [EAct j (ReadBody x)]) (after_act st (EAct j (ReadBody x)))).
        assert (K' : keeps c (mkCall rq (PhD (w_body w x)))) by (intros r0 b0 E; rewrite (Hb _ _ _ E); exact K). specialize (IH K').
        destruct (poll w (c_proc pc) fuel (mkCall rq (PhD (w_body w x)))) as [t o]. cbn [fst snd map PoolBytesSpec.acts_bytes] in *. intros [A1 A].
        rewrite <- app_assoc in IH. apply IH; [|exact A]. unfold course. cbn [k_phase]. exists r. split.
        -- unfold last_on. rewrite writers_on_app. change (writers_on c [EAct j (ReadBody x)]) with (@nil nat). rewrite app_nil_r. exact La.
        -- intros x' b Ex. cbn [PoolBytesSpec.act_bytes] in A1. destruct (A1 x' b Ex) as (E1 & E2 & c' & Eb). rewrite E1, E2. cbn [PoolBytesSpec.after_act]. rewrite K in Eb |- *. rewrite Eb. unfold put_conn. rewrite Nat.eqb_refl.
           pose proof (body_exact _ _ _ _ _ L2 L3) as X. rewrite Eb in X. exists rest.
           destruct (body_in (b_closed (far c)) (r_headers x) rest) as [[b1 rest']|e|] eqn:Ebi; try discriminate. destruct X as (c1 & X1 & X2). injection X1 as -> ->.
           exists rest'. split; [exact L1|]. split; [|exact X2]. unfold content. rewrite Ebi. unfold is_head, method_eqb in Ei. destruct (method_eq_dec (pr_method (c_proc pc)) MHead) as [|Nm]; [discriminate|].
           destruct (pr_method (c_proc pc)); try reflexivity. congruence.
    + intros _. cbn [fst snd map comes_out]. rewrite app_nil_r. exact Lb.
    + intros _. cbn [fst snd map]. rewrite app_nil_r. apply (course_out _ _ _ _ _ _ _ eq_refl); exact L.
    + intros _. cbn [fst snd map]. rewrite app_nil_r. apply (course_out _ _ _ _ _ _ _ eq_refl). destruct L as (r & La & _). exists r. split; [exact La|]. intros x E; discriminate E.
  - destruct f as [[x b]|e|f|]; cbn [fpoll settle] in *.
    + intros _. cbn [fst snd map]. rewrite app_nil_r. unfold on_received. destruct (de_response (r_code x) (r_headers x) (pr_resp (c_proc pc))) as [v|e| |] eqn:Ed; cbn [bind]; try exact Lb.
      destruct L as (r & (js & rq1 & L1 & L2 & L3 & L4) & Lh). destruct (Lh x b eq_refl) as (rest & rest' & M1 & M2 & M3).
      pose proof (found_so pc c r x b rest rest' rq1 v L4 M1 M2 Ed) as Fs.
      assert (Ee : errands (js ++ [j]) = errands js ++ [mkErrand (c_proc pc) (fst (c_req pc)) (snd (c_req pc))]) by (rewrite errands_app; unfold errands at 2; cbn [flat_map]; rewrite L3; reflexivity).
      split.
      * exists rest'. split; [|exact M3]. rewrite L1. unfold left_on. rewrite Ee, !app_length, (proj2 L2). split; [exact (rest_snoc _ _ _ _ _ _ _ _ _ _ (proj1 L2) Fs) | reflexivity].
      * exists (length (errands js)). rewrite L1, Ee. split; [|exact (rest_next _ _ _ _ _ _ _ _ _ _ (proj1 L2) Fs)]. rewrite (proj2 L2), nth_error_app2, Nat.sub_diag by lia. reflexivity.
    + intros _. cbn [fst snd map comes_out]. rewrite app_nil_r. exact Lb.
    + intros _. cbn [fst snd map]. rewrite app_nil_r. apply (course_out _ _ _ _ _ _ _ eq_refl); exact L.
    + intros _. cbn [fst snd map]. rewrite app_nil_r. apply (course_out _ _ _ _ _ _ _ eq_refl). destruct L as (r & La & _). exists r. split; [exact La|]. intros x b E; discriminate E.
Qed.

(** ** The pool and the calls *)
Record invT (s : psys) (tr : list pevent) (st : conn -> bconn) : Prop := {
  t_fresh : forall c, length (s_opened s) <= c -> writers_on c tr = [] /\ st c = far c;
  t_behind : forall c, behind c tr;
  t_free : forall c, 0 < H s c -> (forall i k, state_of i s <> Some (Talking c k)) -> poised c tr (st c);
  t_calls : forall i pc, nth_error (s_calls s) i = Some pc ->
    match c_state pc with
    | Talking c k => course i c tr st pc k
    | Finished v b => exists c, In (ERelease i (c_addr pc) c) tr /\ finished_on i c tr v b
    | _ => True
    end
}.
Lemma fresh_poised s tr st c : invT s tr st -> length (s_opened s) <= c -> poised c tr (st c).
Proof.
  intros J L. destruct (t_fresh _ _ _ J c L) as (A & B). exists (stream (far c)). rewrite A, B. split; [split; reflexivity|]. split; [reflexivity|]. split; [reflexivity | apply Far].
Qed.
Lemma invT_quiet s s' tr st t : invA s tr -> invT s tr st -> quiet tmax checks s s' t -> invT s' (tr ++ t) (after_acts t st).
Proof.
  intros A J (Si & Q & Qc & Qt). pose proof J as [Jf Ja Jb Jc]. rewrite (after_silent trims cl t Si).
  assert (Za : forall c, writers_on c (tr ++ t) = writers_on c tr) by (intros c; rewrite writers_on_app, (proj1 (silent_on c t Si)), app_nil_r; reflexivity).
  destruct (coarse_opened _ _ _ _ _ Q) as [op Eop]. split.
  - intros c L. rewrite Za. apply Jf. rewrite Eop, app_length in L. lia.
  - intros c. apply behind_frame; [exact (proj1 (silent_on c t Si)) | apply Ja].
  - intros c P N. unfold poised. rewrite Za. destruct (Nat.lt_ge_cases c (length (s_opened s))) as [L|L].
    + pose proof (coarse_H tmax checks _ _ _ c Q L) as M. apply Jb; [lia|]. intros i k E. destruct (Qt i c k E) as [E'|E']; [exact (N i k E')|]. pose proof (a_once _ _ A c). lia.
    + exact (fresh_poised s tr st c J L).
  - intros i pc' E. destruct (Qc i pc' E) as [(pc & E0 & Jo & Es)|P].
    + specialize (Jc i pc E0). rewrite Es. pose proof Jo as [Ja' _]. rewrite <- Ja'. destruct (c_state pc) as [a|c k|v b|k| |]; try exact I.
      * apply (course_frame i c tr t st st); [apply silent_on, Si | reflexivity|]. exact (course_job _ _ _ _ _ _ _ Jo Jc).
      * destruct Jc as (c & I1 & I2). exists c. split; [apply in_or_app; left; exact I1 | apply finished_grows; exact I2].
    + destruct (c_state pc'); try exact I; contradiction.
Qed.
Lemma invT_uses l s s' tr st t : honest_label l -> invA s tr -> invT s tr st ->
  (forall i pc, nth_error (s_calls s) i = Some pc -> errand_of sF i = [mkErrand (c_proc pc) (fst (c_req pc)) (snd (c_req pc))]) ->
  match l with LPoll _ w => acts_bytes st w t | _ => True end -> uses_at l s s' t -> coarse tmax checks s s' t -> invT s' (tr ++ t) (after_acts t st).
Proof.
  intros Hl A J Me Lo (j & w & pc & c & k & x & cs & op & pre & rs & -> & En & Kk & -> & -> & Fa & Fx & D) Q. pose proof J as [Jf Ja Jb Jc].
  cbn [honest_label] in *. set (r := poll_call w (c_proc pc) k) in *.
  assert (Sp : silent pre) by (destruct D as [(_ & -> & _)|(_ & -> & _)]; [exact silent_nil | intros i a [E|[]]; discriminate E]).
  assert (Sr : silent rs) by (intros i a; exact (fate_rs _ _ _ _ _ _ Fa i a)).
  pose proof (poll_keeps w (c_proc pc) c Hl 5 k Kk) as [Ka _]. fold (poll_call w (c_proc pc) k) in Ka. fold r in Ka.
  (* what is known of the connection before *)
  assert (Lc : course j c (tr ++ pre) st pc k).
  { apply (course_frame j c tr pre st st); [apply silent_on, Sp | reflexivity|]. destruct D as [(_ & _ & Hh & [Es|[Es ->]])|(_ & _ & Ec & Hh & Es & ->)].
    - specialize (Jc j pc En). rewrite Es in Jc. exact Jc.
    - unfold course. cbn [call_new k_phase k_request]. split; [reflexivity|]. apply Jb.
      + pose proof (held_at_le j s c) as M. unfold held_at in M. rewrite En, Hh, cnt_cons, one_self in M. lia.
      + intros i k' E. assert (Ni : i <> j) by (intros ->; unfold state_of in E; rewrite En in E; cbn in E; rewrite Es in E; discriminate E).
        pose proof (held_at2_le i j s c Ni) as M. unfold held_at in M. rewrite En, Hh in M. unfold state_of in E. destruct (nth_error (s_calls s) i) as [pi|]; [|discriminate].
        injection E as E. unfold held in M. rewrite E in M. rewrite !cnt_cons, one_self, !cnt_nil in M. pose proof (a_once _ _ A c). lia.
    - unfold course. cbn [call_new k_phase k_request]. split; [reflexivity|]. apply (fresh_poised s tr st c J). lia. }
  rewrite !acts_bytes_app, (after_silent trims cl pre Sp) in Lo. destruct Lo as (_ & Lo & _).
  pose proof (poll_course w j pc c Hl (Me j pc En) 5 k (tr ++ pre) st Kk Lc) as Po. fold (poll_call w (c_proc pc) k) in Po. fold r in Po. specialize (Po Lo).
  rewrite !after_app, (after_silent trims cl pre Sp), (after_silent trims cl rs Sr).
  (* the others *)
  assert (El : forall d, c <> d -> writers_on d (pre ++ map (EAct j) (fst r) ++ rs) = [] /\ after_acts (map (EAct j) (fst r)) st d = st d).
  { intros d N. rewrite !writers_on_app. rewrite (proj1 (silent_on d pre Sp)), (proj1 (silent_on d rs Sr)), (proj1 (elsewhere_on c d j (fst r) Ka N)).
    split; [reflexivity|]. exact (after_elsewhere trims cl c d j (fst r) Ka N st). }
  assert (Eo : s_opened (moved j x cs op s) = s_opened s ++ op) by reflexivity.
  assert (Lc' : c < length (s_opened s ++ op)).
  { destruct D as [(_ & _ & Hh & _)|(-> & _ & -> & _)]; [|rewrite app_length; cbn; lia]. rewrite app_length. pose proof (held_at_le j s c) as M. unfold held_at in M. rewrite En, Hh, cnt_cons, one_self in M.
    pose proof (a_fresh _ _ A c ltac:(lia)). lia. }
  assert (Ot : forall i pi d k', i <> j -> nth_error (s_calls s) i = Some pi -> c_state pi = Talking d k' -> c <> d).
  { intros i pi d k' Ni Ei Es <-. pose proof (a_once _ _ A c) as On. destruct D as [(_ & _ & Hh & _)|(_ & _ & Ec & _)].
    - pose proof (held_at2_le i j s c Ni) as M. unfold held_at in M. rewrite En, Ei, Hh in M. unfold held in M. rewrite Es in M. rewrite !cnt_cons, one_self, !cnt_nil in M. lia.
    - pose proof (held_at_le i s c) as M. unfold held_at in M. rewrite Ei in M. unfold held in M. rewrite Es in M. rewrite cnt_cons, one_self, cnt_nil in M. pose proof (a_fresh _ _ A c ltac:(lia)). lia. }
  split.
  - intros d L. rewrite Eo in L. assert (N : c <> d) by lia. rewrite app_length in L. rewrite writers_on_app. destruct (El d N) as (-> & ->). rewrite app_nil_r. apply Jf. lia.
  - intros d. destruct (Nat.eq_dec c d) as [<-|Nd]; [|apply behind_frame; [apply El, Nd | apply Ja]].
    rewrite app_assoc, (app_assoc (tr ++ pre)). apply behind_frame; [apply silent_on, Sr|]. destruct (snd r) as [[k'|v b c']|e| |]; cbn [comes_out] in Po; [apply Po | exact (poised_behind _ _ _ (proj1 Po)) | exact Po | exact Po | exact Po].
  - intros d P N. destruct (Nat.eq_dec c d) as [<-|Nd].
    + unfold poised. rewrite app_assoc, (app_assoc (tr ++ pre)). rewrite writers_on_app, (proj1 (silent_on c rs Sr)), app_nil_r.
      destruct (snd r) as [[k'|v b c']|e| |]; try (
        exfalso; assert (Hx : held_in x = []) by (destruct x; try contradiction; reflexivity); assert (Cs : flat_map carried cs = []) by (destruct Fa; try contradiction; reflexivity);
        pose proof (moved_H j x cs op s pc c En) as M; rewrite Hx, Cs in M; rewrite cnt_nil in M; pose proof (a_once _ _ A c) as On;
        destruct D as [(_ & _ & Hh & _)|(_ & _ & Ec & Hh & _)]; rewrite Hh in M; [rewrite cnt_cons, one_self in M; lia|];
        assert (Z : H s c = 0) by (destruct (H s c) eqn:Eh; [reflexivity | pose proof (a_fresh _ _ A c ltac:(lia)); lia]); lia).
      * exfalso. apply (N j k'). rewrite moved_state, Nat.eqb_refl, En. cbn. rewrite Fx. reflexivity.
      * exact (proj1 Po).
    + unfold poised. rewrite writers_on_app. destruct (El d Nd) as (-> & ->). rewrite app_nil_r. destruct (Nat.lt_ge_cases d (length (s_opened s))) as [L|L].
      * pose proof (coarse_H tmax checks _ _ _ d Q L) as M. apply Jb; [lia|]. intros i k' E. destruct (Nat.eq_dec i j) as [->|Ni].
        -- unfold state_of in E. rewrite En in E. injection E as E. destruct D as [(_ & _ & Hh & _)|(_ & _ & _ & _ & Es & _)]; [|congruence]. unfold held in Hh. rewrite E in Hh. congruence.
        -- apply (N i k'). rewrite moved_state. destruct (Nat.eqb_spec j i); [congruence | exact E].
      * exact (fresh_poised s tr st d J L).
  - intros i pc' E. cbn [moved s_calls] in E. destruct (nth_error (s_calls s) i) as [pi|] eqn:Ei.
    2:{ exfalso. assert (i < length (set_state j x (s_calls s))) by (apply nth_error_Some; rewrite E; discriminate). rewrite set_length in *. apply nth_error_None in Ei. lia. }
    destruct (set_job j x (s_calls s) i pi Ei) as (p1 & E1 & Jo & S1). rewrite E1 in E. injection E as <-. rewrite S1. pose proof Jo as [Jd _]. rewrite <- Jd. destruct (Nat.eqb_spec j i) as [<-|N].
    + rewrite En in Ei. injection Ei as <-. destruct (snd r) as [[k1|v b c']|e| |]; try (destruct x; try contradiction; exact I).
      * rewrite Fx. apply (course_job j c _ _ pc); [exact Jo|]. rewrite app_assoc, (app_assoc (tr ++ pre)).
        apply (course_frame j c _ rs (after_acts (map (EAct j) (fst r)) st)); [apply silent_on, Sr | reflexivity | exact (proj1 Po)].
      * destruct Fx as [-> ->]. exists c. split; [apply in_or_app; right; apply in_or_app; right; apply in_or_app; right; left; reflexivity|].
        rewrite app_assoc, (app_assoc (tr ++ pre)). apply finished_grows. exact (proj2 Po).
    + specialize (Jc i pi Ei). destruct (c_state pi) as [a|d k'|v b|e| |] eqn:Es; try exact I.
      * pose proof (Ot i pi d k' ltac:(congruence) Ei Es) as Nd. apply (course_frame i d tr _ st); [apply El, Nd | apply El, Nd | exact (course_job _ _ _ _ _ _ _ Jo Jc)].
      * destruct Jc as (d & I1 & I2). exists d. split; [apply in_or_app; left; exact I1 | apply finished_grows; exact I2].
Qed.
Lemma invT_run ls : forall s tr st, Forall honest_label ls -> invA s tr -> invT s tr st -> sF = fst (prun tmax checks ls s) ->
  read_off trims cl st (plog tmax checks ls s) -> exists st', invT (fst (prun tmax checks ls s)) (tr ++ snd (prun tmax checks ls s)) st'.
Proof.
  induction ls as [|l ls IH]; intros s tr st Fh A J Ef O; [exists st; cbn [prun fst snd] in *; rewrite app_nil_r; exact J|]. pose proof (Forall_inv Fh) as Hl. pose proof (Forall_inv_tail Fh) as Hr.
  assert (Me : forall i pc, nth_error (s_calls s) i = Some pc -> errand_of sF i = [mkErrand (c_proc pc) (fst (c_req pc)) (snd (c_req pc))]).
  { intros i pc E. destruct (run_job tmax checks (l :: ls) s tr i pc Fh A E) as (p & E' & (_ & Jp & Jq)). unfold errand_of. rewrite Ef, E', <- Jp, <- Jq. reflexivity. }
  cbn [prun plog] in *. destruct (PoolSystem.pstep tmax checks l s) as [[s1 t1]|] eqn:Es; [|exact (IH s tr st Hr A J Ef O)].
  pose proof (effect_coarse tmax checks _ _ _ _ (step_effect tmax checks l s s1 t1 (a_keeps _ _ A) Hl Es)) as Q. pose proof (invA_step _ _ _ _ _ _ A Q) as A'.
  cbn [read_off] in O. destruct O as [O1 O2].
  assert (J' : invT s1 (tr ++ t1) (after_acts t1 st)).
  { destruct (step_cases (SConn := unit) (R := unit) (fun _ => []) (fun _ => tt) tmax checks (fun _ _ => True) l s s1 t1 (a_keeps _ _ A) Hl Es) as [Us|Qu];
      [exact (invT_uses l s s1 tr st t1 Hl A J Me O1 Us Q) | exact (invT_quiet _ _ _ _ _ A J Qu)]. }
  specialize (IH s1 (tr ++ t1) (after_acts t1 st) Hr A' J'). destruct (prun tmax checks ls s1) as [s2 t2]. cbn [fst snd] in *. rewrite app_assoc. exact (IH Ef O2).
Qed.
Lemma invT_new size d : invT (psys_new size d) [] far.
Proof.
  split.
  - intros c _. split; reflexivity.
  - intros c. exists [], [], (stream (far c)). split; [reflexivity|]. split; [cbn; lia|]. split; reflexivity.
  - intros c P _. exists (stream (far c)). split; [split; reflexivity|]. split; [reflexivity|]. split; [reflexivity | apply Far].
  - intros i pc E. destruct i; discriminate.
Qed.
End Call.

Section Theorems.
Context {F : floatlib} {U : urlenv}.
Variables (trims : bool) (cl : limits) (far : conn -> bconn) (tmax : Z) (checks : bool).
Hypothesis Far : forall c, length (b_held (far c)) <= most_bytes cl.
Variables (ls : list plabel) (size : N) (d : Z) (s : psys) (tr : list pevent).
Hypothesis Er : prun tmax checks ls (psys_new size d) = (s, tr).
Hypothesis Fh : Forall honest_label ls.
Hypothesis Ro : read_off trims cl far (plog tmax checks ls (psys_new size d)).
Lemma invT_end : exists st, invT trims cl far s s tr st.
Proof.
  pose proof (invT_run trims cl far tmax checks s Far ls (psys_new size d) [] far Fh (invA_new size d) (invT_new trims cl far s Far size d)) as X. rewrite Er in X. cbn [fst snd app] in X. exact (X eq_refl Ro).
Qed.
Theorem in_turn i pc v b : told_apart checks s tr -> nth_error (s_calls s) i = Some pc -> c_state pc = Finished v b ->
  exists c n, In (EOpen c (c_addr pc)) tr /\ nth_error (writers_on c tr) n = Some i /\ nth_error (found_on trims cl far s tr c) n = Some (v, b).
Proof.
  intros Sm En Es. destruct invT_end as [st J]. pose proof (t_calls _ _ _ _ _ _ _ J i pc En) as Jc. rewrite Es in Jc. destruct Jc as (c & Ir & n & A & B). exists c, n.
  destruct (reached_addr tmax checks size d ls s tr Fh Er Sm) as [wr Br]. destruct (in_split _ _ Ir) as (t1 & t2 & Et).
  destruct (b_rels _ _ _ _ _ Br _ _ _ _ _ Et) as (_ & ? & Io & ->). split; [rewrite Et; apply in_or_app; left; exact Io|]. split; [exact A | exact B].
Qed.
Theorem none_after c : length (writers_on c tr) <= S (length (found_on trims cl far s tr c)).
Proof.
  destruct invT_end as [st J]. destruct (t_behind _ _ _ _ _ _ _ J c) as (js & l & r & A & B & C). pose proof (left_length _ _ _ _ _ _ _ C) as D. unfold found_on. fold (errands s (writers_on c tr)). rewrite A, errands_app, app_length.
  destruct (all_app (most_bytes cl) (run (HttpBytes.pstep trims (most_headers cl)) (PVersion (u "HTTP/1.1 "))) (b_closed (far c)) (errands s js) (errands s l) (stream (far c))) as [z Ez].
  unfold phead in *. apply (f_equal (@length (value * bytes))) in Ez. rewrite app_length in Ez. lia.
Qed.
End Theorems.
