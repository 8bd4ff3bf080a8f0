(** * Proofs about calls through a pool whose connections carry bytes (C73). *)
From Verif Require Import Base Utf8 Decimal DepUrl Serde Procedure FieldSpec Status SerHeader SerRequest SerResponse DeHeader DeRequest DeResponse Router RouterSpec RouterProofs DepHttp
  Error Client ClientSpec ClientProofs Server ServerSpec ServerProofs EndToEndSpec SessionSpec Pool PoolSpec PoolProofs PoolSystem PoolSystemSpec PoolSystemProofs PoolSystemInv PoolSystemAddr PoolSystemGone
  PoolAnswerSpec PoolAnswer PoolCauseSpec HttpBytes HttpBytesSpec HttpBytesProofs HttpBytesSession PoolBytesSpec.
From Verif Require SessionProofs.
Open Scope nat_scope.

(** Headers arrive as they are: reading from bytes is exact, so nothing is left to be said of it. *)
Definition same_http : httpenv := {| deliver := fun hs => Some hs; deliver_safe := fun hs _ => eq_refl |}.

(** ** Byte strings *)
Lemma prefix_cases (l x y : bytes) : prefix l (x ++ y) -> (exists l', l = x ++ l' /\ prefix l' y) \/ (exists t, t <> [] /\ x = l ++ t).
Proof.
  intros [z E]. destruct (split_cases _ _ _ _ (eq_sym E)) as [(t & -> & Q)|(t & N & -> & Q)].
  - left. exists t. split; [reflexivity|]. exists z. symmetry. exact Q.
  - right. exists t. auto.
Qed.
Lemma agreeing_cases (l x y : bytes) : agreeing l (x ++ y) -> (exists l', l = x ++ l' /\ agreeing l' y) \/ (exists t, t <> [] /\ x = l ++ t).
Proof.
  intros [P|[z E]].
  - destruct (prefix_cases _ _ _ P) as [(l' & -> & Q)|Q]; [left; exists l'; split; [reflexivity | left; exact Q] | right; exact Q].
  - left. exists (y ++ z). rewrite E, app_assoc. split; [reflexivity|]. right. exists z. reflexivity.
Qed.

(** ** The server's side *)
Lemma body_comes_only c n b c' : settle (read_body c) = Comes (b, c') -> b_left c = Some n -> length b = n /\ stream c = b ++ stream c'.
Proof.
  intros E L. destruct (Nat.le_gt_cases n (length (stream c))) as [Le|Lt].
  - assert (Ln : length (firstn n (stream c)) = n) by (rewrite firstn_length; lia).
    destruct (body_comes c (firstn n (stream c)) (skipn n (stream c))) as (c1 & Ec & Es & _).
    { split; [rewrite Ln; exact L | symmetry; apply firstn_skipn]. }
    rewrite Ec in E. injection E as <- <-. rewrite Es, firstn_skipn. auto.
  - unfold read_body in E. rewrite L in E. rewrite (length_waits n (b_closed c) _ _ Lt) in E. destruct (b_closed c); discriminate.
Qed.

Section Server.
Context {F : floatlib} {U : urlenv} {R : Type}.
Variable explain : request bconn -> ekind -> ustr * option ustr * option (list ustr).
Variable reason : status -> ustr.
Variables (trims : bool) (uri_byte : N -> bool) (sl : limits) (ps : list (hproc bconn R)).
Notation ln := (byte_link trims uri_byte sl).
Notation reply_to := (reply_to explain reason ln ps).
Hypothesis Tk : forall hp, In hp ps -> takes_body hp.

(** A request whose head has come. *)
Lemma request_head_read c m r body z : fit_request uri_byte sl m r body -> stream c = request_head m r ++ z ->
  exists q, settle (l_read ln c) = Comes (Got q) /\ q_method q = m /\ q_target q = rb_target r /\ q_headers q = rb_headers r /\ b_left (q_conn q) = Some (length body) /\ stream (q_conn q) = z.
Proof.
  intros [[Nt Tt] Sf Lg Lb Lc] E. unfold stream in E. cbn [l_read byte_link]. unfold byte_read. rewrite settle_bind.
  destruct (head_comes (qstep trims uri_byte (most_headers sl)) QStart (most_bytes sl) (b_closed c) (request_head m r) _ (run_request trims uri_byte _ m r Nt Tt Sf Lc) Lb _ _ _ E)
    as (held & coming & -> & Q).
  eexists. split; [reflexivity|]. repeat split; [|exact Q]. cbn [q_conn b_left]. rewrite (told_length _ _ Lg), Nnat.Nat2N.id. reflexivity.
Qed.
Lemma request_head_cut c m r body t : fit_request uri_byte sl m r body -> t <> [] -> request_head m r = stream c ++ t -> forall q, settle (l_read ln c) <> Comes (Got q).
Proof.
  intros [[Nt Tt] Sf Lg Lb Lc] N E q. unfold stream in E. cbn [l_read byte_link]. unfold byte_read. rewrite settle_bind.
  rewrite (head_waits (qstep trims uri_byte (most_headers sl)) QStart (most_bytes sl) (b_closed c) (request_head m r) _ (run_request trims uri_byte _ m r Nt Tt Sf Lc) Lb _ _ _ E N).
  destruct (b_closed c); discriminate.
Qed.
Lemma drained_body q q' n : settle (l_drain ln q) = Comes q' -> b_left (q_conn q) = Some n -> exists body, length body = n /\ stream (q_conn q) = body ++ stream (q_conn q').
Proof.
  cbn [l_drain byte_link]. rewrite settle_bind. intros E L. destruct (Nat.le_gt_cases n (length (stream (q_conn q)))) as [Le|Lt].
  - rewrite <- (firstn_skipn n (stream (q_conn q))). assert (Ln : length (firstn n (stream (q_conn q))) = n) by (rewrite firstn_length; lia).
    destruct (body_comes (q_conn q) (firstn n (stream (q_conn q))) (skipn n (stream (q_conn q)))) as (c' & Ec & Es & _).
    { split; [rewrite Ln; exact L | symmetry; apply firstn_skipn]. }
    rewrite Ec in E. cbn [settle] in E. injection E as <-. cbn [q_conn]. exists (firstn n (stream (q_conn q))). rewrite Es. split; [exact Ln | reflexivity].
  - unfold read_body in E. rewrite L in E. rewrite (length_waits n (b_closed (q_conn q)) _ _ Lt) in E. destruct (b_closed (q_conn q)); discriminate.
Qed.
Lemma refused_body q st text s' h b n : refusal ln q st text = Sends s' h b -> b_left (q_conn q) = Some n -> exists body, length body = n /\ stream (q_conn q) = body ++ stream s'.
Proof.
  unfold refusal. destruct (settle (l_drain ln q)) as [q'|e|] eqn:E; try discriminate. intros [= <- _ _] L. exact (drained_body q q' n E L).
Qed.
Lemma reply_body q s' h b n : reply_to q = Sends s' h b -> b_left (q_conn q) = Some n -> exists body, length body = n /\ stream (q_conn q) = body ++ stream s'.
Proof.
  unfold ServerSpec.reply_to, invalid_request. destruct (parse_url (q_target q)) as [[[segs|] qs]|]; [|discriminate|apply refused_body].
  destruct (route_spec _ (q_method q) segs) as [p|[]] eqn:Er; [|apply refused_body|apply refused_body].
  assert (I : In p ps).
  { apply route_spec_sound in Er. destruct Er as (ep & I & _). apply accepted_spec in I. destruct I as (l1 & l2 & E & _).
    assert (I : In (q_method q, ep, p) (map (fun p => (hp_method p, hp_entry p, p)) ps)) by (rewrite E; apply in_elt).
    apply in_map_iff in I. destruct I as (p' & E' & I). injection E' as _ _ ->. exact I. }
  destruct (de_request _ _ _ _) as [v|k| |]; try discriminate; [|apply refused_body].
  unfold once. destruct (settle (hp_body p v q)) as [[q' x]|e|] eqn:Eb; try discriminate. destruct (nsettle (hp_call p x)) as [[v' b']|e|]; try discriminate.
  destruct (encode_response v' _); try discriminate. intros [= <- _ _] L. exact (Tk p I v q q' x n Eb L).
Qed.

(** What is written in turn answers what is read in turn. *)
Lemma dialogue_bytes f l : dialogue explain reason ln ps f l -> forall s n h b asks y, settle f = Comes s -> agreeing (stream s) (flat_map asking_bytes asks) ->
  (forall x, In x asks -> fit_request uri_byte sl (a_method x) (a_request x) (a_body x)) -> nth_error (replied l) n = Some (h, b) -> nth_error asks n = Some y ->
  exists q s' b0, arrives_as y q /\ reply_to q = Sends s' h b0 /\ b = match a_method y with MHead => None | _ => Some b0 end.
Proof.
  induction 1 as [f|f c E|f c r c' h0 b0 body l E1 E2 E3 E4 D IH]; intros s n h b asks y Es Ag Fi En Ey.
  - destruct n; discriminate.
  - destruct n; discriminate.
  - rewrite Es in E1. injection E1 as ->. destruct asks as [|x asks]; [destruct n; discriminate|]. pose proof (Fi x (or_introl eq_refl)) as Fx.
    cbn [flat_map] in Ag. unfold asking_bytes at 1 in Ag. rewrite <- app_assoc in Ag. destruct (agreeing_cases _ _ _ Ag) as [(z & Sc & Az)|(t & Nt & Et)];
      [|elim (request_head_cut c _ _ _ t Fx Nt Et r E2)].
    destruct (request_head_read c _ _ _ z Fx Sc) as (q & Rd & Qm & Qt & Qh & Ql & Qs). rewrite Rd in E2. injection E2 as ->.
    destruct (reply_body r c' h0 b0 _ E3 Ql) as (body' & Lb & Sb). rewrite Qs in Sb.
    destruct (agreeing_cases _ _ _ Az) as [(z' & Sz & Az')|(t & Nt & Et)].
    2:{ exfalso. apply (f_equal (@length N)) in Et. apply (f_equal (@length N)) in Sb. rewrite app_length in *. destruct t; [contradiction|]. cbn [length] in Et. lia. }
    assert (Eb : body' = a_body x /\ stream c' = z').
    { rewrite Sz in Sb. destruct (split_cases _ _ _ _ Sb) as [(t & T1 & T2)|(t & T0 & T1 & T2)].
      - assert (t = []) as -> by (apply (f_equal (@length N)) in T1; rewrite app_length in T1; destruct t; [reflexivity | cbn [length] in T1; lia]). rewrite app_nil_r in T1. auto.
      - exfalso. apply (f_equal (@length N)) in T1. rewrite app_length in T1. destruct t; [contradiction | cbn [length] in T1; lia]. }
    destruct Eb as [-> Ec]. destruct n as [|n].
    + injection En as <- <-. injection Ey as <-. exists r, c', b0. split; [|split; [exact E3 | rewrite <- Qm; exact E4]].
      split; [exact Qm|]. split; [exact Qt|]. split; [exact Qh|]. exists z'. split; [exact Ql | rewrite Qs, Sz; reflexivity].
    + cbn [replied flat_map app nth_error] in En, Ey. apply (IH c' n h b asks y eq_refl); auto. rewrite Ec. exact Az'. intros w I. apply Fi. right. exact I.
Qed.
End Server.

(** ** The client's side *)
Section Client.
Context {F : floatlib} {U : urlenv} {R : Type}.
Variable explain : request bconn -> ekind -> ustr * option ustr * option (list ustr).
Variable reason : status -> ustr.
Variables (trims : bool) (uri_byte : N -> bool) (cl sl : limits).
Variables (ps : saddr -> list (hproc bconn R)) (far near : conn -> bconn).
Variables (tmax : Z) (checks : bool).
Notation ln := (byte_link trims uri_byte sl).
Notation nth_reply := (nth_reply explain reason ln ps near).
Notation replies_on := (replies_on explain reason ln ps near).
Notation act_ok := (@act_ok F U same_http bconn R explain reason ln ps near).
Notation acts_ok := (@acts_ok F U same_http bconn R explain reason ln ps near).
Notation acts_bytes := (acts_bytes trims cl).
Notation act_bytes := (act_bytes trims cl).
Notation after_act := (after_act trims cl).
Notation after_acts := (after_acts trims cl).
Variable opened : conn -> saddr -> Prop.
Variables (sF : psys) (trF : list pevent).
Notation asked_on := (asked_on sF).
Notation own_at := (own_at sF).
Notation balanced := (balanced sF).

Hypothesis Answers : forall a c n h bo y, opened c a -> nth_reply a c n h bo -> nth_error (asked_on c trF) n = Some y ->
  exists q s' b0, arrives_as y q /\ reply_to explain reason ln (ps a) q = Sends s' h b0 /\ bo = match a_method y with MHead => None | _ => Some b0 end.
Hypothesis Fits : forall c a n h b, opened c a -> nth_reply a c n h b -> n < length (asked_on c trF) -> exists b0, fit_response reason cl h b0 /\ (b = None \/ b = Some b0).

(** *** Reading a response *)
Lemma response_cut c h body t : fit_response reason cl h body -> t <> [] -> response_head reason h = stream c ++ t -> forall x, settle (byte_head trims cl c) <> Comes x.
Proof.
  intros [V Sf Lg Lb Lc] N E x. unfold stream in E. unfold byte_head. rewrite settle_bind.
  rewrite (head_waits (pstep trims (most_headers cl)) (PVersion (u "HTTP/1.1 ")) (most_bytes cl) (b_closed c) (response_head reason h) _ (run_response trims _ reason h V Sf Lc) Lb _ _ _ E N).
  destruct (b_closed c); discriminate.
Qed.
Lemma response_none c : stream c = [] -> forall x, settle (byte_head trims cl c) <> Comes x.
Proof.
  intros E x. unfold byte_head. rewrite settle_bind. unfold stream in E. apply app_eq_nil in E. destruct E as [-> E].
  pose proof (empty_head (pstep trims (most_headers cl)) (PVersion (u "HTTP/1.1 ")) (most_bytes cl) (b_closed c) (b_coming c) E) as N.
  destruct (settle (read_head _ _ _ _ _)) as [[y a b| |]|e|]; try discriminate. elim (N y a b eq_refl).
Qed.

(** *** Where a connection is *)
(** Before the [n]th response. A proof invariant. *)
Definition clean (c : conn) (n : nat) (x : bconn) : Prop := forall a, opened c a -> exists k, prefix (stream x) (flat_map (replying_bytes reason) (skipn n (replies_on a c k))).
(** After the head of the [n]th, before its body. A proof invariant. *)
Definition mid (c : conn) (n : nat) (x : bconn) : Prop := forall a, opened c a -> exists k h bd, nth_error (replies_on a c k) n = Some (h, Some bd) /\
  b_left x = Some (length bd) /\ prefix (stream x) (bd ++ flat_map (replying_bytes reason) (skipn (S n) (replies_on a c k))).
(** This by how far a call has come. A proof invariant. *)
Definition localB (c : conn) (tr : list pevent) (st : conn -> bconn) (pc : pcall) (k : call conn) : Prop :=
  match k_phase k with
  | PhA f => k_request k = Some (c_req pc) /\ balanced c tr /\ clean c (heads c tr) (st c)
  | PhB f => length (asked_on c tr) = S (heads c tr) /\ own_at c tr (heads c tr) pc /\ clean c (heads c tr) (st c)
  | PhC f => balanced c tr /\ exists n, heads c tr = S n /\ own_at c tr n pc /\ forall x, settle f = Comes x -> if is_head (c_proc pc) then clean c (S n) (st c) else mid c n (st c)
  | PhD f => balanced c tr /\ exists n, heads c tr = S n /\ own_at c tr n pc /\ forall x, settle f = Comes x -> clean c (S n) (st c)
  end.
Lemma localB_frame c tr t st st' pc k : asked_on c t = [] -> heads c t = 0 -> st' c = st c -> localB c tr st pc k -> localB c (tr ++ t) st' pc k.
Proof.
  intros A B C. unfold localB, PoolAnswer.balanced. rewrite heads_app, asked_app, A, B, C, app_nil_r, Nat.add_0_r.
  destruct (k_phase k) as [f|f|f|f]; [auto|intros (L1 & L2 & L3); split; [exact L1 | split; [apply own_grows, L2 | exact L3]]| |]; intros [L1 (n & L2 & L3 & L4)]; split; auto; exists n; split; auto; split; auto; apply own_grows, L3.
Qed.
Lemma after_app t1 t2 st : after_acts (t1 ++ t2) st = after_acts t2 (after_acts t1 st).
Proof. apply fold_left_app. Qed.
Lemma acts_bytes_app w t1 : forall st t2, acts_bytes st w (t1 ++ t2) <-> acts_bytes st w t1 /\ acts_bytes (after_acts t1 st) w t2.
Proof. induction t1 as [|e t1 IH]; intros st t2; cbn [app PoolBytesSpec.acts_bytes PoolBytesSpec.after_acts fold_left]; [tauto|]. rewrite IH. unfold PoolBytesSpec.after_acts. tauto. Qed.
Lemma after_elsewhere c d j ts : Forall (fun a => act_conn a = c) ts -> c <> d -> forall st, after_acts (map (EAct j) ts) st d = st d.
Proof.
  intros Fa N. induction Fa as [|a ts E Fa IH]; intros st; [reflexivity|]. cbn [map]. unfold PoolBytesSpec.after_acts in *. cbn [fold_left]. rewrite IH.
  destruct a as [r b c'|c'|x]; cbn [act_conn] in E; cbn [PoolBytesSpec.after_act]; [reflexivity| |].
  - destruct (settle _) as [y|e|]; try reflexivity. unfold put_conn. destruct (Nat.eqb_spec c' d); congruence.
  - destruct (settle _) as [[b y]|e|]; try reflexivity. unfold put_conn. destruct (Nat.eqb_spec (r_conn x) d); congruence.
Qed.
Lemma after_silent t : silent t -> forall st, after_acts t st = st.
Proof.
  induction t as [|e t IH]; intros Si st; [reflexivity|]. assert (St : silent t) by (intros i a I; exact (Si i a (or_intror I))). unfold PoolBytesSpec.after_acts in *. cbn [fold_left].
  destruct e as [c0 a|i a|i a c0|i a]; cbn [PoolBytesSpec.after_act]; try apply (IH St). exfalso. exact (Si i a (or_introl eq_refl)).
Qed.

Lemma reply_in a c n h b k : nth_error (replies_on a c k) n = Some (h, b) -> nth_reply a c n h b.
Proof. intros E. exists k. exact E. Qed.
Lemma skipn_nth {A} (l : list A) : forall n, match nth_error l n with Some x => skipn n l = x :: skipn (S n) l | None => skipn n l = [] end.
Proof. induction l as [|y l IH]; intros [|n]; cbn [nth_error skipn]; try reflexivity. specialize (IH n). destruct (nth_error l n); exact IH. Qed.

(** The head of a response is the next one's; the connection is then before its body, or before the next response. *)
Lemma head_step c tr pc st w j : own_at c tr (heads c tr) pc -> (exists t, trF = tr ++ t) -> clean c (heads c tr) (st c) ->
  act_bytes st w (EAct j (ReadHead c)) ->
  act_ok opened w tr (ReadHead c) /\
  (forall x0, settle (w_head w c) = Comes x0 -> if is_head (c_proc pc) then clean c (S (heads c tr)) (after_act st (EAct j (ReadHead c)) c) else mid c (heads c tr) (after_act st (EAct j (ReadHead c)) c)).
Proof.
  intros Ow [t0 Et] Cl Ab. set (n := heads c tr) in *. cbn [PoolBytesSpec.act_bytes] in Ab. apply (own_grows sF c tr t0 n pc) in Ow. rewrite <- Et in Ow. destruct Ow as (r & _ & Eo).
  assert (Key : forall x ad, settle (w_head w c) = Comes x -> opened c ad -> exists k h b0 b z c', nth_error (replies_on ad c k) n = Some (h, b) /\ fit_response reason cl h b0 /\
    b = (if is_head (c_proc pc) then None else Some b0) /\ settle (byte_head trims cl (st c)) = Comes (mkResponse (r_code x) (r_headers x) c') /\
    r_code x = code_of (pb_status h) /\ r_headers x = pb_headers h /\ b_left c' = Some (length b0) /\ stream c' = z /\ prefix z ((match b with Some b => b | None => [] end) ++ flat_map (replying_bytes reason) (skipn (S n) (replies_on ad c k)))).
  { intros x ad Ex Op. destruct (Ab x Ex) as [c' Eh]. destruct (Cl ad Op) as [k Pk]. pose proof (skipn_nth (replies_on ad c k) n) as Sk.
    destruct (nth_error (replies_on ad c k) n) as [[h b]|] eqn:En.
    2:{ exfalso. rewrite Sk in Pk. destruct Pk as [z Ez]. cbn [flat_map] in Ez. symmetry in Ez. apply app_eq_nil in Ez. exact (response_none _ (proj1 Ez) _ Eh). }
    rewrite Sk in Pk. cbn [flat_map] in Pk. unfold replying_bytes at 1 in Pk. cbn [fst snd] in Pk. rewrite <- app_assoc in Pk.
    destruct (Fits c ad n h b Op (reply_in _ _ _ _ _ _ En) ltac:(apply nth_error_Some; rewrite Eo; discriminate)) as (b0 & Fb & Bb).
    destruct (prefix_cases _ _ _ Pk) as [(z & Sc & Pz)|(t & Nt & E)]; [|elim (response_cut _ _ _ t Fb Nt E _ Eh)].
    destruct (response_read reason trims cl (st c) h b0 z Fb Sc) as (y & Wy & Yc & Yh & Yl & Ys & _). cbn [w_head byte_wire] in Wy. rewrite Eh in Wy. injection Wy as <-. cbn [r_code r_headers r_conn] in *.
    exists k, h, b0, b, z, c'. repeat (split; [first [exact En | exact Fb | idtac]|]); auto.
    destruct (Answers ad c n h b _ Op (reply_in _ _ _ _ _ _ En) Eo) as (q & s' & b1 & _ & _ & Bq). cbn [a_method] in Bq.
    unfold is_head, method_eqb. destruct (method_eq_dec (pr_method (c_proc pc)) MHead) as [Em|Em]; [rewrite Em in Bq; exact Bq|].
    assert (Nb : b = Some b1) by (destruct (pr_method (c_proc pc)); congruence). destruct Bb as [Bb|Bb]; congruence. }
  split.
  - cbn [PoolAnswerSpec.act_ok]. intros x ad Ex Op. destruct (Key x ad Ex Op) as (k & h & b0 & b & z & c' & En & _ & _ & _ & Xc & Xh & _). exists h, b. split; [exact (reply_in _ _ _ _ _ _ En)|].
    split; [exact Xc|]. intros hs [= <-]. exact Xh.
  - intros x0 Ex. destruct (Ab x0 Ex) as [c1 Eh]. cbn [PoolBytesSpec.after_act]. rewrite Eh. unfold put_conn. rewrite Nat.eqb_refl. cbn [r_conn].
    destruct (is_head (c_proc pc)) eqn:Ei; intros ad Op; destruct (Key x0 ad Ex Op) as (k & h & b0 & b & z & c' & En & Fb & Bb & Eh' & Xc & Xh & Xl & Xs & Pz);
      rewrite Eh in Eh'; injection Eh' as ->; subst b; exists k.
    + rewrite Xs. exact Pz.
    + exists h, b0. rewrite Xs. auto.
Qed.
Lemma body_step c n st w j x tr : r_conn x = c -> heads c tr = S n -> mid c n (st c) -> act_bytes st w (EAct j (ReadBody x)) ->
  act_ok opened w tr (ReadBody x) /\ (forall x0, settle (w_body w x) = Comes x0 -> clean c (S n) (after_act st (EAct j (ReadBody x)) c)).
Proof.
  intros Rc Hn Mi Ab. cbn [PoolBytesSpec.act_bytes] in Ab. rewrite Rc in Ab.
  assert (Key : forall x' b, settle (w_body w x) = Comes (x', b) -> forall ad, opened c ad -> exists k h c', nth_error (replies_on ad c k) n = Some (h, Some b) /\
    settle (read_body (st c)) = Comes (b, c') /\ prefix (stream c') (flat_map (replying_bytes reason) (skipn (S n) (replies_on ad c k)))).
  { intros x' b Ex ad Op. destruct (Ab x' b Ex) as (_ & _ & c' & Eb). destruct (Mi ad Op) as (k & h & bd & En & Lb & Pf). destruct (body_comes_only _ _ _ _ Eb Lb) as [Ln Es].
    destruct (prefix_cases _ _ _ Pf) as [(z & Sz & Pz)|(t & Nt & Et)].
    - rewrite Es in Sz. destruct (split_cases _ _ _ _ Sz) as [(t & T1 & T2)|(t & T0 & T1 & T2)].
      + assert (t = []) as -> by (apply (f_equal (@length N)) in T1; rewrite app_length in T1; destruct t; [reflexivity | cbn [length] in T1; lia]). rewrite app_nil_r in T1. cbn [app] in T2. subst bd z.
        exists k, h, c'. auto.
      + exfalso. apply (f_equal (@length N)) in T1. rewrite app_length in T1. destruct t; [contradiction | cbn [length] in T1; lia].
    - exfalso. apply (f_equal (@length N)) in Et. rewrite Es, !app_length in Et. destruct t; [contradiction | cbn [length] in Et; lia]. }
  split.
  - cbn [PoolAnswerSpec.act_ok]. intros x' b Ex. destruct (Ab x' b Ex) as (E1 & E2 & _). split; [exact E1|]. split; [exact E2|]. rewrite Rc. intros ad Op.
    destruct (Key x' b Ex ad Op) as (k & h & c' & En & _). exists h. rewrite Hn. exact (reply_in _ _ _ _ _ _ En).
  - intros [x' b] Ex. destruct (Ab x' b Ex) as (_ & _ & c1 & Eb). cbn [PoolBytesSpec.after_act]. rewrite Rc, Eb. unfold put_conn. rewrite Nat.eqb_refl. intros ad Op.
    destruct (Key x' b Ex ad Op) as (k & h & c' & En & Eb' & Pf). rewrite Eb in Eb'. injection Eb' as ->. exists k. exact Pf.
Qed.

(** *** In one poll *)
Definition wentB (c : conn) (tr : list pevent) (st : conn -> bconn) (pc : pcall) (o : res (outcome conn)) : Prop :=
  match o with
  | Ok (Pending k) => localB c tr st pc k
  | Ok (Done v b _) => balanced c tr /\ clean c (heads c tr) (st c)
  | _ => True
  end.
Lemma poll_bytes w j pc c : honest w -> PoolAnswerSpec.method_of sF j = Some (pr_method (c_proc pc)) -> forall fuel k before st,
  keeps c k -> localB c before st pc k -> (exists t, trF = before ++ map (EAct j) (fst (poll w (c_proc pc) fuel k)) ++ t) ->
  acts_bytes st w (map (EAct j) (fst (poll w (c_proc pc) fuel k))) ->
  acts_ok opened w before (map (EAct j) (fst (poll w (c_proc pc) fuel k))) /\
  wentB c (before ++ map (EAct j) (fst (poll w (c_proc pc) fuel k))) (after_acts (map (EAct j) (fst (poll w (c_proc pc) fuel k))) st) pc (snd (poll w (c_proc pc) fuel k)).
Proof.
  intros (Hw & Hh & Hb) Em. induction fuel as [|fuel IH]; intros k before st K L; cbn [poll]; [intros _ _; split; exact I|].
  destruct k as [rq ph]. unfold keeps in K. unfold localB in L. cbn [k_phase k_request] in *. destruct ph as [f|f|f|f]; cbn [phase_poll].
  - destruct f as [c0|e|f|]; cbn [fpoll settle] in *; try (intros _ _; split; exact I).
    + specialize (K c0 eq_refl). subst c0. destruct L as (-> & Ba & Cl). unfold on_connected. destruct (c_req pc) as [v b] eqn:Er.
      destruct (encode_request (pr_entry (c_proc pc)) v (N.of_nat (length b))) as [r|e| |] eqn:Ee; cbn [bind]; try (intros _ _; split; exact I).
      specialize (IH (mkCall None (PhB (w_write w r b c))) (before ++ [EAct j (Write r b c)]) st (Hw r b c)).
      destruct (poll w (c_proc pc) fuel (mkCall None (PhB (w_write w r b c)))) as [t o]. cbn [fst snd map PoolAnswerSpec.acts_ok PoolBytesSpec.acts_bytes] in *. intros [t0 Et] [_ A].
      rewrite <- app_assoc in IH. destruct IH as [I1 I2]; [|exists t0; exact (eq_trans Et (app_assoc before [EAct j (Write r b c)] (map (EAct j) t ++ t0)))|exact A|].
      * unfold localB. cbn [k_phase]. rewrite heads_app, asked_app. cbn [PoolAnswerSpec.asked_on flat_map asks].
        rewrite Nat.eqb_refl, Em. cbn [app heads]. rewrite app_length. unfold heads at 2 4 6. cbn [filter length]. rewrite Nat.add_0_r. unfold PoolAnswer.balanced in Ba. split; [rewrite Ba; cbn [length]; lia|].
        split; [|exact Cl]. exists r. rewrite Er. cbn [fst snd]. split; [exact Ee|]. rewrite asked_app, Ba, nth_error_app2 by lia. rewrite Nat.sub_diag.
        cbn [PoolAnswerSpec.asked_on flat_map asks]. rewrite Nat.eqb_refl, Em. reflexivity.
      * split; [split; [exact I | exact I1] | exact I2].
    + intros _ _. cbn [fst snd map]. rewrite app_nil_r. split; [exact I | exact L].
    + intros _ _. cbn [fst snd map]. rewrite app_nil_r. split; [exact I | exact L].
  - destruct f as [c0|e|f|]; cbn [fpoll settle] in *; try (intros _ _; split; exact I).
    + specialize (K c0 eq_refl). subst c0. destruct L as (La & Lo & Lc).
      specialize (IH (mkCall rq (PhC (w_head w c))) (before ++ [EAct j (ReadHead c)]) (after_act st (EAct j (ReadHead c))) (Hh c)).
      destruct (poll w (c_proc pc) fuel (mkCall rq (PhC (w_head w c)))) as [t o]. cbn [fst snd map PoolAnswerSpec.acts_ok PoolBytesSpec.acts_bytes] in *. intros [t0 Et] [A1 A].
      destruct (head_step c before pc st w j Lo (ex_intro _ _ Et) Lc A1) as [Ok1 Nx].
      rewrite <- app_assoc in IH. destruct IH as [I1 I2]; [|exists t0; exact (eq_trans Et (app_assoc before [EAct j (ReadHead c)] (map (EAct j) t ++ t0)))|exact A|].
      * unfold localB, PoolAnswer.balanced. cbn [k_phase]. rewrite heads_app, asked_app. cbn [PoolAnswerSpec.asked_on flat_map asks app].
        rewrite app_nil_r. unfold heads at 2 4. cbn [filter length]. rewrite Nat.eqb_refl. cbn [length]. split; [lia|]. exists (heads c before). split; [lia|]. split; [apply own_grows, Lo|]. exact Nx.
      * split; [split; [exact Ok1 | exact I1] | exact I2].
    + intros _ _. cbn [fst snd map]. rewrite app_nil_r. split; [exact I | exact L].
    + intros _ _. cbn [fst snd map]. rewrite app_nil_r. split; [exact I | exact L].
  - destruct f as [r|e|f|]; cbn [fpoll settle] in *; try (intros _ _; split; exact I).
    + specialize (K r eq_refl). destruct L as [Ba (n & Ln & Lo & Lh)]. specialize (Lh r eq_refl). destruct (is_head (c_proc pc)) eqn:Ei.
      * apply IH; [intros r0 b0 [= <- <-]; exact K|]. unfold localB. cbn [k_phase]. split; [exact Ba|]. exists n. split; [exact Ln|]. split; [exact Lo|]. intros x _. exact Lh.
      * specialize (IH (mkCall rq (PhD (w_body w r))) (before ++ [EAct j (ReadBody r)]) (after_act st (EAct j (ReadBody r)))).
        assert (K' : keeps c (mkCall rq (PhD (w_body w r)))) by (intros r0 b0 E; rewrite (Hb _ _ _ E); exact K). specialize (IH K').
        destruct (poll w (c_proc pc) fuel (mkCall rq (PhD (w_body w r)))) as [t o]. cbn [fst snd map PoolAnswerSpec.acts_ok PoolBytesSpec.acts_bytes] in *. intros [t0 Et] [A1 A].
        destruct (body_step c n st w j r before K Ln Lh A1) as [Ok1 Nx].
        rewrite <- app_assoc in IH. destruct IH as [I1 I2]; [|exists t0; exact (eq_trans Et (app_assoc before [EAct j (ReadBody r)] (map (EAct j) t ++ t0)))|exact A|].
        -- unfold localB, PoolAnswer.balanced. cbn [k_phase]. rewrite heads_app, asked_app. cbn [PoolAnswerSpec.asked_on flat_map asks app].
           rewrite app_nil_r. unfold heads at 2 4. cbn [filter length]. rewrite Nat.add_0_r. split; [exact Ba|]. exists n. split; [exact Ln|]. split; [apply own_grows, Lo | exact Nx].
        -- split; [split; [exact Ok1 | exact I1] | exact I2].
    + intros _ _. cbn [fst snd map]. rewrite app_nil_r. split; [exact I | exact L].
    + intros _ _. cbn [fst snd map]. rewrite app_nil_r. split; [exact I|]. destruct L as [Ba (n & Ln & Lo & Lh)]. split; [exact Ba|]. exists n. split; [exact Ln|]. split; [exact Lo|]. intros x E; discriminate E.
  - destruct f as [[r b]|e|f|]; cbn [fpoll settle] in *; try (intros _ _; split; exact I).
    + intros _ _. cbn [fst snd map]. rewrite app_nil_r. split; [exact I|]. unfold on_received. destruct (de_response (r_code r) (r_headers r) (pr_resp (c_proc pc))) as [v|e| |] eqn:Ed; cbn [bind]; try exact I.
      destruct L as [Ba (n & Ln & Lo & Lh)]. split; [exact Ba|]. rewrite Ln. exact (Lh _ eq_refl).
    + intros _ _. cbn [fst snd map]. rewrite app_nil_r. split; [exact I | exact L].
    + intros _ _. cbn [fst snd map]. rewrite app_nil_r. split; [exact I|]. destruct L as [Ba (n & Ln & Lo & Lh)]. split; [exact Ba|]. exists n. split; [exact Ln|]. split; [exact Lo|]. intros x E; discriminate E.
Qed.

(** *** The pool and the calls *)
Record invK (s : psys) (tr : list pevent) (st : conn -> bconn) : Prop := {
  k_fresh : forall c, length (s_opened s) <= c -> asked_on c tr = [] /\ heads c tr = 0 /\ st c = far c;
  k_free : forall c, 0 < H s c -> (forall i k, state_of i s <> Some (Talking c k)) -> balanced c tr /\ clean c (heads c tr) (st c);
  k_calls : forall i pc c k, nth_error (s_calls s) i = Some pc -> c_state pc = Talking c k -> localB c tr st pc k
}.
Hypothesis Far : forall c, clean c 0 (far c).

Lemma localB_job c tr st pc pc' k : same_job pc pc' -> localB c tr st pc k -> localB c tr st pc' k.
Proof. destruct pc as [a p r x], pc' as [a' p' r' x']. intros (E1 & E2 & E3). cbn [c_addr c_proc c_req] in *. subst a' p' r'. exact (fun L => L). Qed.
Lemma fresh_clean s tr st c : invK s tr st -> length (s_opened s) <= c -> balanced c tr /\ clean c (heads c tr) (st c).
Proof. intros J L. destruct (k_fresh _ _ _ J c L) as (A & B & C). unfold PoolAnswer.balanced. rewrite A, B, C. split; [reflexivity | apply Far]. Qed.

Lemma invK_quiet s s' tr st t : invA s tr -> invK s tr st -> quiet tmax checks s s' t -> invK s' (tr ++ t) (after_acts t st).
Proof.
  intros A J (Si & Q & Qc & Qt). pose proof J as [Jf Jb Jc]. rewrite (after_silent t Si).
  assert (Za : forall c, asked_on c (tr ++ t) = asked_on c tr) by (intros c; rewrite asked_app, (proj1 (silent_asked sF c t Si)), app_nil_r; reflexivity).
  assert (Zh : forall c, heads c (tr ++ t) = heads c tr) by (intros c; rewrite heads_app, (proj2 (silent_asked sF c t Si)), Nat.add_0_r; reflexivity).
  destruct (coarse_opened _ _ _ _ _ Q) as [op Eop]. split.
  - intros c L. rewrite Za, Zh. apply Jf. rewrite Eop, app_length in L. lia.
  - intros c P N. unfold PoolAnswer.balanced. rewrite Za, Zh. destruct (Nat.lt_ge_cases c (length (s_opened s))) as [L|L].
    + pose proof (coarse_H tmax checks _ _ _ c Q L) as M. apply Jb; [lia|]. intros i k E. destruct (Qt i c k E) as [E'|E']; [exact (N i k E')|]. pose proof (a_once _ _ A c). lia.
    + exact (fresh_clean s tr st c J L).
  - intros i pc' c k E Es. destruct (Qc i pc' E) as [(pc & E0 & Jo & E1)|P]; [|rewrite Es in P; contradiction].
    apply (localB_frame c tr t st st); [apply (silent_asked sF), Si | apply (silent_asked sF), Si | reflexivity|]. apply (localB_job c tr st pc); [exact Jo|]. apply (Jc i pc c k E0). congruence.
Qed.

Lemma invK_uses l s s' tr st t : honest_label l -> invA s tr -> invK s tr st -> (forall i pc, nth_error (s_calls s) i = Some pc -> PoolAnswerSpec.method_of sF i = Some (pr_method (c_proc pc))) ->
  (exists t0, trF = (tr ++ t) ++ t0) -> match l with LPoll _ w => acts_bytes st w t | _ => True end -> uses_at l s s' t -> coarse tmax checks s s' t ->
  invK s' (tr ++ t) (after_acts t st) /\ match l with LPoll _ w => acts_ok opened w tr t | _ => True end.
Proof.
  intros Hl A J Me [t0 Et] Lo (j & w & pc & c & k & x & cs & op & pre & rs & -> & En & Kk & -> & -> & Fa & Fx & D) Q. pose proof J as [Jf Jb Jc].
  cbn [honest_label] in *. set (r := poll_call w (c_proc pc) k) in *.
  assert (Sp : silent pre) by (destruct D as [(_ & -> & _)|(_ & -> & _)]; [exact silent_nil | intros i a [E|[]]; discriminate E]).
  assert (Sr : silent rs) by (intros i a; exact (fate_rs _ _ _ _ _ _ Fa i a)).
  pose proof (poll_keeps w (c_proc pc) c Hl 5 k Kk) as [Ka _]. fold (poll_call w (c_proc pc) k) in Ka. fold r in Ka.
  (* what is known of the connection before *)
  assert (Lc : localB c (tr ++ pre) st pc k).
  { apply (localB_frame c tr pre st st); [apply (silent_asked sF), Sp | apply (silent_asked sF), Sp | reflexivity|]. destruct D as [(_ & _ & Hh & [Es|[Es ->]])|(_ & _ & Ec & Hh & Es & ->)].
    - exact (Jc j pc c k En Es).
    - unfold localB. cbn [call_new k_phase k_request]. split; [reflexivity|]. apply Jb.
      + pose proof (held_at_le j s c) as M. unfold held_at in M. rewrite En, Hh, cnt_cons, one_self in M. lia.
      + intros i k' E. assert (Ni : i <> j) by (intros ->; unfold state_of in E; rewrite En in E; cbn in E; rewrite Es in E; discriminate E).
        pose proof (held_at2_le i j s c Ni) as M. unfold held_at in M. rewrite En, Hh in M. unfold state_of in E. destruct (nth_error (s_calls s) i) as [pi|]; [|discriminate].
        injection E as E. unfold held in M. rewrite E in M. rewrite !cnt_cons, one_self, !cnt_nil in M. pose proof (a_once _ _ A c). lia.
    - unfold localB. cbn [call_new k_phase k_request]. split; [reflexivity|]. apply (fresh_clean s tr st c J). lia. }
  rewrite !acts_bytes_app, (after_silent pre Sp) in Lo. destruct Lo as (_ & Lo & _).
  pose proof (poll_bytes w j pc c Hl (Me j pc En) 5 k (tr ++ pre) st Kk Lc) as Po. fold (poll_call w (c_proc pc) k) in Po. fold r in Po.
  destruct Po as [Ao Po]; [exists (rs ++ t0); rewrite Et, <- !app_assoc; reflexivity | exact Lo|].
  rewrite !after_app, (after_silent pre Sp), (after_silent rs Sr).
  split; [|rewrite !acts_ok_app; split; [|split; [exact Ao|]]; [destruct D as [(_ & -> & _)|(_ & -> & _)]; cbn; auto | destruct Fa; cbn; auto]].
  (* the others *)
  assert (El : forall d, c <> d -> asked_on d (pre ++ map (EAct j) (fst r) ++ rs) = [] /\ heads d (pre ++ map (EAct j) (fst r) ++ rs) = 0 /\ after_acts (map (EAct j) (fst r)) st d = st d).
  { intros d N. rewrite !asked_app, !heads_app. destruct (silent_asked sF d pre Sp) as [-> ->]. destruct (silent_asked sF d rs Sr) as [-> ->]. destruct (elsewhere sF c d j (fst r) Ka N) as [-> ->].
    split; [reflexivity|]. split; [reflexivity|]. exact (after_elsewhere c d j (fst r) Ka N st). }
  assert (Eo : s_opened (moved j x cs op s) = s_opened s ++ op) by reflexivity.
  assert (Lc' : c < length (s_opened s ++ op)).
  { destruct D as [(_ & _ & Hh & _)|(-> & _ & -> & _)]; [|rewrite app_length; cbn; lia]. rewrite app_length. pose proof (held_at_le j s c) as M. unfold held_at in M. rewrite En, Hh, cnt_cons, one_self in M.
    pose proof (a_fresh _ _ A c ltac:(lia)). lia. }
  assert (Ot : forall i pi d k', i <> j -> nth_error (s_calls s) i = Some pi -> c_state pi = Talking d k' -> c <> d).
  { intros i pi d k' Ni Ei Es <-. pose proof (a_once _ _ A c) as On. destruct D as [(_ & _ & Hh & _)|(_ & _ & Ec & _)].
    - pose proof (held_at2_le i j s c Ni) as M. unfold held_at in M. rewrite En, Ei, Hh in M. unfold held in M. rewrite Es in M. rewrite !cnt_cons, one_self, !cnt_nil in M. lia.
    - pose proof (held_at_le i s c) as M. unfold held_at in M. rewrite Ei in M. unfold held in M. rewrite Es in M. rewrite cnt_cons, one_self, cnt_nil in M. pose proof (a_fresh _ _ A c ltac:(lia)). lia. }
  split.
  - intros d L. rewrite Eo in L. assert (N : c <> d) by lia. rewrite app_length in L. rewrite asked_app, heads_app. destruct (El d N) as (-> & -> & ->). rewrite app_nil_r, Nat.add_0_r. apply Jf. lia.
  - intros d P N. destruct (Nat.eq_dec c d) as [<-|Nd].
    + unfold PoolAnswer.balanced. rewrite app_assoc, (app_assoc (tr ++ pre)). rewrite asked_app, heads_app. destruct (silent_asked sF c rs Sr) as [-> ->]. rewrite app_nil_r, Nat.add_0_r.
      destruct (snd r) as [[k'|v b c']|e| |]; try (
        exfalso; assert (Hx : held_in x = []) by (destruct x; try contradiction; reflexivity); assert (Cs : flat_map carried cs = []) by (destruct Fa; try contradiction; reflexivity);
        pose proof (moved_H j x cs op s pc c En) as M; rewrite Hx, Cs in M; rewrite cnt_nil in M; pose proof (a_once _ _ A c) as On;
        destruct D as [(_ & _ & Hh & _)|(_ & _ & Ec & Hh & _)]; rewrite Hh in M; [rewrite cnt_cons, one_self in M; lia|];
        assert (Z : H s c = 0) by (destruct (H s c) eqn:Eh; [reflexivity | pose proof (a_fresh _ _ A c ltac:(lia)); lia]); lia).
      * exfalso. apply (N j k'). rewrite moved_state, Nat.eqb_refl, En. cbn. rewrite Fx. reflexivity.
      * exact Po.
    + unfold PoolAnswer.balanced. rewrite asked_app, heads_app. destruct (El d Nd) as (-> & -> & ->). rewrite app_nil_r, Nat.add_0_r. destruct (Nat.lt_ge_cases d (length (s_opened s))) as [L|L].
      * pose proof (coarse_H tmax checks _ _ _ d Q L) as M. apply Jb; [lia|]. intros i k' E. destruct (Nat.eq_dec i j) as [->|Ni].
        -- unfold state_of in E. rewrite En in E. injection E as E. destruct D as [(_ & _ & Hh & _)|(_ & _ & _ & _ & Es & _)]; [|congruence]. unfold held in Hh. rewrite E in Hh. congruence.
        -- apply (N i k'). rewrite moved_state. destruct (Nat.eqb_spec j i); [congruence | exact E].
      * exact (fresh_clean s tr st d J L).
  - intros i pc' d k' E Ed. cbn [moved s_calls] in E. destruct (nth_error (s_calls s) i) as [pi|] eqn:Ei.
    2:{ exfalso. assert (i < length (set_state j x (s_calls s))) by (apply nth_error_Some; rewrite E; discriminate). rewrite set_length in *. apply nth_error_None in Ei. lia. }
    destruct (set_job j x (s_calls s) i pi Ei) as (p1 & E1 & Jo & S1). rewrite E1 in E. injection E as <-. rewrite S1 in Ed. destruct (Nat.eqb_spec j i) as [<-|N].
    + rewrite En in Ei. injection Ei as <-. destruct (snd r) as [[k1|v b c']|e| |]; try (destruct x; try contradiction; discriminate Ed).
      * rewrite Fx in Ed. injection Ed as <- <-. apply (localB_job c _ _ pc); [exact Jo|]. rewrite app_assoc, (app_assoc (tr ++ pre)).
        apply (localB_frame c _ rs (after_acts (map (EAct j) (fst r)) st)); [apply (silent_asked sF), Sr | apply (silent_asked sF), Sr | reflexivity | exact Po].
      * destruct Fx as [-> _]. discriminate Ed.
    + pose proof (Jc i pi d k' Ei Ed) as Jl. pose proof (Ot i pi d k' ltac:(congruence) Ei Ed) as Nd.
      apply (localB_frame d tr _ st); [apply El, Nd | apply El, Nd | apply El, Nd | exact (localB_job _ _ _ _ _ _ Jo Jl)].
Qed.

Theorem invK_run ls : forall s tr st, Forall honest_label ls -> invA s tr -> invK s tr st -> sF = fst (prun tmax checks ls s) -> trF = tr ++ snd (prun tmax checks ls s) ->
  read_off trims cl st (plog tmax checks ls s) -> @orderly F U same_http bconn R explain reason ln ps near opened tr (plog tmax checks ls s).
Proof.
  induction ls as [|l ls IH]; intros s tr st Fh A J Ef Et O; [exact I|]. pose proof (Forall_inv Fh) as Hl. pose proof (Forall_inv_tail Fh) as Hr.
  assert (Me : forall i pc, nth_error (s_calls s) i = Some pc -> PoolAnswerSpec.method_of sF i = Some (pr_method (c_proc pc))).
  { intros i pc E. destruct (run_job tmax checks (l :: ls) s tr i pc Fh A E) as (p & E' & (_ & Jp & _)). unfold PoolAnswerSpec.method_of. rewrite Ef, E'. cbn. rewrite Jp. reflexivity. }
  cbn [prun plog] in *. destruct (PoolSystem.pstep tmax checks l s) as [[s1 t1]|] eqn:Es; [|exact (IH s tr st Hr A J Ef Et O)].
  pose proof (effect_coarse tmax checks _ _ _ _ (step_effect tmax checks l s s1 t1 (a_keeps _ _ A) Hl Es)) as Q. pose proof (invA_step _ _ _ _ _ _ A Q) as A'.
  cbn [read_off] in O. destruct O as [O1 O2]. cbn [orderly].
  assert (Et' : exists t0, trF = (tr ++ t1) ++ t0) by (destruct (prun tmax checks ls s1) as [s2 t2]; exists t2; rewrite Et; apply app_assoc).
  assert (J' : invK s1 (tr ++ t1) (after_acts t1 st) /\ match l with LPoll _ w => acts_ok opened w tr t1 | _ => True end).
  { destruct (step_cases ps near tmax checks opened l s s1 t1 (a_keeps _ _ A) Hl Es) as [Us|Qu]; [exact (invK_uses l s s1 tr st t1 Hl A J Me Et' O1 Us Q)|].
    split; [exact (invK_quiet _ _ _ _ _ A J Qu)|]. destruct l as [| | |i w|]; try exact I. destruct Qu as (Si & _). revert Si. clear. revert tr.
    induction t1 as [|e t1 IH]; intros tr Si; [exact I|]. split; [destruct e as [|i0 a| |]; try exact I; elim (Si i0 a (or_introl eq_refl))|]. apply IH. intros i0 a I0. exact (Si i0 a (or_intror I0)). }
  destruct J' as [J' Ao]. split; [exact Ao|]. apply (IH s1 (tr ++ t1) (after_acts t1 st) Hr A' J'); [| |exact O2]; destruct (prun tmax checks ls s1) as [s2 t2]; cbn [fst snd] in *; [exact Ef | rewrite <- app_assoc; exact Et].
Qed.
Lemma invK_new size d : invK (psys_new size d) [] far.
Proof.
  split.
  - intros c _. repeat split.
  - intros c P _. split; [reflexivity | apply Far].
  - intros i pc c k E. destruct i; discriminate.
Qed.
End Client.
