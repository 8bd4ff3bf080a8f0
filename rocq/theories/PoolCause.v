(** * Proofs that every call, and the pool, is lost for a cause. *)
From Verif Require Import Base Serde Procedure Router SerRequest DeHeader DeResponse DepUrl Error Client ClientSpec ClientProofs Pool PoolSpec PoolProofs PoolSystem PoolSystemSpec PoolSystemProofs
  PoolSystemInv PoolSystemGone PoolSystemReport PoolCauseSpec.
From Verif Require PoolWrap.
Open Scope N_scope.

Notation plg := (list (plabel * list pevent)).
Notation trace lg := (concat (map snd lg)).

Section Causes.
Context {F : floatlib} {U : urlenv}.

(** ** The log only grows *)
Lemma did_incl (lg lg' : plg) i w a : incl lg lg' -> did lg i w a -> did lg' i w a.
Proof. intros I (t & A & B). exists t. split; [apply I, A | exact B]. Qed.
Lemma received_incl m (lg lg' : plg) i x b : incl lg lg' -> received m lg i x b -> received m lg' i x b.
Proof.
  intros I. pose proof (fun w a => did_incl lg lg' i w a I) as D. unfold received. destruct m; try (intros (w & x0 & A & B); exists w, x0; split; [apply D, A | exact B]).
  intros (E & w & c & A & B). split; [exact E|]. exists w, c. split; [apply D, A | exact B].
Qed.
Lemma disturbed_incl (lg lg' : plg) i e : incl lg lg' -> disturbed lg i e -> disturbed lg' i e.
Proof.
  intros I (w & D). pose proof (fun a => did_incl lg lg' i w a I) as M. exists w. destruct D as [(r & b & c & A & B)|[(c & A & B)|(x & A & B)]].
  - left. exists r, b, c. split; [apply M, A | exact B].
  - right. left. exists c. split; [apply M, A | exact B].
  - right. right. exists x. split; [apply M, A | exact B].
Qed.
Lemma unconnected_incl (lg lg' : plg) e : incl lg lg' -> unconnected lg e -> unconnected lg' e.
Proof. intros I (now & f & A & B). exists now, f. split; [apply I, A | exact B]. Qed.
Lemma trace_incl (lg lg' : plg) : incl lg lg' -> incl (trace lg) (trace lg').
Proof.
  intros I e M. apply in_concat in M. destruct M as (t & M & N). apply in_map_iff in M. destruct M as (x & <- & M). apply in_concat. exists (snd x). split; [apply in_map, I, M | exact N].
Qed.
Lemma reported_incl (lg lg' : plg) a : incl lg lg' -> reported lg a -> reported lg' a.
Proof. intros I (j & M). exists j. exact (trace_incl lg lg' I _ M). Qed.

(** ** A call that talks *)
Definition phase_why (lg : plg) (i : nat) (pc : pcall) (k : call conn) : Prop :=
  match k_phase k with
  | PhA f => (exists c, f = Ready c) /\ k_request k = Some (c_req pc)
  | PhB f => exists w r b c, did lg i w (Write r b c) /\ settle (w_write w r b c) = settle f
  | PhC f => exists w c, did lg i w (ReadHead c) /\ settle (w_head w c) = settle f
  | PhD f => if is_head (c_proc pc) then exists w c x, did lg i w (ReadHead c) /\ settle (w_head w c) = Comes x /\ f = Ready (x, [])
             else exists w x, did lg i w (ReadBody x) /\ settle (w_body w x) = settle f
  end.
(** The causes that are in the call itself. *)
Definition talk_cause (lg : plg) (i : nat) (pc : pcall) (k : ekind) : Prop :=
  encoding pc = Err k \/ (exists e, disturbed lg i e /\ k = error_of e) \/ (exists x b, received (pr_method (c_proc pc)) lg i x b /\ decoding_of pc x = Err k).
Definition end_why (lg : plg) (i : nat) (pc : pcall) (o : res (outcome conn)) : Prop :=
  match o with
  | Ok (Pending k) => phase_why lg i pc k
  | Ok (Done v b _) => exists x, received (pr_method (c_proc pc)) lg i x b /\ decoding_of pc x = Ok v
  | Err k => talk_cause lg i pc k
  | Panic | Diverge => ~ safe (encoding pc) \/ exists x b, received (pr_method (c_proc pc)) lg i x b /\ ~ safe (decoding_of pc x)
  end.
Lemma phase_incl (lg lg' : plg) i pc k : incl lg lg' -> phase_why lg i pc k -> phase_why lg' i pc k.
Proof.
  intros I. pose proof (fun w a => did_incl lg lg' i w a I) as D. unfold phase_why. destruct (k_phase k) as [f|f|f|f].
  - auto.
  - intros (w & r & b & c & A & B). exists w, r, b, c. auto.
  - intros (w & c & A & B). exists w, c. auto.
  - destruct (is_head (c_proc pc)).
    + intros (w & c & x & A & B). exists w, c, x. split; [apply D, A | exact B].
    + intros (w & x & A & B). exists w, x. auto.
Qed.
Lemma received_head lg i p w c x : is_head p = true -> did lg i w (ReadHead c) -> settle (w_head w c) = Comes x -> received (pr_method p) lg i x [].
Proof. rewrite head_iff. unfold received. destruct (pr_method p); try discriminate. intros _ A B. split; [reflexivity|]. exists w, c. auto. Qed.
Lemma received_body lg i p w x0 x b : is_head p = false -> did lg i w (ReadBody x0) -> settle (w_body w x0) = Comes (x, b) -> received (pr_method p) lg i x b.
Proof. rewrite head_iff. unfold received. destruct (pr_method p); try discriminate; intros _ A B; exists w, x0; auto. Qed.
Lemma error_phase ix e : error_of (FromPhase ix e) = error_of e.
Proof. destruct ix; reflexivity. Qed.

Lemma poll_why w i pc lg : forall fuel k, (rank k < fuel)%nat -> phase_why lg i pc k -> (forall a, In a (fst (poll w (c_proc pc) fuel k)) -> did lg i w a) ->
  end_why lg i pc (snd (poll w (c_proc pc) fuel k)).
Proof.
  induction fuel as [|fuel IH]; intros k L Ph; [lia|]. cbn [poll]. destruct k as [rq ph]. unfold phase_why in Ph. unfold rank in L. cbn [k_phase k_request] in *. destruct ph as [f|f|f|f]; cbn [phase_poll].
  - destruct Ph as [(c & ->) ->]. cbn [fpoll]. unfold on_connected. destruct (c_req pc) as [v b] eqn:Er.
    destruct (encode_request (pr_entry (c_proc pc)) v (N.of_nat (length b))) as [r|e| |] eqn:Ee; cbn [bind];
      try (intros _; cbn [end_why snd]; left; unfold encoding; rewrite Er; cbn [fst snd]; rewrite Ee; first [reflexivity | exact (fun x => x)]).
    specialize (IH (mkCall None (PhB (w_write w r b c)))). unfold rank in IH. cbn [k_phase] in IH. specialize (IH ltac:(lia)).
    destruct (poll w (c_proc pc) fuel (mkCall None (PhB (w_write w r b c)))) as [t o]. cbn [fst snd] in *. intros D. apply IH; [|intros a I; apply D; right; exact I].
    unfold phase_why. cbn [k_phase]. exists w, r, b, c. split; [apply D; left; reflexivity | reflexivity].
  - destruct Ph as (w0 & r & b & c0 & D0 & E0). destruct f as [c|e|f|]; cbn [fpoll settle] in *.
    + specialize (IH (mkCall rq (PhC (w_head w c)))). unfold rank in IH. cbn [k_phase] in IH. specialize (IH ltac:(lia)).
      destruct (poll w (c_proc pc) fuel (mkCall rq (PhC (w_head w c)))) as [t o]. cbn [fst snd] in *. intros D. apply IH; [|intros a I; apply D; right; exact I].
      unfold phase_why. cbn [k_phase]. exists w, c. split; [apply D; left; reflexivity | reflexivity].
    + intros _. cbn [end_why snd]. right. left. exists e. split; [|apply error_phase]. exists w0. left. exists r, b, c0. auto.
    + intros _. cbn [end_why snd]. unfold phase_why. cbn [k_phase]. exists w0, r, b, c0. auto.
    + intros _. cbn [end_why snd]. unfold phase_why. cbn [k_phase]. exists w0, r, b, c0. auto.
  - destruct Ph as (w0 & c0 & D0 & E0). destruct f as [r|e|f|]; cbn [fpoll settle] in *.
    + destruct (is_head (c_proc pc)) eqn:Ei.
      * specialize (IH (mkCall rq (PhD (Ready (r, []))))). unfold rank in IH. cbn [k_phase] in IH. specialize (IH ltac:(lia)). apply IH.
        unfold phase_why. cbn [k_phase]. rewrite Ei. exists w0, c0, r. auto.
      * specialize (IH (mkCall rq (PhD (w_body w r)))). unfold rank in IH. cbn [k_phase] in IH. specialize (IH ltac:(lia)).
        destruct (poll w (c_proc pc) fuel (mkCall rq (PhD (w_body w r)))) as [t o]. cbn [fst snd] in *. intros D. apply IH; [|intros a I; apply D; right; exact I].
        unfold phase_why. cbn [k_phase]. rewrite Ei. exists w, r. split; [apply D; left; reflexivity | reflexivity].
    + intros _. cbn [end_why snd]. right. left. exists e. split; [|apply error_phase]. exists w0. right. left. exists c0. auto.
    + intros _. cbn [end_why snd]. unfold phase_why. cbn [k_phase]. exists w0, c0. auto.
    + intros _. cbn [end_why snd]. unfold phase_why. cbn [k_phase]. exists w0, c0. auto.
  - intros _. assert (Q : match fpoll f with
        | AReady (x, b) => received (pr_method (c_proc pc)) lg i x b
        | AFailed e => disturbed lg i e
        | ANotReady f' => phase_why lg i pc (mkCall rq (PhD f')) end).
    { unfold phase_why. cbn [k_phase]. destruct (is_head (c_proc pc)) eqn:Ei.
      - destruct Ph as (w0 & c & x & D0 & E0 & ->). cbn [fpoll]. exact (received_head lg i _ w0 c x Ei D0 E0).
      - destruct Ph as (w0 & x & D0 & E0). destruct f as [[y b]|e|f|]; cbn [fpoll settle] in *.
        + exact (received_body lg i _ w0 x y b Ei D0 E0).
        + exists w0. right. right. exists x. auto.
        + exists w0, x. auto.
        + exists w0, x. auto. }
    destruct (fpoll f) as [[x b]|e|f']; cbn [snd end_why].
    + unfold on_received. fold (decoding_of pc x). destruct (decoding_of pc x) as [v|e| |] eqn:Ed; cbn [bind end_why].
      * exists x. auto.
      * right. right. exists x, b. auto.
      * right. exists x, b. rewrite Ed. auto.
      * right. exists x, b. rewrite Ed. auto.
    + right. left. exists e. split; [exact Q | apply error_phase].
    + exact Q.
Qed.

(** ** A call *)
Definition why (lg : plg) (pool : option (pool conn)) (q : list (command conn)) (i : nat) (pc : pcall) (x : cstate) : Prop :=
  match x with
  | Acquiring None => pool = None \/ pending i q = true
  | Acquiring (Some PSuspended) => reported lg (c_addr pc)
  | Acquiring (Some (PIdle _)) => True
  | Acquiring (Some (PConnect f)) => exists now f0, In (LPool now f0, []) lg /\ settle f0 = settle f
  | Talking _ k => phase_why lg i pc k
  | Finished v b => exists x, received (pr_method (c_proc pc)) lg i x b /\ decoding_of pc x = Ok v
  | Broken k => talk_cause lg i pc k \/ (exists e, unconnected lg e /\ In (EBlacklist i (c_addr pc)) (trace lg) /\ k = error_of e) \/
      (reported lg (c_addr pc) /\ k = Other) \/ (pool = None /\ k = Other)
  | Dropped => In (LDrop i, []) lg
  | Panicked => ~ safe (encoding pc) \/ exists x b, received (pr_method (c_proc pc)) lg i x b /\ ~ safe (decoding_of pc x)
  end.
Lemma talk_incl (lg lg' : plg) i pc k : incl lg lg' -> talk_cause lg i pc k -> talk_cause lg' i pc k.
Proof.
  intros I [A|[(e & A & B)|(x & b & A & B)]].
  - left. exact A.
  - right. left. exists e. split; [exact (disturbed_incl _ _ _ _ I A) | exact B].
  - right. right. exists x, b. split; [exact (received_incl _ _ _ _ _ _ I A) | exact B].
Qed.
Lemma why_incl (lg lg' : plg) pl pl' q q' i pc x : incl lg lg' -> (pl = None -> pl' = None) -> (x = Acquiring None -> pl' = None \/ (pending i q = true -> pending i q' = true)) ->
  why lg pl q i pc x -> why lg' pl' q' i pc x.
Proof.
  intros I P Q. destruct x as [[[|c|f]|]|c k|v b|k| |]; cbn [why].
  - apply reported_incl, I.
  - auto.
  - intros (now & f0 & A & B). exists now, f0. auto.
  - destruct (Q eq_refl) as [Q'|Q']; [auto|]. intros [A|A]; auto.
  - apply phase_incl, I.
  - intros (x & A & B). exists x. split; [exact (received_incl _ _ _ _ _ _ I A) | exact B].
  - intros [A|[(e & A & B & C)|[(A & B)|(A & B)]]].
    + left. exact (talk_incl _ _ _ _ _ I A).
    + right. left. exists e. split; [exact (unconnected_incl _ _ _ I A)|]. split; [exact (trace_incl _ _ I _ B) | exact C].
    + right. right. left. split; [exact (reported_incl _ _ _ I A) | exact B].
    + right. right. right. auto.
  - apply I.
  - intros [A|(x & b & A & B)]; [left; exact A|]. right. exists x, b. split; [exact (received_incl _ _ _ _ _ _ I A) | exact B].
Qed.

Lemma sent_moved j x cs (s : psys) : mkPsys (s_pool (put_state j x s)) (queue_after (put_state j x s) cs) (s_calls (put_state j x s)) (s_opened (put_state j x s)) = moved j x cs [] s.
Proof. rewrite <- moved_nil. reflexivity. Qed.
Lemma inner_why i pc c r s lg : end_why lg i pc (snd r) ->
  exists x, fst (inner_result i pc c r s) = moved i x (flat_map says (snd (inner_result i pc c r s))) [] s /\ forall pl q, why lg pl q i pc x.
Proof.
  destruct r as [ts o]. unfold inner_result. destruct o as [[k|v b c']|e| |]; cbn [fst snd end_why]; intros Q.
  - exists (Talking c k). rewrite says_acts, put_moved. split; [reflexivity|]. intros pl q. exact Q.
  - exists (Finished v b). rewrite flat_map_app, says_acts. cbn [flat_map says app]. rewrite send_eq, sent_moved. split; [reflexivity|]. intros pl q. exact Q.
  - exists (Broken e). rewrite says_acts, put_moved. split; [reflexivity|]. intros pl q. left. exact Q.
  - exists Panicked. rewrite says_acts, put_moved. split; [reflexivity|]. intros pl q. exact Q.
  - exists Panicked. rewrite says_acts, put_moved. split; [reflexivity|]. intros pl q. exact Q.
Qed.
Lemma inner_acts i pc c r s a : In a (fst r) -> In (EAct i a) (snd (inner_result i pc c r s)).
Proof.
  intros I. apply (in_map (EAct i)) in I. destruct r as [ts o]. unfold inner_result. destruct o as [[k|v b c']|e| |]; cbn [fst snd] in *; try exact I. apply in_or_app. left. exact I.
Qed.
Lemma pooled_why i w pc s s' t lg lg' : why lg (s_pool s) (s_queue s) i pc (c_state pc) -> poll_pooled i w pc s = Some (s', t) -> incl lg lg' -> In (LPoll i w, t) lg' ->
  exists x op, s' = moved i x (flat_map says t) op s /\ why lg' (s_pool s) (s_queue s) i pc x.
Proof.
  intros Y E I N. assert (K : forall c k (s0 : psys), phase_why lg i pc k -> (forall a, In a (fst (poll_call w (c_proc pc) k)) -> In (EAct i a) t) ->
      exists x, fst (inner_result i pc c (poll_call w (c_proc pc) k) s0) = moved i x (flat_map says (snd (inner_result i pc c (poll_call w (c_proc pc) k) s0))) [] s0 /\ forall pl q, why lg' pl q i pc x).
  { intros c k s0 Ph D. apply inner_why. apply poll_why; [unfold rank; destruct (k_phase k); lia | exact (phase_incl _ _ _ _ _ I Ph)|]. intros a Ia. exists t. split; [exact N | exact (D a Ia)]. }
  assert (New : forall c, phase_why lg i pc (call_new (c_req pc) (Ready c))) by (intros c; split; [exists c; reflexivity | reflexivity]).
  revert E Y. unfold poll_pooled. destruct (c_state pc) as [a|c k| | | |]; try discriminate.
  - destruct a as [[|c|f]|]; cbn [acquire_poll why].
    + intros [= <- <-] R. exists (Broken Other), []. rewrite put_moved. split; [reflexivity|]. right. right. left. split; [exact (reported_incl _ _ _ I R) | reflexivity].
    + intros [= E] _. specialize (K c (call_new (c_req pc) (Ready c)) s (New c)). pose proof (inner_acts i pc c (poll_call w (c_proc pc) (call_new (c_req pc) (Ready c))) s) as Ia.
      destruct (inner_result i pc c _ s) as [s1 t1]. injection E as <- <-. cbn [fst snd] in *. destruct (K Ia) as (x & K1 & K2). exists x, []. split; [exact K1 | apply K2].
    + intros E (now & f0 & A & B). destruct f as [[]|e|f|]; cbn [fpoll settle] in *.
      * cbv zeta in E. set (s1 := mkPsys (s_pool s) (s_queue s) (s_calls s) (s_opened s ++ [c_addr pc])) in *. set (c := length (s_opened s)) in *.
        specialize (K c (call_new (c_req pc) (Ready c)) s1 (New c)). pose proof (inner_acts i pc c (poll_call w (c_proc pc) (call_new (c_req pc) (Ready c))) s1) as Ia.
        destruct (inner_result i pc c _ s1) as [s2 t2]. injection E as <- <-. cbn [fst snd] in *. destruct (K (fun a H => or_intror (Ia a H))) as (x & K1 & K2). exists x, [c_addr pc].
        split; [rewrite K1; unfold moved; cbn [s_pool s_queue s_calls s_opened s1]; rewrite app_nil_r; reflexivity | apply K2].
      * rewrite send_eq, sent_moved in E. injection E as <- <-. exists (Broken (error_of (FromPhase IxA (FromError (error_of (FromPhase IxB (FromError (error_of (FromPhase IxB e))))))))), [].
        split; [reflexivity|]. cbn [why error_of]. right. left. exists e. split; [|split; [|reflexivity]].
        -- exists now, f0. split; [apply I, A | exact B].
        -- apply in_concat. exists [EBlacklist i (c_addr pc)]. split; [|left; reflexivity]. exact (in_map snd _ _ N).
      * injection E as <- <-. exists (Acquiring (Some (PConnect f))), []. rewrite put_moved. split; [reflexivity|]. exists now, f0. split; [apply I, A | exact B].
      * injection E as <- <-. exists (Acquiring (Some (PConnect Never))), []. rewrite put_moved. split; [reflexivity|]. exists now, f0. split; [apply I, A | exact B].
    + destruct (pending i (s_queue s)) eqn:Pe; intros [= <- <-] R.
      * exists (Acquiring None), []. rewrite put_moved. split; [reflexivity|]. right. exact Pe.
      * exists (Broken Other), []. rewrite put_moved. split; [reflexivity|]. right. right. right. split; [|reflexivity]. destruct R as [R|R]; [exact R | discriminate].
  - intros [= E] Ph. specialize (K c k s Ph). pose proof (inner_acts i pc c (poll_call w (c_proc pc) k) s) as Ia.
    destruct (inner_result i pc c _ s) as [s1 t1]. injection E as <- <-. cbn [fst snd] in *. destruct (K Ia) as (x & K1 & K2). exists x, []. split; [exact K1 | apply K2].
Qed.

(** ** The pool *)
Variables (tmax : Z) (checks : bool).
Notation prun := (prun tmax checks).
Notation pstep := (pstep tmax checks).
Notation plog := (plog tmax checks).
Lemma removed_in a : forall (l : list (saddr * Z)) o r, hm_remove a l = (o, r) -> (forall b t, In (b, t) r -> In (b, t) l) /\ (forall t, o = Some t -> In (a, t) l).
Proof.
  induction l as [|[b t] l IH]; intros o r; cbn [hm_remove]; [intros [= <- <-]; split; [auto | discriminate]|].
  destruct (saddr_eqb_spec a b) as [<-|N].
  - intros [= <- <-]. split; [right; assumption|]. intros t0 [= <-]. left. reflexivity.
  - destruct (hm_remove a l) as [o' r'] eqn:Er. intros [= <- <-]. destruct (IH o' r' eq_refl) as [A B]. split.
    + intros b0 t0 [Q|Q]; [left; exact Q | right; exact (A _ _ Q)].
    + intros t0 Q. right. exact (B t0 Q).
Qed.
Lemma inserted_in a t (l : list (saddr * Z)) b t' : In (b, t') (hm_insert a t l) -> (b, t') = (a, t) \/ In (b, t') l.
Proof.
  unfold hm_insert. destruct (hm_remove a l) as [o r] eqn:E. intros [Q|Q]; [left; congruence|]. right. exact (proj1 (removed_in a l o r E) _ _ Q).
Qed.
Lemma acquire_black a p x p' : acquire_connection (C := conn) a p = Ok (x, p') -> p_black p' = p_black p /\ forall t, x <> Suspended t.
Proof.
  unfold acquire_connection. destruct (bt_from cid_cmp (mkCid a 0) (p_conns p)) as [|[id c0] r]; [intros [= <- <-]; split; [reflexivity | discriminate]|].
  destruct (saddr_eqb (id_addr id) a); [|intros [= <- <-]; split; [reflexivity | discriminate]].
  destruct (bt_remove cid_cmp id (p_conns p)) as [[y|] conns]; [|discriminate]. intros [= <- <-]. split; [reflexivity | discriminate].
Qed.
Lemma drop_black : forall fuel (p p' : pool conn), drop_exceeded fuel p = Ok p' -> p_black p' = p_black p.
Proof.
  induction fuel as [|fuel IH]; intros p p'; cbn [drop_exceeded]; [discriminate|]. destruct (p_size p <? N.of_nat (length (p_conns p))); [|intros [= <-]; reflexivity].
  destruct (p_lru p) as [|[s a] r]; [discriminate|]. intros E. rewrite (IH _ _ E). reflexivity.
Qed.
Lemma handle_black now c (p : pool conn) o p' : handle_command tmax checks now c p = Ok (o, p') ->
  (forall a t, In (a, t) (p_black p') -> (exists t', In (a, t') (p_black p)) \/ c = AddToBlacklist a) /\
  (forall i u, o = Some (i, Suspended u) -> exists a t, c = AcquireConnection a i /\ In (a, t) (p_black p)).
Proof.
  destruct c as [a i|a x|a]; cbn [handle_command].
  - destruct (hm_remove a (p_black p)) as [ot black] eqn:Er. destruct (removed_in _ _ _ _ Er) as [R1 R2].
    assert (K : forall p1, p_black p1 = black -> forall r, ('(x, p2) <- acquire_connection a p1 ;; Ok (Some (i, x), p2)) = r -> r = Ok (o, p') ->
      (forall b t, In (b, t) (p_black p') -> (exists t', In (b, t') (p_black p)) \/ @AcquireConnection conn a i = AddToBlacklist b) /\
      (forall j u, o = Some (j, Suspended u) -> exists b t, @AcquireConnection conn a i = AcquireConnection b j /\ In (b, t) (p_black p))).
    { intros p1 E1 r <-. destruct (acquire_connection a p1) as [[x p2]| | |] eqn:Ea; cbn [bind]; try discriminate. intros [= <- <-]. destruct (acquire_black _ _ _ _ Ea) as [-> N]. rewrite E1. split.
      - intros b t I. left. exists t. exact (R1 _ _ I).
      - intros j u [= _ Q]. elim (N _ Q). }
    destruct ot as [t|].
    + destruct (now <? t)%Z.
      * intros [= <- <-]. cbn [p_black]. split.
        -- intros b t0 I. left. destruct (inserted_in _ _ _ _ _ I) as [[= -> ->]|Q]; [exists t; exact (R2 t eq_refl) | exists t0; exact (R1 _ _ Q)].
        -- intros j u [= <- <-]. exists a, t. split; [reflexivity | exact (R2 t eq_refl)].
      * apply (K (mkPool (p_size p) (p_conns p) (p_lru p) (p_seq p) black (p_susp p)) eq_refl _ eq_refl).
    + apply (K (mkPool (p_size p) (p_conns p) (p_lru p) (p_seq p) black (p_susp p)) eq_refl _ eq_refl).
  - unfold release_connection. destruct (next_seq checks (p_seq p)) as [n| | |]; cbn [bind]; try discriminate. cbv zeta.
    destruct (drop_exceeded _ _) as [p1| | |] eqn:Ed; cbn [bind]; try discriminate. intros [= <- <-]. rewrite (drop_black _ _ _ Ed). cbn [p_black]. split; [|discriminate]. intros b t I. left. exists t. exact I.
  - destruct (now + p_susp p <=? tmax)%Z; [|discriminate]. intros [= <- <-]. cbn [p_black]. split; [|discriminate].
    intros b t I. destruct (inserted_in _ _ _ _ _ I) as [[= -> ->]|Q]; [right; reflexivity | left; exists t; exact Q].
Qed.

(** ** The system *)
Record invC (s : psys) (lg : plg) : Prop := {
  k_black : forall p a t, s_pool s = Some p -> In (a, t) (p_black p) -> reported lg a;
  k_queue : forall a, In (AddToBlacklist a) (s_queue s) -> reported lg a;
  k_asks : forall a j, In (AcquireConnection a j) (s_queue s) -> addr_of j s = Some a;
  k_why : forall i pc, nth_error (s_calls s) i = Some pc -> why lg (s_pool s) (s_queue s) i pc (c_state pc)
}.
Lemma pending_app i q c : pending i q = true -> pending i (q ++ c) = true.
Proof. unfold pending. rewrite existsb_app. intros ->. reflexivity. Qed.
Lemma queue_keeps i s cs : pending i (s_queue s) = true -> pending i (queue_after s cs) = true.
Proof. unfold queue_after. destruct (s_pool s); [apply pending_app | auto]. Qed.
Lemma why_job lg pl q i pc pc' x : same_job pc pc' -> why lg pl q i pc x -> why lg pl q i pc' x.
Proof. destruct pc as [a p r y], pc' as [a' p' r' y']. intros (E1 & E2 & E3). cbn [c_addr c_proc c_req] in *. subst a' p' r'. exact (fun Q => Q). Qed.

Lemma incl_more (lg : plg) x : incl lg (lg ++ [x]).
Proof. apply incl_appl, incl_refl. Qed.
Lemma in_more (lg : plg) x : In x (lg ++ [x]).
Proof. apply in_or_app. right. left. reflexivity. Qed.
Lemma reported_now (lg : plg) l t j a : In (EBlacklist j a) t -> reported (lg ++ [(l, t)]) a.
Proof. intros I. exists j. rewrite map_app, concat_app. cbn [map snd concat]. rewrite app_nil_r. apply in_or_app. right. exact I. Qed.
Lemma said a t : In (AddToBlacklist a) (flat_map says t) -> exists j, In (EBlacklist j a) t.
Proof. intros I. apply in_flat_map in I. destruct I as (e & I & J). destruct e as [c b|i b|i b c|i b]; cbn [says] in J; try destruct J as [J|[]]; try contradiction; try discriminate. injection J as ->. exists i. exact I. Qed.
Lemma never_asked a j t : ~ In (@AcquireConnection conn a j) (flat_map says t).
Proof. intros I. apply in_asks in I. rewrite says_asks in I. destruct I. Qed.

Lemma invC_moved s lg l t j pc x op : invC s lg -> nth_error (s_calls s) j = Some pc -> why (lg ++ [(l, t)]) (s_pool s) (s_queue s) j pc x ->
  invC (moved j x (flat_map says t) op s) (lg ++ [(l, t)]).
Proof.
  intros [Kb Kq Ka Kw] En Y. constructor; cbn [moved s_pool s_queue s_calls].
  - intros p a u0 Ep I. exact (reported_incl _ _ _ (incl_more lg _) (Kb p a u0 Ep I)).
  - intros a I. unfold queue_after in I. destruct (s_pool s); [apply in_app_or in I; destruct I as [I|I]|].
    + exact (reported_incl _ _ _ (incl_more lg _) (Kq a I)).
    + destruct (said _ _ I) as (i & J). exact (reported_now _ _ _ _ _ J).
    + exact (reported_incl _ _ _ (incl_more lg _) (Kq a I)).
  - intros a i I. assert (I' : In (AcquireConnection a i) (s_queue s)).
    { unfold queue_after in I. destruct (s_pool s); [|exact I]. apply in_app_or in I. destruct I as [I|I]; [exact I | elim (never_asked _ _ _ I)]. }
    specialize (Ka a i I'). unfold addr_of in *. cbn [moved s_calls]. destruct (nth_error (s_calls s) i) as [pi|] eqn:Ei; [|discriminate].
    destruct (set_job j x (s_calls s) i pi Ei) as (p1 & E1 & (J & _) & _). rewrite E1. cbn [option_map] in *. congruence.
  - intros i pc' E. destruct (nth_error (s_calls s) i) as [pi|] eqn:Ei.
    2:{ exfalso. assert (i < length (set_state j x (s_calls s)))%nat by (apply nth_error_Some; rewrite E; discriminate). rewrite set_length in *. apply nth_error_None in Ei. lia. }
    destruct (set_job j x (s_calls s) i pi Ei) as (p1 & E1 & J & S1). rewrite E1 in E. injection E as <-. rewrite S1. destruct (Nat.eqb_spec j i) as [<-|N].
    + rewrite En in Ei. injection Ei as <-. apply (why_job _ _ _ _ pc); [exact J|]. refine (why_incl _ _ _ _ _ _ _ _ _ (incl_refl _) (fun e => e) _ Y). intros _. right. apply queue_keeps.
    + apply (why_job _ _ _ _ pi); [exact J|]. refine (why_incl _ _ _ _ _ _ _ _ _ (incl_more _ _) (fun e => e) _ (Kw i pi Ei)). intros _. right. apply queue_keeps.
Qed.

Lemma invC_gone s lg l : invC s lg -> invC (pool_gone s) (lg ++ [(l, [])]).
Proof.
  intros [Kb Kq Ka Kw]. constructor; cbn [pool_gone s_pool s_queue s_calls]; try discriminate; try (intros; contradiction).
  intros i pc E. refine (why_incl _ _ _ _ _ _ _ _ _ (incl_more _ _) _ _ (Kw i pc E)); auto.
Qed.
Lemma invC_step s lg l s' t : invC s lg -> pstep l s = Some (s', t) -> invC s' (lg ++ [(l, t)]).
Proof.
  intros K E. pose proof K as [Kb Kq Ka Kw]. destruct l as [addr p req|now f| |j w|j]; cbn [PoolSystem.pstep] in E.
  - injection E as <- <-. rewrite send_eq. cbn [s_pool s_queue s_calls s_opened]. constructor; cbn [s_pool s_queue s_calls].
    + intros p0 a u0 Ep I. exact (reported_incl _ _ _ (incl_more lg _) (Kb p0 a u0 Ep I)).
    + intros a I. unfold queue_after in I. cbn [s_pool s_queue] in I. destruct (s_pool s); [apply in_app_or in I; destruct I as [I|[I|[]]]; [|discriminate]|]; exact (reported_incl _ _ _ (incl_more lg _) (Kq a I)).
    + intros a i I. rewrite addr_snoc. assert (Q : In (AcquireConnection a i) (s_queue s) \/ a = addr /\ i = length (s_calls s)).
      { unfold queue_after in I. cbn [s_pool s_queue] in I. destruct (s_pool s); [|auto]. apply in_app_or in I. destruct I as [I|[I|[]]]; [auto|]. injection I as <- <-. auto. }
      destruct Q as [Q|[-> ->]]; [|rewrite Nat.eqb_refl; reflexivity]. specialize (Ka a i Q). unfold addr_of in Ka. destruct (Nat.eqb_spec i (length (s_calls s))) as [->|N]; [|exact Ka].
      rewrite (proj2 (nth_error_None _ _)) in Ka by lia. discriminate.
    + intros i pc' En. rewrite nth_snoc in En. destruct (Nat.eqb_spec i (length (s_calls s))) as [->|N].
      * injection En as <-. cbn [c_state why]. unfold queue_after. cbn [s_pool s_queue]. destruct (s_pool s); [|auto]. right. unfold pending. rewrite existsb_app. cbn [existsb]. rewrite Nat.eqb_refl. destruct (existsb _ (s_queue s)); reflexivity.
      * refine (why_incl _ _ _ _ _ _ _ _ _ (incl_more _ _) (fun e => e) _ (Kw i pc' En)). intros _. right. unfold queue_after. cbn [s_pool s_queue]. destruct (s_pool s); [apply pending_app | auto].
  - destruct (s_pool s) as [p|] eqn:Ep; [|discriminate]. destruct (s_queue s) as [|c q] eqn:Eq; [discriminate|].
    destruct (handle_command tmax checks now c p) as [[o p']|e| |] eqn:Eh; try (injection E as <- <-; apply invC_gone; exact K).
    assert (Es : after_command s p' q o f = s' /\ t = []) by (injection E as <- <-; auto). destruct Es as [<- ->]. clear E.
    destruct (PoolSystemInv.after_command_queue s p' q o f) as [Aq Ap]. destruct (handle_black _ _ _ _ _ Eh) as [B1 B2]. pose proof (handle_reply tmax checks now c p o p' Eh) as Hr.
    constructor; rewrite ?Aq, ?Ap.
    + intros p0 a u0 [= <-] I. destruct (B1 a u0 I) as [(t' & Q)|Q]; [exact (reported_incl _ _ _ (incl_more lg _) (Kb p a t' eq_refl Q))|].
      apply (reported_incl _ _ _ (incl_more lg _)), Kq. subst c. left. reflexivity.
    + intros a I. apply (reported_incl _ _ _ (incl_more lg _)), Kq. right. exact I.
    + intros a i I. rewrite after_command_addr. apply Ka. right. exact I.
    + intros i pc' En. assert (Old : forall pi, nth_error (s_calls s) i = Some pi -> (forall a, c = AcquireConnection a i -> c_state pi <> Acquiring None) ->
          why (lg ++ [(LPool now f, [])]) (Some p') q i pi (c_state pi)).
      { intros pi Ei N. refine (why_incl _ _ _ _ _ _ _ _ _ (incl_more _ _) _ _ (Kw i pi Ei)); [discriminate|]. intros Es. right. unfold pending. cbn [existsb].
        destruct c as [a j|a x|a]; cbn [orb]; auto. destruct (Nat.eqb_spec i j) as [->|]; [elim (N a eq_refl Es) | auto]. }
      revert En. unfold after_command. destruct o as [[j an]|].
      2:{ intros En. apply Old; [exact En|]. intros a ->. destruct Hr as (a' & [=]). }
      destruct c as [a i0|a x|a]; try discriminate. destruct Hr as (a' & [= <- <-]). unfold reply. cbn [s_calls].
      destruct (nth_error (s_calls s) j) as [pj|] eqn:Ej.
      2:{ intros En. apply Old; [exact En|]. intros a0 [= _ <-]. cbn [s_calls] in En. congruence. }
      assert (Dead : c_state pj <> Acquiring None -> nth_error (s_calls s) i = Some pc' -> why (lg ++ [(LPool now f, [])]) (Some p') q i pc' (c_state pc')).
      { intros N En. apply Old; [exact En|]. intros a0 [= _ <-]. rewrite Ej in En. injection En as <-. exact N. }
      destruct (c_state pj) as [[y|]|c k|v b|k| |] eqn:Sj; cbn [s_calls]; try (apply Dead; discriminate).
      unfold put_state. cbn [s_calls]. intros En. destruct (nth_error (s_calls s) i) as [pi|] eqn:Ei.
      2:{ exfalso. assert (i < length (set_state j (Acquiring (Some (to_pooled an f))) (s_calls s)))%nat by (apply nth_error_Some; rewrite En; discriminate). rewrite set_length in *. apply nth_error_None in Ei. lia. }
      destruct (set_job j (Acquiring (Some (to_pooled an f))) (s_calls s) i pi Ei) as (p1 & E1 & J & S1). rewrite E1 in En. injection En as <-. rewrite S1. apply (why_job _ _ _ _ pi); [exact J|].
      destruct (Nat.eqb_spec j i) as [<-|N].
      * rewrite Ej in Ei. injection Ei as <-. destruct an as [t|c|]; cbn [to_pooled why].
        -- destruct (B2 j t eq_refl) as (a0 & t0 & [= <-] & Q). specialize (Ka a j (or_introl eq_refl)). unfold addr_of in Ka. rewrite Ej in Ka. injection Ka as ->.
           exact (reported_incl _ _ _ (incl_more lg _) (Kb p a t0 eq_refl Q)).
        -- exact I.
        -- exists now, f. split; [apply in_more | reflexivity].
      * apply Old; [reflexivity|]. intros a0 [= _ ->]. congruence.
  - destruct (s_pool s); [|discriminate]. injection E as <- <-. apply invC_gone, K.
  - destruct (nth_error (s_calls s) j) as [pc|] eqn:En; [|discriminate].
    destruct (pooled_why j w pc s s' t lg (lg ++ [(LPoll j w, t)]) (Kw j pc En) E (incl_more _ _) (in_more _ _)) as (x & op & -> & Y). exact (invC_moved s lg _ t j pc x op K En Y).
  - destruct (nth_error (s_calls s) j) as [pc|] eqn:En; [|discriminate]. assert (Es : s' = moved j Dropped (flat_map says t) [] s /\ t = []) by (destruct (c_state pc); try discriminate; injection E as <- <-; rewrite put_moved; auto).
    destruct Es as [-> ->]. apply (invC_moved s lg _ _ j pc Dropped [] K En). apply in_more.
Qed.
Lemma invC_new size d : invC (psys_new size d) [].
Proof. constructor; cbn; try (intros; contradiction). - intros p a t [= <-] []. - intros i pc E. destruct i; discriminate. Qed.
Lemma invC_run ls : forall s lg, invC s lg -> invC (fst (prun ls s)) (lg ++ plog ls s).
Proof.
  induction ls as [|l ls IH]; intros s lg K; cbn [PoolSystem.prun PoolSystemSpec.plog fst]; [rewrite app_nil_r; exact K|].
  destruct (pstep l s) as [[s1 t]|] eqn:E; [|exact (IH s lg K)]. specialize (IH s1 _ (invC_step s lg l s1 t K E)). rewrite <- app_assoc in IH. destruct (prun ls s1) as [s2 t2]. exact IH.
Qed.
Theorem explained_all ls size d s tr i pc : prun ls (psys_new size d) = (s, tr) -> nth_error (s_calls s) i = Some pc -> explained s (plog ls (psys_new size d)) i pc.
Proof.
  intros E En. pose proof (invC_run ls _ _ (invC_new size d)) as K. rewrite E in K. cbn [fst app] in K. pose proof (k_why _ _ K i pc En) as Y. unfold explained.
  destruct (c_state pc) as [a|c k|v b|k| |]; try exact I; try exact Y.
  destruct Y as [[A|[A|A]]|[A|[A|A]]]; unfold cause; auto 6.
Qed.

(** ** The pool is lost *)
Lemma sent_reported lg a : forall n, In (AddToBlacklist a) (sent n lg) -> reported lg a.
Proof.
  unfold reported. induction lg as [|[l t] lg IH]; intros n; [intros []|].
  assert (K : In (AddToBlacklist a) (flat_map says t ++ sent n lg) -> exists j, In (EBlacklist j a) (trace ((l, t) :: lg))).
  { intros I. apply in_app_or in I. cbn [map snd concat]. destruct I as [I|I]; [destruct (said _ _ I) as (j & J) | destruct (IH n I) as (j & J)]; exists j; apply in_or_app; auto. }
  destruct l; cbn [sent]; try exact K. intros [I|I]; [discriminate|]. destruct (IH (S n) I) as (j & J). exists j. cbn [map snd concat]. apply in_or_app. auto.
Qed.
Lemma times_label lg now : In now (times lg) -> exists f, In (LPool now f) (map fst lg).
Proof.
  induction lg as [|[l t] lg IH]; [intros []|]. cbn [times map fst]. destruct l as [addr p req|n f| |j w|j]; try (intros I; destruct (IH I) as (f0 & J); exists f0; right; exact J).
  intros [->|I]; [exists f; left; reflexivity|]. destruct (IH I) as (f0 & J). exists f0. right. exact J.
Qed.
Notation back := (fun c : command conn => match c with ReleaseConnection _ _ => true | _ => false end).
Lemma says_back t : length (filter back (flat_map says t)) = length (filter (fun e => match e with ERelease _ _ _ => true | _ => false end) t).
Proof. induction t as [|e t IH]; [reflexivity|]. cbn [flat_map]. rewrite filter_app, app_length, IH. destruct e; reflexivity. Qed.
Lemma sent_back lg : forall n, (length (filter back (sent n lg)) <= length (filter (fun e => match e with ERelease _ _ _ => true | _ => false end) (trace lg)))%nat.
Proof.
  induction lg as [|[l t] lg IH]; intros n; [apply le_n|]. cbn [map snd concat]. rewrite filter_app, app_length, <- says_back.
  destruct l; cbn [sent]; try (rewrite filter_app, app_length; specialize (IH n); lia). cbn [filter]. specialize (IH (S n)). lia.
Qed.
Lemma releases_back lg : releases (history lg) <= given_back (trace lg).
Proof.
  unfold releases, given_back, history. pose proof (sent_back lg 0) as L. assert (Q : forall (ts : list Z) (cs : list (command conn)), (length (filter is_release (combine ts cs)) <= length (filter back cs))%nat).
  { induction ts as [|t ts IH]; intros [|c cs]; cbn [combine filter length]; try lia. specialize (IH cs). unfold is_release at 1. cbn [snd]. destruct c; cbn [length]; lia. }
  specialize (Q (times lg) (sent 0 lg)). lia.
Qed.
Lemma lost_step size d lg s l s' t p : followed tmax checks size d lg s (trace lg) -> s_pool s = Some p -> pstep l s = Some (s', t) -> s_pool s' = None -> pool_cause tmax checks d (lg ++ [(l, t)]).
Proof.
  intros Fo Ep E En. destruct l as [addr pr req|now f| |j w|j]; cbn [PoolSystem.pstep] in E.
  - injection E as <- <-. rewrite send_eq in En. cbn [s_pool] in En. congruence.
  - rewrite Ep in E. destruct (s_queue s) as [|c q] eqn:Eq; [discriminate|]. destruct (fo_pool _ _ _ _ _ _ _ Fo p Ep) as (xs & Q1 & Q2 & Q3 & _). rewrite Eq in Q1. symmetry in Q1.
    assert (Hh : t = [] -> history (lg ++ [(LPool now f, t)]) = history lg ++ [(now, c)]).
    { intros ->. unfold history. rewrite sent_snoc, times_snoc. change (one_sent (0 + ncalls lg) (LPool now f, [])) with (@nil (command conn)). rewrite app_nil_r. exact (combine_next _ now _ _ _ Q1). }
    assert (Et : t = []) by (destruct (handle_command tmax checks now c p) as [[o p']| | |]; injection E as _ <-; reflexivity). specialize (Hh Et). subst t.
    assert (Hr : forall x, run tmax checks (history (lg ++ [(LPool now f, [])])) (pool_new size d) <> Ok x).
    { intros x Q. rewrite Hh, run_app, Q3 in Q. cbn [bind run] in Q. destruct (handle_command tmax checks now c p) as [[o p']| | |]; try discriminate.
      injection E as <-. cbn [s_pool] in En. destruct (PoolSystemInv.after_command_queue s p' q o f) as [_ Ap]. unfold after_command in Ap. rewrite Ap in En. discriminate. }
    set (lg' := lg ++ [(LPool now f, [])]) in *.
    assert (Late : (exists n a, In (n, AddToBlacklist a) (history lg') /\ (tmax < n + d)%Z) -> pool_cause tmax checks d lg').
    { intros (n & a & I & L). right. left. destruct (times_label lg' n (in_combine_l _ _ _ _ I)) as (f0 & J). exists n, f0, a. split; [exact J|]. split; [exact (sent_reported lg' a 0 (in_combine_r _ _ _ _ I)) | exact L]. }
    destruct (run tmax checks (history lg') (pool_new size d)) as [x|e| |] eqn:Er; [elim (Hr x eq_refl) | | |].
    + exfalso. destruct checks; [destruct (panics_checked tmax true size d (history lg') eq_refl) as (_ & N & _) | destruct (PoolWrap.panics_unchecked tmax size d (history lg')) as (_ & N & _)]; exact (N e Er).
    + destruct checks eqn:Ec.
      * destruct (panics_checked tmax true size d (history lg') eq_refl) as (P & _). destruct (proj1 P Er) as [Q|Q]; [exact (Late Q)|]. right. right. split; [reflexivity|]. pose proof (releases_back lg'). change (2 ^ 64) with (u64_max + 1). lia.
      * destruct (PoolWrap.panics_unchecked tmax size d (history lg')) as (P & _). exact (Late (proj1 P Er)).
    + exfalso. destruct checks; [destruct (panics_checked tmax true size d (history lg') eq_refl) as (_ & _ & N) | destruct (PoolWrap.panics_unchecked tmax size d (history lg')) as (_ & _ & N)]; exact (N Er).
  - left. rewrite map_app. apply in_or_app. right. left. reflexivity.
  - destruct (nth_error (s_calls s) j) as [pc|]; [|discriminate]. destruct (poll_says _ _ _ _ _ _ E) as (x & op & -> & _). cbn [moved s_pool] in En. congruence.
  - destruct (nth_error (s_calls s) j) as [pc|]; [|discriminate]. destruct (c_state pc); try discriminate; injection E as <- <-; unfold put_state in En; cbn [s_pool] in En; congruence.
Qed.
Lemma pool_cause_more d lg x : pool_cause tmax checks d lg -> pool_cause tmax checks d (lg ++ x).
Proof.
  intros [A|[(now & f & a & A & B & C)|[A B]]].
  - left. rewrite map_app. apply in_or_app. auto.
  - right. left. exists now, f, a. split; [rewrite map_app; apply in_or_app; auto|]. split; [exact (reported_incl _ _ _ (incl_appl _ (incl_refl lg)) B) | exact C].
  - right. right. split; [exact A|]. unfold given_back in *. rewrite map_app, concat_app, filter_app, app_length. lia.
Qed.
Lemma trace_snoc (lg : plg) l t : trace (lg ++ [(l, t)]) = trace lg ++ t.
Proof. rewrite map_app, concat_app. cbn [map snd concat]. rewrite app_nil_r. reflexivity. Qed.
Lemma lost_run size d ls : forall lg s, followed tmax checks size d lg s (trace lg) -> (s_pool s = None -> pool_cause tmax checks d lg) ->
  s_pool (fst (prun ls s)) = None -> pool_cause tmax checks d (lg ++ plog ls s).
Proof.
  induction ls as [|l ls IH]; intros lg s Fo Lo; cbn [PoolSystem.prun PoolSystemSpec.plog fst]; [rewrite app_nil_r; exact Lo|].
  destruct (pstep l s) as [[s1 t]|] eqn:E; [|exact (IH lg s Fo Lo)].
  pose proof (followed_step tmax checks size d lg s (trace lg) l s1 t Fo E) as Fo1. rewrite <- trace_snoc with (l := l) in Fo1.
  specialize (IH (lg ++ [(l, t)]) s1 Fo1). rewrite <- app_assoc in IH. destruct (prun ls s1) as [s2 t2]. apply IH. intros En.
  destruct (s_pool s) as [p|] eqn:Ep; [exact (lost_step size d lg s l s1 t p Fo Ep E En) | apply pool_cause_more, Lo; reflexivity].
Qed.
Theorem pool_lost ls size d s tr : prun ls (psys_new size d) = (s, tr) -> s_pool s = None -> pool_cause tmax checks d (plog ls (psys_new size d)).
Proof.
  intros E En. apply (lost_run size d ls [] (psys_new size d)); [apply followed_new | discriminate |]. rewrite E. exact En.
Qed.

(** ** All goes well *)
Lemma plog_app l1 : forall l2 s, plog (l1 ++ l2) s = plog l1 s ++ plog l2 (fst (prun l1 s)).
Proof.
  induction l1 as [|l l1 IH]; intros l2 s; [reflexivity|]. cbn [app PoolSystemSpec.plog PoolSystem.prun]. destruct (pstep l s) as [[s1 t]|]; [|apply IH].
  rewrite IH. destruct (prun l1 s1) as [s2 t2]. reflexivity.
Qed.
Lemma well_unreported ls size d : Forall goes_well (plog ls (psys_new size d)) -> forall a, ~ reported (plog ls (psys_new size d)) a.
Proof.
  intros Fw a (j & I). rewrite <- prun_log in I. apply reported_iff in I. destruct I as (l1 & w & l2 & -> & (_ & e & Es)).
  pose proof (invC_run l1 _ _ (invC_new size d)) as K. cbn [app] in K. unfold state_of in Es. destruct (nth_error (s_calls (fst (prun l1 (psys_new size d)))) j) as [pc|] eqn:En; [|discriminate].
  injection Es as Es. pose proof (k_why _ _ K j pc En) as Y. rewrite Es in Y. destruct Y as (now & f0 & A & B). rewrite plog_app in Fw. apply Forall_app in Fw. destruct Fw as [Fw _].
  rewrite Forall_forall in Fw. destruct (Fw _ A) as [x Q]. cbn [settle] in B. congruence.
Qed.
Lemma well_undisturbed lg i e : Forall goes_well lg -> ~ disturbed lg i e.
Proof.
  rewrite Forall_forall. intros Fw (w & D). assert (K : forall a, did lg i w a -> done_well w (EAct i a)).
  { intros a (t & A & B). pose proof (Fw _ A) as Q. unfold goes_well in Q. cbn [fst snd] in Q. rewrite Forall_forall in Q. exact (Q _ B). }
  destruct D as [(r & b & c & A & B)|[(c & A & B)|(x & A & B)]]; destruct (K _ A) as [y Q]; congruence.
Qed.
Theorem well_alive ls size d s tr : prun ls (psys_new size d) = (s, tr) -> Forall goes_well (plog ls (psys_new size d)) -> (checks = false \/ given_back tr < 2 ^ 64) -> s_pool s <> None.
Proof.
  intros E Fw Sm En. destruct (pool_lost ls size d s tr E En) as [A|[(now & f & a & A & B & C)|[A B]]].
  - apply in_map_iff in A. destruct A as ([l t] & El & A). cbn [fst] in El. subst l. rewrite Forall_forall in Fw. exact (Fw _ A).
  - exact (well_unreported ls size d Fw a B).
  - destruct Sm as [Sm|Sm]; [congruence|]. rewrite <- prun_log, E in B. cbn [snd] in B. lia.
Qed.
Theorem well_broken ls size d s tr i pc k : prun ls (psys_new size d) = (s, tr) -> Forall goes_well (plog ls (psys_new size d)) -> (checks = false \/ given_back tr < 2 ^ 64) ->
  nth_error (s_calls s) i = Some pc -> c_state pc = Broken k ->
  encoding pc = Err k \/ exists x b, received (pr_method (c_proc pc)) (plog ls (psys_new size d)) i x b /\ decoding_of pc x = Err k.
Proof.
  intros E Fw Sm En Es. pose proof (explained_all ls size d s tr i pc E En) as Q. unfold explained in Q. rewrite Es in Q. destruct Q as [A|[(e & A & _)|[A|[(e & _ & A & _)|[[A _]|[A _]]]]]].
  - left. exact A.
  - elim (well_undisturbed _ _ _ Fw A).
  - right. exact A.
  - elim (well_unreported ls size d Fw (c_addr pc)). exists i. exact A.
  - elim (well_unreported ls size d Fw _ A).
  - elim (well_alive ls size d s tr E Fw Sm A).
Qed.
End Causes.
