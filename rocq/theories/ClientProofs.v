(** * Proofs about calls. *)
From Verif Require Import Base Serde Procedure Router SerRequest DeHeader DeResponse DepUrl Error Client ClientSpec RequestSpec RequestProofs HeaderProofs ResponseTrip.
Open Scope N_scope.

Lemma kind_by_origin s : error_of s = Invalid <-> malformed (origin s).
Proof.
  unfold malformed. induction s; cbn [error_of origin]; try (split; [discriminate || (intros _; cbn; tauto) | intros Q; reflexivity || (cbn in Q; intuition congruence)]).
  - destruct k; split; intros Q; try reflexivity; try discriminate; [cbn; tauto | cbn in Q; intuition congruence].
  - exact IHs.
  - destruct i; exact IHs.
  - destruct k; split; intros Q; try reflexivity; try discriminate; [cbn; tauto | cbn in Q; intuition congruence].
Qed.

Lemma same_origin s t : origin s = origin t -> error_of s = error_of t.
Proof.
  intros E. pose proof (kind_by_origin s) as A. pose proof (kind_by_origin t) as B. rewrite E in A.
  destruct (error_of s), (error_of t); try reflexivity; exfalso; assert (X : Other = Invalid) by tauto; discriminate.
Qed.
Lemma other_by_origin s : In (origin s) [FromIo; FromIoWith; FromMiasht; FromRecv; FromNone; FromSerdeconv Other] -> error_of s = Other.
Proof.
  intros Q. destruct (error_of s) eqn:E; [|reflexivity]. apply kind_by_origin in E. unfold malformed in E.
  cbn [In] in Q. repeat (destruct Q as [Q|Q]; [rewrite <- Q in E; cbn [In] in E; intuition congruence|]). contradiction.
Qed.

Section Proofs.
Context `{floatlib} `{urlenv} {Conn : Type}.
Variables (w : wire Conn) (p : proc).

(** What is left to do in each phase. *)
Definition rest_D (f : fut (response Conn * bytes)) := after (settle f) (fun '(r, b) => decoding p r b).
Definition rest_C (f : fut (response Conn)) := after (settle f) (fun r =>
  match pr_method p with MHead => decoding p r [] | _ => doing (ReadBody r) (rest_D (w_body w r)) end).
Definition rest_B (f : fut Conn) := after (settle f) (fun c => doing (ReadHead c) (rest_C (w_head w c))).
Definition rest_A (v : value) (body : bytes) (f : fut Conn) := after (settle f) (fun c =>
  match encode_request (pr_entry p) v (N.of_nat (length body)) with
  | Err k => ([], Fails k)
  | Panic | Diverge => ([], Panics)
  | Ok r => doing (Write r body c) (rest_B (w_write w r body c))
  end).
Definition rest (k : call Conn) : list (act Conn) * result :=
  match k_phase k with
  | PhA f => match k_request k with Some (v, b) => rest_A v b f | None => ([], Panics) end
  | PhB f => rest_B f
  | PhC f => rest_C f
  | PhD f => rest_D f
  end.
(** A call in phase A still has its request. *)
Definition call_ok (k : call Conn) : Prop := match k_phase k with PhA _ => k_request k <> None | _ => True end.
Definition rank (k : call Conn) : nat := match k_phase k with PhA _ => 4 | PhB _ => 3 | PhC _ => 2 | PhD _ => 1 end.

Lemma head_iff : is_head p = match pr_method p with MHead => true | _ => false end.
Proof. unfold is_head. destruct (pr_method p); reflexivity. Qed.

(** One poll performs a first part of what is left, exactly. *)
Definition faithful (x : list (act Conn) * result) (r : list (act Conn) * res (outcome Conn)) : Prop :=
  match r with
  | (t, Ok (Pending k)) => call_ok k /\ fst x = t ++ fst (rest k) /\ snd x = snd (rest k)
  | (t, o) => fst x = t /\ snd x = reads_as o
  end.
Lemma faithful_doing a x t o : faithful x (t, o) -> faithful (doing a x) (a :: t, o).
Proof.
  unfold doing. destruct o as [[k|]| | |]; cbn [faithful fst snd]; intros Q.
  - destruct Q as (A & B & C). rewrite B. auto.
  - destruct Q as (A & B). rewrite A. auto.
  - destruct Q as (A & B). rewrite A. auto.
  - destruct Q as (A & B). rewrite A. auto.
  - destruct Q as (A & B). rewrite A. auto.
Qed.

Lemma poll_faithful : forall fuel k, call_ok k -> (rank k < fuel)%nat -> faithful (rest k) (poll w p fuel k).
Proof.
  induction fuel as [|fuel IH]; intros k Ok1 L; [lia|]. cbn [poll]. destruct k as [rq ph]. unfold rank in L. cbn [k_phase k_request] in *.
  destruct ph as [f|f|f|f]; cbn [phase_poll]; unfold rest; cbn [k_phase k_request].
  - unfold call_ok in Ok1. cbn [k_phase k_request] in Ok1. destruct rq as [[v b]|]; [|congruence]. unfold rest_A.
    destruct f as [c|e|f|]; cbn [fpoll settle after].
    + unfold on_connected. destruct (encode_request (pr_entry p) v (N.of_nat (length b))) as [r|e| |]; cbn [bind]; try (split; reflexivity).
      pose proof (IH (mkCall None (PhB (w_write w r b c))) I ltac:(cbn; lia)) as Q. destruct (poll w p fuel _) as [t o]. apply faithful_doing. exact Q.
    + split; reflexivity.
    + split; [discriminate|]. unfold rest. cbn [k_phase k_request]. split; reflexivity.
    + split; [discriminate|]. unfold rest. cbn [k_phase k_request]. split; reflexivity.
  - unfold rest_B. destruct f as [c|e|f|]; cbn [fpoll settle after]; try (split; reflexivity); try (split; [exact I | split; reflexivity]).
    pose proof (IH (mkCall rq (PhC (w_head w c))) I ltac:(cbn; lia)) as Q. destruct (poll w p fuel _) as [t o]. apply faithful_doing. exact Q.
  - unfold rest_C. destruct f as [r|e|f|]; cbn [fpoll settle after]; try (split; reflexivity); try (split; [exact I | split; reflexivity]).
    rewrite head_iff. pose proof (IH (mkCall rq (PhD (Ready (r, [])))) I ltac:(cbn; lia)) as Q1. pose proof (IH (mkCall rq (PhD (w_body w r))) I ltac:(cbn; lia)) as Q2.
    destruct (pr_method p); try (destruct (poll w p fuel (mkCall rq (PhD (w_body w r)))) as [t o]; apply faithful_doing; exact Q2). exact Q1.
  - unfold rest_D. destruct f as [[r b]|e|f|]; cbn [fpoll settle after]; try (split; reflexivity); try (split; [exact I | split; reflexivity]).
    unfold decoding, on_received. destruct (de_response (r_code r) (r_headers r) (pr_resp p)) as [v|e| |]; cbn [bind]; split; reflexivity.
Qed.
Lemma poll_call_faithful k : call_ok k -> faithful (rest k) (poll_call w p k).
Proof. intros O. apply poll_faithful; [exact O|]. unfold rank. destruct (k_phase k); lia. Qed.

Lemma drive_faithful : forall n k, call_ok k -> faithful (rest k) (drive w p n k).
Proof.
  induction n as [|n IH]; intros k O; cbn [drive]; [split; [exact O | split; reflexivity]|].
  pose proof (poll_call_faithful k O) as Q. destruct (poll_call w p k) as [t [[k'|v b c]|e| |]]; try exact Q.
  destruct Q as (O' & A & B). specialize (IH k' O'). destruct (drive w p n k') as [t' o]. destruct o as [[k2|v b c]|e| |]; cbn [faithful] in *.
  - destruct IH as (C & D & E). split; [exact C|]. rewrite A, D, app_assoc. split; [reflexivity | congruence].
  - destruct IH as (D & E). rewrite A, D. split; [reflexivity | congruence].
  - destruct IH as (D & E). rewrite A, D. split; [reflexivity | congruence].
  - destruct IH as (D & E). rewrite A, D. split; [reflexivity | congruence].
  - destruct IH as (D & E). rewrite A, D. split; [reflexivity | congruence].
Qed.

Lemma rest_new v b connect : rest (call_new (v, b) connect) = sequential w p v b connect.
Proof. reflexivity. Qed.

(** ** Enough polls finish the call *)
Fixpoint delay {A} (f : fut A) : nat := match f with Later f => S (delay f) | _ => 0 end.
Definition dB c := delay (w_head w c).
Definition delay_D (f : fut (response Conn * bytes)) := delay f.
Definition delay_C (f : fut (response Conn)) := (delay f + match settle f with Comes r => match pr_method p with MHead => 0 | _ => delay (w_body w r) end | _ => 0 end)%nat.
Definition delay_B (f : fut Conn) := (delay f + match settle f with Comes c => delay_C (w_head w c) | _ => 0 end)%nat.
Definition delay_A (v : value) (b : bytes) (f : fut Conn) := (delay f +
  match settle f with Comes c => match encode_request (pr_entry p) v (N.of_nat (length b)) with Ok r => delay_B (w_write w r b c) | _ => 0 end | _ => 0 end)%nat.
Definition delays (k : call Conn) : nat :=
  match k_phase k with
  | PhA f => match k_request k with Some (v, b) => delay_A v b f | None => 0 end
  | PhB f => delay_B f
  | PhC f => delay_C f
  | PhD f => delay_D f
  end.
Definition over (o : res (outcome Conn)) : Prop := match o with Ok (Pending _) => False | _ => True end.

Lemma settle_poll {A} (f : fut A) : settle f <> Hangs -> match fpoll f with AReady x => f = Ready x | AFailed e => f = Failed e | ANotReady f' => f = Later f' end.
Proof. destruct f; cbn; congruence. Qed.

(** A pending poll uses up a delay. *)
Lemma poll_delay : forall fuel k, call_ok k -> (rank k < fuel)%nat -> snd (rest k) <> Waits ->
  match snd (poll w p fuel k) with Ok (Pending k') => (delays k' < delays k)%nat | _ => True end.
Proof.
  induction fuel as [|fuel IH]; intros k Ok1 L S; [lia|]. cbn [poll]. destruct k as [rq ph]. unfold rank in L. cbn [k_phase k_request] in *.
  destruct ph as [f|f|f|f]; cbn [phase_poll]; unfold rest in S; cbn [k_phase k_request] in S; unfold delays at 2; cbn [k_phase k_request].
  - unfold call_ok in Ok1. cbn [k_phase k_request] in Ok1. destruct rq as [[v b]|]; [|congruence]. unfold rest_A in S. unfold delay_A.
    destruct f as [c|e|f|]; cbn [fpoll settle after delay] in *; try exact I; try (elim S; reflexivity).
    + unfold on_connected. destruct (encode_request (pr_entry p) v (N.of_nat (length b))) as [r|e| |] eqn:E; cbn [bind]; try exact I.
      pose proof (IH (mkCall None (PhB (w_write w r b c))) I ltac:(cbn; lia)) as Q. destruct (poll w p fuel _) as [t o]. cbn [snd] in *. apply Q. exact S.
    + cbn. unfold delays, delay_A. cbn [k_phase k_request]. lia.
  - unfold rest_B in S. unfold delay_B. destruct f as [c|e|f|]; cbn [fpoll settle after delay] in *; try exact I; try (elim S; reflexivity).
    + pose proof (IH (mkCall rq (PhC (w_head w c))) I ltac:(cbn; lia)) as Q. destruct (poll w p fuel _) as [t o]. cbn [snd] in *. apply Q. exact S.
    + cbn. unfold delays, delay_B. cbn [k_phase]. lia.
  - unfold rest_C in S. unfold delay_C. destruct f as [r|e|f|]; cbn [fpoll settle after delay] in *; try exact I; try (elim S; reflexivity).
    + rewrite head_iff. pose proof (IH (mkCall rq (PhD (Ready (r, [])))) I ltac:(cbn; lia)) as Q1. pose proof (IH (mkCall rq (PhD (w_body w r))) I ltac:(cbn; lia)) as Q2.
      destruct (pr_method p); try (destruct (poll w p fuel (mkCall rq (PhD (w_body w r)))) as [t o]; cbn [snd] in *; apply Q2; exact S).
      apply Q1. exact S.
    + cbn. unfold delays, delay_C. cbn [k_phase]. lia.
  - unfold rest_D in S. unfold delay_D. destruct f as [[r b]|e|f|]; cbn [fpoll settle after delay] in *; try exact I; try (elim S; reflexivity).
    + cbn [snd]. destruct (on_received p r); exact I.
    + cbn. unfold delays, delay_D. cbn [k_phase]. lia.
Qed.
Lemma drive_over : forall n k, call_ok k -> snd (rest k) <> Waits -> (delays k < n)%nat -> over (snd (drive w p n k)).
Proof.
  induction n as [|n IH]; intros k O S L; [lia|]. cbn [drive]. pose proof (poll_call_faithful k O) as F.
  pose proof (poll_delay 5 k O ltac:(unfold rank; destruct (k_phase k); lia) S) as D. fold (poll_call w p k) in D.
  destruct (poll_call w p k) as [t [[k'|v b c]|e| |]]; try exact I. cbn [snd] in D. destruct F as (O' & _ & E).
  specialize (IH k' O' ltac:(congruence) ltac:(lia)). destruct (drive w p n k'). exact IH.
Qed.

(** ** What the sequential program can do *)
Lemma seq_trace v b connect : let t := fst (sequential w p v b connect) in
  t = [] \/
  exists c r, settle connect = Comes c /\ encode_request (pr_entry p) v (N.of_nat (length b)) = Ok r /\
    (t = [Write r b c] \/
     exists c1, settle (w_write w r b c) = Comes c1 /\
       (t = [Write r b c; ReadHead c1] \/
        exists h, settle (w_head w c1) = Comes h /\ pr_method p <> MHead /\ t = [Write r b c; ReadHead c1; ReadBody h])).
Proof.
  cbv zeta. unfold sequential. destruct (settle connect) as [c|e|]; cbn [after fst]; auto.
  destruct (encode_request (pr_entry p) v (N.of_nat (length b))) as [r|e| |]; cbn [fst]; auto. right. exists c, r. split; [reflexivity|]. split; [reflexivity|].
  destruct (settle (w_write w r b c)) as [c1|e|] eqn:E1; cbn [after doing fst]; auto. right. exists c1. split; [reflexivity|].
  destruct (settle (w_head w c1)) as [h|e|] eqn:E2; cbn [after doing fst]; auto.
  assert (D : forall (r0 : response Conn) b0, fst (decoding p r0 b0) = []) by (intros r0 b0; unfold decoding; destruct (de_response _ _ _); reflexivity).
  destruct (pr_method p) eqn:M; try (right; exists h; split; [reflexivity|]; split; [discriminate|];
    cbn [fst doing]; destruct (settle (w_body w h)) as [[r2 b2]|e|]; cbn [after fst]; rewrite ?D; reflexivity).
  left. rewrite D. reflexivity.
Qed.

(** A call that fails or yields has a reason, in the order of the steps. *)
Lemma seq_panics v b connect :
  (forall c h, settle (w_head w c) = Comes h -> names_ok (r_headers h) = true) ->
  (forall c h h' x, settle (w_head w c) = Comes h -> settle (w_body w h) = Comes (h', x) -> names_ok (r_headers h') = true) ->
  (snd (sequential w p v b connect) = Panics <->
   (exists c, settle connect = Comes c) /\ encode_request (pr_entry p) v (N.of_nat (length b)) = Panic).
Proof.
  intros Nh Nb.
  assert (D : forall (h : response Conn) x, names_ok (r_headers h) = true -> snd (decoding p h x) <> Panics).
  { intros h x N. unfold decoding. pose proof (de_response_safe (r_code h) (r_headers h) N (pr_resp p)) as S. destruct (de_response _ _ _); cbn in *; try discriminate; contradiction. }
  unfold sequential. split.
  - destruct (settle connect) as [c|e|]; cbn [after snd]; try discriminate. intros Q. split; [eauto|]. revert Q.
    destruct (encode_total (pr_entry p) v (N.of_nat (length b))) as [[r E]|[E|E]]; rewrite E; [|discriminate|auto]. intros Q. exfalso. revert Q.
    unfold doing. cbn [snd]. destruct (settle (w_write w r b c)) as [c1|e|]; cbn [after snd]; try discriminate.
    destruct (settle (w_head w c1)) as [h|e|] eqn:E2; cbn [after snd]; try discriminate.
    destruct (pr_method p); cbn [snd]; try (destruct (settle (w_body w h)) as [[h' x]|e|] eqn:E3; cbn [after snd]; try discriminate; apply D; exact (Nb _ _ _ _ E2 E3)).
    apply D. exact (Nh _ _ E2).
  - intros [[c C] E]. rewrite C. cbn [after]. rewrite E. reflexivity.
Qed.

(** What a successful call went through. *)
Lemma seq_yields v b connect x y c0 : snd (sequential w p v b connect) = Yields x y c0 ->
  exists c r c1 h h', settle connect = Comes c /\ encode_request (pr_entry p) v (N.of_nat (length b)) = Ok r /\
    settle (w_write w r b c) = Comes c1 /\ settle (w_head w c1) = Comes h /\
    (if is_head p then h' = h /\ y = [] else settle (w_body w h) = Comes (h', y)) /\
    de_response (r_code h') (r_headers h') (pr_resp p) = Ok x /\ c0 = r_conn h' /\
    fst (sequential w p v b connect) = [Write r b c; ReadHead c1] ++ (if is_head p then [] else [ReadBody h]).
Proof.
  unfold sequential. rewrite head_iff. destruct (settle connect) as [c|e|]; cbn [after snd fst]; try discriminate.
  destruct (encode_request (pr_entry p) v (N.of_nat (length b))) as [r|e| |]; cbn [snd fst]; try discriminate.
  unfold doing. cbn [snd fst]. destruct (settle (w_write w r b c)) as [c1|e|] eqn:E1; cbn [after snd fst]; try discriminate.
  destruct (settle (w_head w c1)) as [h|e|] eqn:E2; cbn [after snd fst]; try discriminate.
  assert (D : forall (h : response Conn) x0 y, snd (decoding p h x0) = Yields x y c0 ->
    x0 = y /\ de_response (r_code h) (r_headers h) (pr_resp p) = Ok x /\ c0 = r_conn h /\ fst (decoding p h x0) = []).
  { intros h0 x0 y0. unfold decoding. destruct (de_response _ _ _) as [x1|e| |]; cbn [snd fst]; try discriminate. intros [= <- <- <-]. auto. }
  destruct (pr_method p); cbn [snd fst];
    try (destruct (settle (w_body w h)) as [[h' x0]|e|] eqn:E3; cbn [after snd fst]; try discriminate; intros Q; apply D in Q; destruct Q as (-> & R & -> & T);
         exists c, r, c1, h, h'; rewrite T; split; [reflexivity|]; split; [reflexivity|]; split; [exact E1|]; split; [exact E2|]; split; [exact E3|]; auto).
  intros Q. apply D in Q. destruct Q as (<- & R & -> & T). exists c, r, c1, h, h. rewrite T. repeat (split; [auto; fail|]). repeat split; auto.
Qed.

Theorem call_steps v b connect n :
  let '(t, o) := drive w p n (call_new (v, b) connect) in
  match o with
  | Ok (Pending _) => exists t', fst (sequential w p v b connect) = t ++ t'
  | _ => t = fst (sequential w p v b connect) /\ reads_as o = snd (sequential w p v b connect)
  end.
Proof.
  pose proof (drive_faithful n (call_new (v, b) connect) ltac:(discriminate)) as Q. rewrite rest_new in Q. destruct (drive w p n _) as [t o].
  destruct o as [[k|x y c]|e| |]; cbn [faithful] in Q.
  - destruct Q as (_ & A & _). eauto.
  - destruct Q; split; congruence.
  - destruct Q; split; congruence.
  - destruct Q; split; congruence.
  - destruct Q; split; congruence.
Qed.
Theorem call_finishes v b connect : snd (sequential w p v b connect) <> Waits ->
  exists n0, forall n, (n0 <= n)%nat -> over (snd (drive w p n (call_new (v, b) connect))).
Proof.
  intros S. exists (Datatypes.S (delays (call_new (v, b) connect))). intros n L. apply drive_over; [discriminate | exact S | lia].
Qed.
Theorem call_waits v b connect n : snd (sequential w p v b connect) = Waits -> ~ over (snd (drive w p n (call_new (v, b) connect))).
Proof.
  intros S. pose proof (call_steps v b connect n) as Q. destruct (drive w p n _) as [t o]. cbn [snd]. destruct o as [[k|x y c]|e| |]; cbn [over]; auto;
    destruct Q as [_ Q]; rewrite S in Q; discriminate.
Qed.

(** ** The loop of [poll] ends *)
Definition well_headed (k : call Conn) : Prop :=
  match k_phase k with
  | PhC f => forall h, settle f = Comes h -> names_ok (r_headers h) = true /\ forall h' x, settle (w_body w h) = Comes (h', x) -> names_ok (r_headers h') = true
  | PhD f => forall h x, settle f = Comes (h, x) -> names_ok (r_headers h) = true
  | _ => True
  end.
Section Ends.
Hypotheses (Nh : forall c h, settle (w_head w c) = Comes h -> names_ok (r_headers h) = true)
  (Nb : forall c h h' x, settle (w_head w c) = Comes h -> settle (w_body w h) = Comes (h', x) -> names_ok (r_headers h') = true).
Lemma poll_ends : forall fuel k, well_headed k -> (rank k < fuel)%nat ->
  match snd (poll w p fuel k) with Diverge => False | Ok (Pending k') => well_headed k' | _ => True end.
Proof.
  induction fuel as [|fuel IH]; intros k Wh L; [lia|]. cbn [poll]. destruct k as [rq ph]. unfold rank in L. unfold well_headed in Wh. cbn [k_phase k_request] in *.
  destruct ph as [f|f|f|f]; cbn [phase_poll].
  - destruct f as [c|e|f|]; cbn [fpoll snd]; try exact I. unfold on_connected. destruct rq as [[v b]|]; [|exact I].
    destruct (encode_total (pr_entry p) v (N.of_nat (length b))) as [[r E]|[E|E]]; rewrite E; cbn [bind snd]; try exact I.
    pose proof (IH (mkCall None (PhB (w_write w r b c))) I ltac:(cbn; lia)) as Q. destruct (poll w p fuel _) as [t o]. exact Q.
  - destruct f as [c|e|f|]; cbn [fpoll snd]; try exact I.
    pose proof (IH (mkCall rq (PhC (w_head w c))) (fun h E => conj (Nh c h E) (fun h' x => Nb c h h' x E)) ltac:(cbn; lia)) as Q. destruct (poll w p fuel _) as [t o]. exact Q.
  - destruct f as [r|e|f|]; cbn [fpoll snd]; try exact I; [|exact Wh | exact Wh].
    pose proof (IH (mkCall rq (PhD (w_body w r))) (proj2 (Wh r eq_refl)) ltac:(cbn; lia)) as Q.
    pose proof (IH (mkCall rq (PhD (Ready (r, [])))) (fun h x (E : settle (Ready (r, [])) = Comes (h, x)) => proj1 (Wh h ltac:(cbn in E |- *; congruence))) ltac:(cbn; lia)) as Q1.
    destruct (is_head p); [exact Q1|]. destruct (poll w p fuel _) as [t o]. exact Q.
  - destruct f as [[r b]|e|f|]; cbn [fpoll snd]; try exact I; try exact Wh. unfold on_received.
    pose proof (de_response_safe (r_code r) (r_headers r) (Wh r b eq_refl) (pr_resp p)) as S. destruct (de_response _ _ _); cbn in *; auto.
Qed.
Lemma drive_ends : forall n k, well_headed k -> snd (drive w p n k) <> Diverge.
Proof.
  induction n as [|n IH]; intros k Wh; cbn [drive]; [discriminate|].
  pose proof (poll_ends 5 k Wh ltac:(unfold rank; destruct (k_phase k); lia)) as Q. fold (poll_call w p k) in Q.
  destruct (poll_call w p k) as [t [[k'|v b c]|e| |]]; cbn [snd] in *; try discriminate; [|contradiction].
  specialize (IH k' Q). destruct (drive w p n k'). exact IH.
Qed.
Theorem call_panics v b connect n : let o := snd (drive w p n (call_new (v, b) connect)) in
  o <> Diverge /\ (o = Panic -> encode_request (pr_entry p) v (N.of_nat (length b)) = Panic).
Proof.
  cbv zeta. split; [apply drive_ends; exact I|]. intros E. pose proof (call_steps v b connect n) as Q. destruct (drive w p n _) as [t o]. cbn [snd] in E. subst o.
  destruct Q as [_ Q]. cbn [reads_as] in Q. exact (proj2 (proj1 (seq_panics v b connect Nh Nb) (eq_sym Q))).
Qed.
Theorem call_panics_then v b connect n c : settle connect = Comes c -> encode_request (pr_entry p) v (N.of_nat (length b)) = Panic ->
  over (snd (drive w p n (call_new (v, b) connect))) -> snd (drive w p n (call_new (v, b) connect)) = Panic.
Proof.
  intros Ec Ee. pose proof (call_steps v b connect n) as Q. pose proof (drive_ends n (call_new (v, b) connect) I) as Nd.
  pose proof (proj2 (seq_panics v b connect Nh Nb) (conj (ex_intro _ c Ec) Ee)) as Sq. destruct (drive w p n _) as [t o]. cbn [snd] in *. rewrite Sq in Q.
  destruct o as [[k|x y c0]|e| |]; cbn [over reads_as] in *; try (destruct Q; discriminate); [intros [] | reflexivity | congruence].
Qed.
End Ends.
End Proofs.
