(** * Proofs about a client and a server joined by bounded pipes (C75). *)
From Verif Require Import Base Utf8 Decimal DepUrl Serde Procedure SerHeader SerRequest SerResponse DeHeader DeRequest DeResponse Status Router RouterSpec DepHttp
  Error Client ClientSpec Server ServerSpec ServerProofs TypeProofs EndToEndSpec SessionSpec HttpBytes HttpBytesSpec HttpBytesProofs HttpBytesSession Duplex DuplexSpec.
Local Open Scope nat_scope.

(** ** Lists *)
Lemma skipn_nil_iff {A} (l : list A) n : skipn n l = [] <-> length l <= n.
Proof. split; [intros E; apply (f_equal (@length A)) in E; rewrite skipn_length in E; cbn in E; lia | apply skipn_all2]. Qed.
Lemma firstn_plus {A} : forall (l : list A) a j, firstn (a + j) l = firstn a l ++ firstn j (skipn a l).
Proof. induction l as [|x l IH]; intros [|a] j; cbn [plus firstn skipn app]; [reflexivity | rewrite firstn_nil; reflexivity | reflexivity | rewrite IH; reflexivity]. Qed.
Lemma firstn_min {A} (l : list A) n : firstn (Nat.min n (length l)) l = firstn n l.
Proof. rewrite <- firstn_firstn, firstn_all. reflexivity. Qed.
Lemma moved {A} (l : list A) a j : firstn a l ++ firstn j (skipn a l) = firstn (Nat.min (a + j) (length l)) l.
Proof. rewrite firstn_min, firstn_plus. reflexivity. Qed.
Lemma skipn_plus {A} : forall (l : list A) p j, skipn j (skipn p l) = skipn (p + j) l.
Proof. induction l as [|x l IH]; intros [|p] j; cbn [plus skipn]; [reflexivity | apply skipn_nil | reflexivity | apply IH]. Qed.
(** What lies between two places of a list. *)
Definition between {A} (l : list A) (p a : nat) : list A := skipn p (firstn a l).
Lemma between_length {A} (l : list A) p a : a <= length l -> length (between l p a) = a - p.
Proof. intros L. unfold between. rewrite skipn_length, firstn_length. lia. Qed.
Lemma between_same {A} (l : list A) a : between l a a = [].
Proof. unfold between. apply skipn_all2. rewrite firstn_length. lia. Qed.
Lemma between_more {A} (l : list A) p a j : p <= a <= length l -> between l p a ++ firstn j (skipn a l) = between l p (Nat.min (a + j) (length l)).
Proof.
  intros L. unfold between. rewrite <- (moved l a j). rewrite skipn_app, firstn_length. replace (p - Nat.min a (length l)) with 0 by lia. reflexivity.
Qed.
Lemma between_taken {A} (l : list A) p a j : p <= a <= length l -> firstn p l ++ firstn j (between l p a) = firstn (Nat.min (p + j) a) l.
Proof.
  intros L. unfold between. assert (E : firstn p l = firstn p (firstn a l)) by (rewrite firstn_firstn; f_equal; lia). rewrite E.
  rewrite (moved (firstn a l) p j). rewrite firstn_length, firstn_firstn. f_equal. lia.
Qed.
Lemma between_left {A} (l : list A) p a j : p <= a <= length l -> skipn j (between l p a) = between l (Nat.min (p + j) a) a.
Proof.
  intros L. unfold between. rewrite skipn_plus. destruct (Nat.le_gt_cases (p + j) a) as [Q|Q]; [f_equal; lia|].
  rewrite !skipn_all2; [reflexivity | rewrite firstn_length; lia..].
Qed.

Section Proofs.
Context `{F : floatlib} `{U : urlenv} {R : Type}.
Variable explain : request bconn -> ekind -> ustr * option ustr * option (list ustr).
Variable reason : status -> ustr.
Variables (trims : bool) (uri_byte : N -> bool) (cl sl : limits) (ps : list (hproc bconn R)).
Variables (cap_up cap_down : nat).
Notation exchanged := (exchanged explain reason trims uri_byte cl sl ps).
Notation handles := (handles explain reason trims uri_byte sl ps).
Notation client_head := (client_head trims cl).
Notation server_head := (server_head explain reason trims uri_byte sl ps).
Notation client_turn := (client_turn trims cl cap_up).
Notation server_turn := (server_turn explain reason trims uri_byte sl ps cap_down).
Notation dstep := (dstep explain reason trims uri_byte cl sl ps cap_up cap_down).
Notation drun := (drun explain reason trims uri_byte cl sl ps cap_up cap_down).
Notation parse_q := (run (qstep trims uri_byte (most_headers sl)) QStart).
Notation parse_p := (run (pstep trims (most_headers cl)) (PVersion (u "HTTP/1.1 "))).

(** ** A call and its answer, as bytes *)
Record trip := mkTrip { t_errand : errand; t_answer : SessionSpec.answer; t_qh : bytes; t_qb : bytes; t_q : method * ustr * list rheader; t_ph : bytes; t_pb : bytes; t_p : N * list rheader }.
Definition qs (T : trip) := t_qh T ++ t_qb T.
Definition pb (T : trip) := t_ph T ++ t_pb T.
Record good (T : trip) : Prop := {
  g_begins : forall es held, begins (t_errand T :: es) held = CWrites (qs T) held;
  g_qparse : parse_q (t_qh T) = PDone (t_q T) [];
  g_qfits : length (t_qh T) <= most_bytes sl;
  g_qlength : body_length (snd (t_q T)) = Some (length (t_qb T));
  g_handles : handles (fst (fst (t_q T))) (snd (fst (t_q T))) (snd (t_q T)) (Some (length (t_qb T))) (t_qb T) = SThinks (pb T) [];
  g_waits : forall held, length held < length (t_qb T) ->
    handles (fst (fst (t_q T))) (snd (fst (t_q T))) (snd (t_q T)) (Some (length (t_qb T))) held = SBodies (fst (fst (t_q T))) (snd (fst (t_q T))) (snd (t_q T)) (Some (length (t_qb T))) held;
  g_pparse : parse_p (t_ph T) = PDone (t_p T) [];
  g_pfits : length (t_ph T) <= most_bytes cl;
  g_plength : if method_eqb (pr_method (e_proc (t_errand T))) MHead then t_pb T = [] else body_length (snd (t_p T)) = Some (length (t_pb T));
  g_answer : de_response (fst (t_p T)) (snd (t_p T)) (pr_resp (e_proc (t_errand T))) = Ok (fst (t_answer T));
  g_body : snd (t_answer T) = t_pb T
}.

Lemma method_eqb_head m : method_eqb m MHead = true <-> m = MHead.
Proof. destruct m; split; intros E; try reflexivity; discriminate. Qed.
Hypothesis readers : forall hp, In hp ps -> waits_for_body hp.
(** With less than the whole body the server waits, if with the whole of it there is an answer. *)
Lemma waits_all m t hs c c' n s h b : reply_to explain reason (byte_link trims uri_byte sl) ps (mkRequest m t hs c) = Sends s h b ->
  b_left c' = Some n -> b_closed c' = false -> length (stream c') < n -> reply_to explain reason (byte_link trims uri_byte sl) ps (mkRequest m t hs c') = Hesitates.
Proof.
  intros Rp Lf Cl Lt.
  assert (Dr : settle (l_drain (byte_link trims uri_byte sl) (mkRequest m t hs c')) = Hangs).
  { cbn [l_drain byte_link q_conn]. rewrite settle_bind. unfold read_body. rewrite Lf. rewrite length_waits by exact Lt. rewrite Cl. reflexivity. }
  assert (Rf : forall st p, refusal (byte_link trims uri_byte sl) (mkRequest m t hs c') st p = Hesitates) by (intros st p; unfold refusal; rewrite Dr; reflexivity).
  unfold reply_to, invalid_request in *. cbn [q_target q_method q_headers] in *. destruct (parse_url t) as [[[segs|] qy]|]; [| discriminate Rp | apply Rf].
  match type of Rp with context [match ?x with _ => _ end] => destruct x as [hp|[|]] eqn:Er end; [|apply Rf..].
  destruct (de_request _ _ _ _) as [v|k| |] eqn:Ed in Rp; rewrite Ed; [| apply Rf | discriminate Rp | discriminate Rp].
  rewrite (readers hp) with (n := n); [reflexivity | apply route_in in Er; apply in_map_iff in Er; destruct Er as (g & <- & I); apply accepted_incl in I; apply in_map_iff in I; destruct I as (p' & <- & I); exact I | exact Lf | exact Cl | exact Lt].
Qed.
Lemma exchanged_trip e o : exchanged e o -> exists T, t_errand T = e /\ t_answer T = o /\ good T.
Proof.
  intros (r & Er & Fq & Q). pose (m := pr_method (e_proc e)).
  destruct (Q (mkRequest m (rb_target r) (rb_headers r) (mkBconn (e_body e) [] false (Some (length (e_body e))))) [] eq_refl eq_refl eq_refl) as (s & h & b & Rp & Ss & Fp & De & So).
  { split; [reflexivity|]. unfold stream. cbn [q_conn b_held b_coming concat]. reflexivity. }
  exists (mkTrip e o (request_head m r) (e_body e) (m, rb_target r, rb_headers r) (response_head reason h) (match m with MHead => [] | _ => b end) (code_of (pb_status h), pb_headers h)).
  split; [reflexivity|]. split; [reflexivity|]. destruct Fq as [[Nt Tt] Sf Lg Lb Lc]. destruct Fp as [V Sfp Lgp Lbp Lcp]. split; cbn [t_errand t_answer t_qh t_qb t_q t_ph t_pb t_p fst snd].
  - intros es held. unfold begins. rewrite Er. reflexivity.
  - exact (run_request trims uri_byte _ m r Nt Tt Sf Lc).
  - exact Lb.
  - rewrite (told_length _ _ Lg), Nnat.Nat2N.id. reflexivity.
  - unfold Duplex.handles. rewrite Rp, Ss. unfold pb. cbn [t_ph t_pb]. unfold replying_bytes. cbn [fst snd]. destruct m; reflexivity.
  - intros held L. unfold Duplex.handles. rewrite (waits_all m (rb_target r) (rb_headers r) (mkBconn (e_body e) [] false (Some (length (e_body e)))) (mkBconn held [] false (Some (length (e_body e)))) (length (e_body e)) s h b); [reflexivity | exact Rp | reflexivity | reflexivity | unfold stream; cbn; rewrite app_nil_r; exact L].
  - exact (run_response trims _ reason h V Sfp Lcp).
  - exact Lbp.
  - change (pr_method (e_proc e)) with m. destruct (method_eqb m MHead) eqn:Em; [apply method_eqb_head in Em; rewrite Em; reflexivity|].
    rewrite (told_length _ _ Lgp), Nnat.Nat2N.id. destruct m; solve [reflexivity | discriminate Em].
  - exact De.
  - rewrite So. reflexivity.
Qed.

(** ** Where the two ends are, by how many bytes have been written and read *)
(** During a request: [p] bytes read by the server, [a] written by the client. *)
Definition reads_q (T : trip) (p : nat) : sstage :=
  if p <? length (t_qh T) then SHeads (firstn p (qs T))
  else if p <? length (qs T) then SBodies (fst (fst (t_q T))) (snd (fst (t_q T))) (snd (t_q T)) (Some (length (t_qb T))) (between (qs T) (length (t_qh T)) p)
  else SThinks (pb T) [].
Definition writes_q (T : trip) (a : nat) : cstage := if a <? length (qs T) then CWrites (skipn a (qs T)) [] else CHeads [].
Definition asking_state (T : trip) (Ts : list trip) (got : list SessionSpec.answer) (p a : nat) : duplex :=
  mkDuplex (map t_errand (T :: Ts)) (writes_q T a) got (reads_q T p) (between (qs T) p a) [].
(** During a response. *)
Definition reads_p (T : trip) (p : nat) : cstage :=
  if p <? length (t_ph T) then CHeads (firstn p (pb T)) else CBodies (fst (t_p T)) (snd (t_p T)) (Some (length (t_pb T))) (between (pb T) (length (t_ph T)) p).
Definition writes_p (T : trip) (a : nat) : sstage := if a <? length (pb T) then SWrites (skipn a (pb T)) [] else SHeads [].
Definition replying_state (T : trip) (Ts : list trip) (got : list SessionSpec.answer) (p a : nat) : duplex :=
  mkDuplex (map t_errand (T :: Ts)) (reads_p T p) got (writes_p T a) [] (between (pb T) p a).
Definition next_state (Ts : list trip) (got : list SessionSpec.answer) : duplex :=
  match Ts with [] => mkDuplex [] CIdle got (SHeads []) [] [] | T :: Ts => asking_state T Ts got 0 0 end.

Lemma parse_q_nil T : good T -> 0 < length (t_qh T).
Proof. intros G. pose proof (g_qparse T G) as Q. destruct (t_qh T); [discriminate Q | cbn; lia]. Qed.
Lemma parse_p_nil T : good T -> 0 < length (t_ph T).
Proof. intros G. pose proof (g_pparse T G) as Q. destruct (t_ph T); [discriminate Q | cbn; lia]. Qed.
Lemma qs_length T : length (qs T) = length (t_qh T) + length (t_qb T).
Proof. apply app_length. Qed.
Lemma pb_length T : length (pb T) = length (t_ph T) + length (t_pb T).
Proof. apply app_length. Qed.

(** Reading a head, [p] bytes of which are held. *)
Lemma head_more {S A} (f : S -> N -> step S A) s0 (H B : bytes) x p : run f s0 H = PDone x [] -> p < length H -> run f s0 (firstn p (H ++ B)) = PMore.
Proof.
  intros E L. rewrite firstn_app. replace (p - length H) with 0 by lia. cbn [firstn]. rewrite app_nil_r.
  apply (run_prefix f s0 (firstn p H) (skipn p H) x); [rewrite firstn_skipn; exact E|]. intros Z. apply skipn_nil_iff in Z. lia.
Qed.
Lemma head_done {S A} (f : S -> N -> step S A) s0 (H B : bytes) x p : run f s0 H = PDone x [] -> length H <= p -> run f s0 (firstn p (H ++ B)) = PDone x (between (H ++ B) (length H) p).
Proof.
  intros E L. unfold between. rewrite !firstn_app, firstn_all2 by lia. rewrite (run_done_app f H s0 x [] _ E). rewrite skipn_app, skipn_all, Nat.sub_diag. reflexivity.
Qed.
Lemma between_end (H B : bytes) : between (H ++ B) (length H) (length (H ++ B)) = B.
Proof. unfold between. rewrite firstn_all, skipn_app, skipn_all, Nat.sub_diag. reflexivity. Qed.
Lemma server_reads_body T p : good T -> length (t_qh T) <= p <= length (qs T) ->
  handles (fst (fst (t_q T))) (snd (fst (t_q T))) (snd (t_q T)) (Some (length (t_qb T))) (between (qs T) (length (t_qh T)) p) = reads_q T p.
Proof.
  intros G L. unfold reads_q. rewrite (proj2 (Nat.ltb_ge p (length (t_qh T)))) by lia. destruct (Nat.ltb_spec p (length (qs T))) as [Q|Q].
  - apply (g_waits T G). rewrite between_length by lia. rewrite qs_length in *. lia.
  - assert (p = length (qs T)) as -> by lia. unfold qs. rewrite between_end. exact (g_handles T G).
Qed.
Lemma server_reads T s p : good T -> p <= length (qs T) -> server_head s (firstn p (qs T)) = with_server s (reads_q T p).
Proof.
  intros G L. unfold Duplex.server_head. destruct (Nat.lt_ge_cases p (length (t_qh T))) as [Q|Q].
  - unfold qs. rewrite (head_more _ _ _ _ _ _ (g_qparse T G) Q). change (t_qh T ++ t_qb T) with (qs T). unfold reads_q. rewrite (proj2 (Nat.ltb_lt _ _) Q).
    rewrite firstn_length, Nat.min_l by exact L. pose proof (g_qfits T G). rewrite (proj2 (Nat.leb_gt _ _)) by lia. reflexivity.
  - unfold qs. rewrite (head_done _ _ _ _ _ _ (g_qparse T G) Q). change (t_qh T ++ t_qb T) with (qs T).
    destruct (t_q T) as [[m t] hs] eqn:Eq. pose proof (g_qlength T G) as Ql. pose proof (server_reads_body T p G (conj Q L)) as Z. rewrite Eq in *. cbn [fst snd] in *. rewrite Ql, Z. reflexivity.
Qed.

(** The answer has come. *)
Definition finish (s : duplex) (T : trip) (Ts : list trip) : duplex :=
  mkDuplex (map t_errand Ts) (begins (map t_errand Ts) []) (d_got s ++ [t_answer T]) (d_server s) (d_up s) (d_down s).
Lemma answered_all T Ts s : good T -> d_calls s = map t_errand (T :: Ts) -> received_all s (fst (t_p T)) (snd (t_p T)) (t_pb T) [] = finish s T Ts.
Proof.
  intros G E. unfold received_all, finish. rewrite E. cbn [map]. rewrite (g_answer T G). rewrite <- (g_body T G). destruct (t_answer T) as [v b]. reflexivity.
Qed.
Lemma client_reads_body T Ts s p : good T -> d_calls s = map t_errand (T :: Ts) -> length (t_ph T) <= p <= length (pb T) ->
  client_body s (fst (t_p T)) (snd (t_p T)) (Some (length (t_pb T))) (between (pb T) (length (t_ph T)) p) = if p <? length (pb T) then with_client s (reads_p T p) else finish s T Ts.
Proof.
  intros G E L. unfold client_body, reads_p. rewrite between_length by lia. rewrite (proj2 (Nat.ltb_ge p (length (t_ph T)))) by lia.
  destruct (Nat.ltb_spec p (length (pb T))) as [Q|Q]; rewrite pb_length in *.
  - rewrite (proj2 (Nat.leb_gt _ _)) by lia. reflexivity.
  - rewrite (proj2 (Nat.leb_le _ _)) by lia. assert (p = length (pb T)) as -> by (rewrite pb_length; lia). unfold pb. rewrite between_end, firstn_all, skipn_all. exact (answered_all T Ts s G E).
Qed.
Lemma client_reads T Ts s p : good T -> d_calls s = map t_errand (T :: Ts) -> p <= length (pb T) ->
  client_head s (firstn p (pb T)) = if p <? length (pb T) then with_client s (reads_p T p) else finish s T Ts.
Proof.
  intros G E L. unfold Duplex.client_head. destruct (Nat.lt_ge_cases p (length (t_ph T))) as [Q|Q].
  - unfold pb at 1. rewrite (head_more _ _ _ _ _ _ (g_pparse T G) Q). unfold reads_p. rewrite (proj2 (Nat.ltb_lt _ _) Q).
    rewrite firstn_length, Nat.min_l by exact L. pose proof (g_pfits T G). rewrite (proj2 (Nat.leb_gt _ _)) by lia. rewrite (proj2 (Nat.ltb_lt _ _)) by (rewrite pb_length; lia). reflexivity.
  - unfold pb at 1. rewrite (head_done _ _ _ _ _ _ (g_pparse T G) Q). change (t_ph T ++ t_pb T) with (pb T). rewrite E. cbn [map].
    pose proof (g_plength T G) as Pl. destruct (method_eqb (pr_method (e_proc (t_errand T))) MHead).
    + assert (Lp : length (pb T) = length (t_ph T)) by (rewrite pb_length, Pl; cbn; lia). assert (p = length (t_ph T)) as -> by lia. rewrite Lp, Nat.ltb_irrefl, between_same.
      pose proof (answered_all T Ts s G E) as Z. rewrite Pl in Z. destruct (t_p T) as [code hs]. exact Z.
    + pose proof (client_reads_body T Ts s p G E (conj Q L)) as Z. destruct (t_p T) as [code hs]. cbn [fst snd] in *. rewrite Pl. exact Z.
Qed.

(** ** What a turn does *)
Lemma begins_next Ts : Forall good Ts -> begins (map t_errand Ts) [] = match Ts with [] => CIdle | T :: _ => writes_q T 0 end.
Proof.
  intros G. destruct Ts as [|T Ts]; [reflexivity|]. inversion G as [|? ? G1 G2]; subst. cbn [map]. rewrite (g_begins T G1). unfold writes_q.
  pose proof (parse_q_nil T G1). rewrite (proj2 (Nat.ltb_lt _ _)) by (rewrite qs_length; lia). reflexivity.
Qed.
Lemma reads_q_0 T : good T -> reads_q T 0 = SHeads [].
Proof. intros G. unfold reads_q. rewrite (proj2 (Nat.ltb_lt _ _) (parse_q_nil T G)). reflexivity. Qed.
Lemma finish_next T Ts got : Forall good Ts -> finish (mkDuplex (map t_errand (T :: Ts)) CStops got (SHeads []) [] []) T Ts = next_state Ts (got ++ [t_answer T]).
Proof.
  intros G. unfold finish. cbn [d_got d_server d_up d_down]. rewrite (begins_next Ts G). destruct Ts as [|T' Ts]; [reflexivity|].
  inversion G as [|? ? G1 G2]; subst. unfold next_state, asking_state. rewrite (reads_q_0 T' G1), between_same. reflexivity.
Qed.

Section Turns.
Variables (T : trip) (Ts : list trip) (got : list SessionSpec.answer).
Hypothesis G : good T.
Hypothesis Gs : Forall good Ts.
Notation askst := (asking_state T Ts got).
Notation replst := (replying_state T Ts got).

Lemma client_asks k p a : p <= a <= length (qs T) -> client_turn k (askst p a) = askst p (Nat.min (a + Nat.min k (cap_up - (a - p))) (length (qs T))).
Proof.
  intros L. unfold Duplex.client_turn. cbn [asking_state d_client d_up d_calls d_got d_server d_down]. rewrite between_length by lia. unfold writes_q at 1.
  destruct (Nat.ltb_spec a (length (qs T))) as [Q|Q].
  - set (j := Nat.min k (cap_up - (a - p))). rewrite skipn_plus, between_more by lia. unfold asking_state, writes_q.
    destruct (Nat.ltb_spec (Nat.min (a + j) (length (qs T))) (length (qs T))) as [Q'|Q'].
    + rewrite Nat.min_l in * by lia. destruct (skipn (a + j) (qs T)) as [|x l] eqn:E; [apply skipn_nil_iff in E; lia | reflexivity].
    + rewrite (proj2 (skipn_nil_iff (qs T) (a + j))) by lia.
      pose proof (client_reads T Ts (mkDuplex (map t_errand (T :: Ts)) (writes_q T a) got (reads_q T p) (between (qs T) p (Nat.min (a + j) (length (qs T)))) []) 0 G eq_refl (Nat.le_0_l _)) as Z.
      pose proof (parse_p_nil T G). rewrite (proj2 (Nat.ltb_lt 0 (length (pb T)))) in Z by (rewrite pb_length; lia). cbn [firstn] in Z. unfold reads_p in Z. rewrite (proj2 (Nat.ltb_lt _ _)) in Z by lia.
      etransitivity; [|exact Z]. reflexivity.
  - assert (a = length (qs T)) as -> by lia. rewrite (Nat.min_r (_ + _)) by lia.
    cbn [app]. rewrite skipn_nil, firstn_nil.
    pose proof (client_reads T Ts (askst p (length (qs T))) 0 G eq_refl (Nat.le_0_l _)) as Z.
    pose proof (parse_p_nil T G). rewrite (proj2 (Nat.ltb_lt 0 (length (pb T)))) in Z by (rewrite pb_length; lia). cbn [firstn] in Z. unfold reads_p in Z. rewrite (proj2 (Nat.ltb_lt _ _)) in Z by lia.
    unfold asking_state in Z at 1. etransitivity; [exact Z|]. unfold with_client, asking_state, writes_q. cbn [d_calls d_got d_server d_up d_down]. rewrite Nat.ltb_irrefl. reflexivity.
Qed.
Lemma server_asked k p a : p <= a <= length (qs T) -> exists p', server_turn k (askst p a) = askst p' a /\ p <= p' <= a /\ (0 < k -> p < a -> p < p').
Proof.
  intros L. unfold Duplex.server_turn. cbn [asking_state d_client d_up d_calls d_got d_server d_down]. unfold reads_q at 1.
  destruct (Nat.ltb_spec p (length (t_qh T))) as [Q|Q]; [|destruct (Nat.ltb_spec p (length (qs T))) as [Q'|Q']].
  - rewrite firstn_length, (Nat.min_l p) by (rewrite ?qs_length, ?pb_length in *; lia). set (j := Nat.min k (most_bytes sl - p)). exists (Nat.min (p + j) a). rewrite between_taken, between_left by lia. rewrite server_reads by (try exact G; lia).
    split; [reflexivity|]. split; [lia|]. pose proof (g_qfits T G). lia.
  - exists (Nat.min (p + k) a). rewrite between_left by lia. split; [|lia].
    assert (E : between (qs T) (length (t_qh T)) p ++ firstn k (between (qs T) p a) = between (qs T) (length (t_qh T)) (Nat.min (p + k) a)).
    { unfold between at 1 3. rewrite <- (between_taken (qs T) p a k) by lia. rewrite skipn_app, firstn_length. replace (length (t_qh T) - Nat.min p (length (qs T))) with 0 by lia. reflexivity. }
    rewrite E, server_reads_body by (try exact G; lia). reflexivity.
  - exists p. assert (p = length (qs T)) as -> by lia. split; [|lia]. unfold asking_state, reads_q. rewrite (proj2 (Nat.ltb_ge _ _)) by (rewrite qs_length; lia). rewrite Nat.ltb_irrefl. reflexivity.
Qed.
Lemma handler_asked p a : p <= a <= length (qs T) -> handler_turn (askst p a) = if p <? length (qs T) then askst p a else replst 0 0.
Proof.
  intros L. unfold handler_turn. cbn [asking_state d_server]. unfold reads_q at 1.
  destruct (Nat.ltb_spec p (length (t_qh T))) as [Q|Q]; [|destruct (Nat.ltb_spec p (length (qs T))) as [Q'|Q']].
  - rewrite (proj2 (Nat.ltb_lt _ _)) by (rewrite qs_length; lia). reflexivity.
  - reflexivity.
  - assert (p = length (qs T)) as -> by lia. assert (a = length (qs T)) as -> by lia.
    unfold with_server, replying_state, reads_p, writes_p. cbn [asking_state d_calls d_client d_got d_up d_down]. pose proof (parse_p_nil T G).
    rewrite (proj2 (Nat.ltb_lt _ _)) by lia. rewrite (proj2 (Nat.ltb_lt _ _)) by (rewrite pb_length; lia). rewrite !between_same. unfold writes_q. rewrite Nat.ltb_irrefl. reflexivity.
Qed.
Lemma server_replies k p a : p <= a <= length (pb T) -> server_turn k (replst p a) = replst p (Nat.min (a + Nat.min k (cap_down - (a - p))) (length (pb T))).
Proof.
  intros L. unfold Duplex.server_turn. cbn [replying_state d_client d_up d_calls d_got d_server d_down]. rewrite between_length by lia. unfold writes_p at 1.
  assert (Mo : forall s, server_head s [] = with_server s (SHeads [])).
  { intros s. pose proof (server_reads T s 0 G (Nat.le_0_l _)) as Z. rewrite (reads_q_0 T G) in Z. exact Z. }
  destruct (Nat.ltb_spec a (length (pb T))) as [Q|Q].
  - set (j := Nat.min k (cap_down - (a - p))). rewrite skipn_plus, between_more by lia. unfold replying_state, writes_p.
    destruct (Nat.ltb_spec (Nat.min (a + j) (length (pb T))) (length (pb T))) as [Q'|Q'].
    + rewrite Nat.min_l in * by lia. destruct (skipn (a + j) (pb T)) as [|x l] eqn:E; [apply skipn_nil_iff in E; lia | reflexivity].
    + rewrite (proj2 (skipn_nil_iff (pb T) (a + j))) by lia. rewrite Mo. reflexivity.
  - assert (a = length (pb T)) as -> by lia. rewrite (Nat.min_r (_ + _)) by lia. cbn [app]. rewrite skipn_nil, firstn_nil, Mo. unfold with_server, replying_state, writes_p. cbn [d_calls d_client d_got d_up d_down]. rewrite Nat.ltb_irrefl. reflexivity.
Qed.
Lemma client_replied k p a : p <= a <= length (pb T) -> p < length (pb T) ->
  exists p', p <= p' <= a /\ (0 < k -> p < a -> p < p') /\ client_turn k (replst p a) = if p' <? length (pb T) then replst p' a else next_state Ts (got ++ [t_answer T]).
Proof.
  intros L L'. unfold Duplex.client_turn. cbn [replying_state d_client d_up d_calls d_got d_server d_down]. unfold reads_p at 1.
  assert (Fi : forall p', p <= p' <= a -> forall c, (if p' <? length (pb T) then with_client (mkDuplex (map t_errand (T :: Ts)) c got (writes_p T a) [] (between (pb T) p' a)) (reads_p T p')
      else finish (mkDuplex (map t_errand (T :: Ts)) c got (writes_p T a) [] (between (pb T) p' a)) T Ts) =
    if p' <? length (pb T) then replst p' a else next_state Ts (got ++ [t_answer T])).
  { intros p' Lp c. destruct (Nat.ltb_spec p' (length (pb T))) as [Z|Z]; [reflexivity|]. assert (p' = length (pb T)) as -> by lia. assert (a = length (pb T)) as -> by lia.
    rewrite between_same. unfold writes_p. rewrite Nat.ltb_irrefl. rewrite <- (finish_next T Ts got Gs). reflexivity. }
  destruct (Nat.ltb_spec p (length (t_ph T))) as [Q|Q].
  - rewrite firstn_length, (Nat.min_l p) by (rewrite ?qs_length, ?pb_length in *; lia). set (j := Nat.min k (most_bytes cl - p)). exists (Nat.min (p + j) a). split; [lia|]. split; [pose proof (g_pfits T G); lia|].
    rewrite between_taken, between_left by lia. rewrite (client_reads T Ts) by (try exact G; try reflexivity; lia). apply Fi. lia.
  - exists (Nat.min (p + k) a). split; [lia|]. split; [lia|]. rewrite between_left by lia.
    assert (E : between (pb T) (length (t_ph T)) p ++ firstn k (between (pb T) p a) = between (pb T) (length (t_ph T)) (Nat.min (p + k) a)).
    { unfold between at 1 3. rewrite <- (between_taken (pb T) p a k) by lia. rewrite skipn_app, firstn_length. replace (length (t_ph T) - Nat.min p (length (pb T))) with 0 by lia. reflexivity. }
    rewrite E, (client_reads_body T Ts) by (try exact G; try reflexivity; lia). apply Fi. lia.
Qed.
Lemma handler_replied p a : handler_turn (replst p a) = replst p a.
Proof. unfold handler_turn. cbn [replying_state d_server]. unfold writes_p at 1. destruct (a <? length (pb T)); reflexivity. Qed.
End Turns.

(** ** The states that are met, and how much is left to do in each *)
Fixpoint ahead (Ts : list trip) : nat := match Ts with [] => 0 | T :: Ts => 2 * length (qs T) + 1 + 2 * length (pb T) + ahead Ts end.
Inductive met (all : list trip) : nat -> duplex -> Prop :=
| met_asking Ds T Ts p a : all = Ds ++ T :: Ts -> p <= a <= length (qs T) -> a - p <= cap_up ->
    met all ((length (qs T) - a) + (length (qs T) - p) + 1 + 2 * length (pb T) + ahead Ts) (asking_state T Ts (map t_answer Ds) p a)
| met_replying Ds T Ts p a : all = Ds ++ T :: Ts -> p <= a <= length (pb T) -> p < length (pb T) -> a - p <= cap_down ->
    met all ((length (pb T) - a) + (length (pb T) - p) + ahead Ts) (replying_state T Ts (map t_answer Ds) p a)
| met_done : met all 0 (next_state [] (map t_answer all)).
Definition same_or_less (all : list trip) (n : nat) (s s' : duplex) : Prop := s' = s \/ exists n', n' < n /\ met all n' s'.

Lemma met_next all Ds Ts : all = Ds ++ Ts -> met all (ahead Ts) (next_state Ts (map t_answer Ds)).
Proof.
  intros E. destruct Ts as [|T Ts].
  - rewrite app_nil_r in E. subst all. apply met_done.
  - cbn [ahead next_state]. replace (2 * length (qs T) + 1 + 2 * length (pb T) + ahead Ts) with ((length (qs T) - 0) + (length (qs T) - 0) + 1 + 2 * length (pb T) + ahead Ts) by lia.
    apply met_asking; [exact E | lia | lia].
Qed.
Hypothesis room : 0 < most_bytes sl.
Lemma idle_stays l got : dstep l (next_state [] got) = next_state [] got.
Proof.
  destruct l as [k|k|]; cbn [Duplex.dstep]; [reflexivity | | reflexivity]. unfold Duplex.server_turn. cbn [next_state d_server d_up d_calls d_client d_got d_down length].
  rewrite skipn_nil, firstn_nil. cbn [app]. unfold Duplex.server_head. cbn [run length]. rewrite (proj2 (Nat.leb_gt _ _)) by exact room. reflexivity.
Qed.

Lemma met_step all : Forall good all -> forall l n s, met all n s -> same_or_less all n s (dstep l s).
Proof.
  intros Gd l n s M. destruct M as [Ds T Ts p a E L C | Ds T Ts p a E L L' C |].
  - assert (G : good T /\ Forall good Ts) by (rewrite E in Gd; apply Forall_app in Gd as [_ Gd]; inversion Gd; auto). destruct G as [G Gs].
    destruct l as [k|k|]; cbn [Duplex.dstep].
    + rewrite client_asks by (try exact G; exact L). set (a' := Nat.min _ _). destruct (Nat.eq_dec a' a) as [->|Na]; [left; reflexivity | right].
      eexists; split; [|apply met_asking; [exact E | |]]; unfold a' in *; lia.
    + destruct (server_asked T Ts (map t_answer Ds) G k p a L) as (p' & -> & Lp & _). destruct (Nat.eq_dec p' p) as [->|Np]; [left; reflexivity | right].
      eexists; split; [|apply met_asking; [exact E | |]]; lia.
    + rewrite handler_asked by (try exact G; exact L). destruct (Nat.ltb_spec p (length (qs T))) as [Q|Q]; [left; reflexivity | right].
      pose proof (parse_p_nil T G). eexists; split; [|apply met_replying; [exact E | | |]]; try rewrite pb_length; lia.
  - assert (G : good T /\ Forall good Ts) by (rewrite E in Gd; apply Forall_app in Gd as [_ Gd]; inversion Gd; auto). destruct G as [G Gs].
    destruct l as [k|k|]; cbn [Duplex.dstep].
    + destruct (client_replied T Ts (map t_answer Ds) G Gs k p a L L') as (p' & Lp & _ & ->). destruct (Nat.ltb_spec p' (length (pb T))) as [Q|Q].
      * destruct (Nat.eq_dec p' p) as [->|Np]; [left; reflexivity | right]. eexists; split; [|apply met_replying; [exact E | | |]]; lia.
      * right. assert (E' : all = (Ds ++ [T]) ++ Ts) by (rewrite <- app_assoc; exact E). pose proof (met_next all (Ds ++ [T]) Ts E') as Z. rewrite map_app in Z. exists (ahead Ts). split; [lia | exact Z].
    + rewrite server_replies by (try exact G; exact L). set (a' := Nat.min _ _). destruct (Nat.eq_dec a' a) as [->|Na]; [left; reflexivity | right].
      eexists; split; [|apply met_replying; [exact E | | |]]; unfold a' in *; lia.
    + rewrite handler_replied. left. reflexivity.
  - left. apply idle_stays.
Qed.
Lemma met_run all : Forall good all -> forall ls n s, met all n s -> exists n', n' <= n /\ met all n' (drun ls s).
Proof.
  intros Gd. induction ls as [|l ls IH]; intros n s M; cbn [Duplex.drun]; [exists n; split; [lia | exact M]|].
  destruct (met_step all Gd l n s M) as [-> | (n1 & L1 & M1)]; [apply IH; exact M|]. destruct (IH _ _ M1) as (n2 & L2 & M2). exists n2. split; [lia | exact M2].
Qed.

(** What is met says what is seen. *)
Lemma met_got all n s : met all n s -> exists rest, map t_answer all = d_got s ++ rest.
Proof.
  intros [Ds T Ts p a E L C | Ds T Ts p a E L L' C |]; cbn [asking_state replying_state next_state d_got].
  - exists (map t_answer (T :: Ts)). rewrite E, map_app. reflexivity.
  - exists (map t_answer (T :: Ts)). rewrite E, map_app. reflexivity.
  - exists []. rewrite app_nil_r. reflexivity.
Qed.
Lemma met_goes all n s : met all n s -> d_client s <> CStops /\ d_server s <> SStops.
Proof.
  intros [Ds T Ts p a E L C | Ds T Ts p a E L L' C |]; cbn [asking_state replying_state next_state d_client d_server]; unfold writes_q, reads_q, writes_p, reads_p;
    repeat (match goal with |- context [if ?b then _ else _] => destruct b end); split; discriminate.
Qed.
Lemma met_bounds all n s : met all n s -> length (d_up s) <= cap_up /\ length (d_down s) <= cap_down /\ (d_up s = [] \/ d_down s = []).
Proof.
  intros [Ds T Ts p a E L C | Ds T Ts p a E L L' C |]; cbn [asking_state replying_state next_state d_up d_down length]; rewrite ?between_length by lia; (split; [lia | split; [lia | auto]]).
Qed.

(** ** There is always an end that can go on *)
Hypothesis room_up : 0 < cap_up.
Hypothesis room_down : 0 < cap_down.
Inductive who := TheClient | TheServer | TheHandler.
Definition moves_of (w : who) : dlabel -> Prop := match w with TheClient => client_moves | TheServer => server_moves | TheHandler => handler_moves end.
Lemma met_helped all : Forall good all -> forall n s, met all n s -> s = next_state [] (map t_answer all) \/ exists w, forall l, moves_of w l -> exists n', n' < n /\ met all n' (dstep l s).
Proof.
  intros Gd n s M. destruct M as [Ds T Ts p a E L C | Ds T Ts p a E L L' C |]; [right | right | left; reflexivity].
  - assert (G : good T /\ Forall good Ts) by (rewrite E in Gd; apply Forall_app in Gd as [_ Gd]; inversion Gd; auto). destruct G as [G Gs].
    destruct (Nat.lt_ge_cases p a) as [Q|Q]; [exists TheServer | destruct (Nat.lt_ge_cases a (length (qs T))) as [Q'|Q']; [exists TheClient | exists TheHandler]].
    + intros l (k & K & ->). cbn [Duplex.dstep]. destruct (server_asked T Ts (map t_answer Ds) G k p a L) as (p' & -> & Lp & Lt). specialize (Lt K Q). eexists; split; [|apply met_asking; [exact E | |]]; lia.
    + intros l (k & K & ->). cbn [Duplex.dstep]. rewrite client_asks by (try exact G; exact L). eexists; split; [|apply met_asking; [exact E | |]]; lia.
    + intros l ->. cbn [Duplex.dstep]. rewrite handler_asked by (try exact G; exact L). rewrite (proj2 (Nat.ltb_ge _ _)) by lia. pose proof (parse_p_nil T G).
      eexists; split; [|apply met_replying; [exact E | | |]]; try rewrite pb_length; lia.
  - assert (G : good T /\ Forall good Ts) by (rewrite E in Gd; apply Forall_app in Gd as [_ Gd]; inversion Gd; auto). destruct G as [G Gs].
    destruct (Nat.lt_ge_cases p a) as [Q|Q]; [exists TheClient | exists TheServer].
    + intros l (k & K & ->). cbn [Duplex.dstep]. destruct (client_replied T Ts (map t_answer Ds) G Gs k p a L L') as (p' & Lp & Lt & ->). specialize (Lt K Q). destruct (Nat.ltb_spec p' (length (pb T))) as [Z|Z].
      * eexists; split; [|apply met_replying; [exact E | | |]]; lia.
      * assert (E' : all = (Ds ++ [T]) ++ Ts) by (rewrite <- app_assoc; exact E). pose proof (met_next all (Ds ++ [T]) Ts E') as Z'. rewrite map_app in Z'. exists (ahead Ts). split; [lia | exact Z'].
    + intros l (k & K & ->). cbn [Duplex.dstep]. rewrite server_replies by (try exact G; exact L). eexists; split; [|apply met_replying; [exact E | | |]]; lia.
Qed.

(** ** Every fair schedule comes to the end *)
Lemma turns_more sched n k : turns sched (n + k) = turns sched n ++ turns (fun i => sched (n + i)) k.
Proof. unfold turns. rewrite seq_app, map_app. f_equal. cbn. rewrite <- (map_map (fun i => n + i) sched). f_equal. clear. induction k as [|k IH]; [reflexivity|]. rewrite !seq_S, map_app, <- IH. reflexivity. Qed.
Lemma drun_app a b s : drun (a ++ b) s = drun b (drun a s).
Proof. revert s. induction a as [|l a IH]; intros s; cbn [app Duplex.drun]; [reflexivity | apply IH]. Qed.
Lemma again_later P sched n : always_again P sched -> always_again P (fun i => sched (n + i)).
Proof. intros A k. destruct (A (n + k)) as (m & L & Hm). exists (m - n). split; [lia|]. replace (n + (m - n)) with m by lia. exact Hm. Qed.
Lemma idle_run ls got : drun ls (next_state [] got) = next_state [] got.
Proof. induction ls as [|l ls IH]; cbn [Duplex.drun]; [reflexivity | rewrite idle_stays; exact IH]. Qed.
(** Up to the first turn of a kind that helps, either nothing changes or something is done. *)
Lemma helps all : Forall good all -> forall n s w, met all n s -> (forall l, moves_of w l -> exists n', n' < n /\ met all n' (dstep l s)) ->
  forall m sched, moves_of w (sched m) -> exists k n', n' < n /\ met all n' (drun (turns sched k) s).
Proof.
  intros Gd n s w M Hp. induction m as [|m IH]; intros sched Hm.
  - exists 1. destruct (Hp _ Hm) as (n' & L & M'). exists n'. split; [exact L | exact M'].
  - destruct (met_step all Gd (sched 0) n s M) as [E | (n' & L & M')].
    + destruct (IH (fun i => sched (1 + i)) Hm) as (k & n' & L & M'). exists (1 + k), n'. split; [exact L|]. rewrite turns_more, drun_app. change (drun (turns sched 1) s) with (dstep (sched 0) s). rewrite E. exact M'.
    + exists 1, n'. split; [exact L | exact M'].
Qed.
Lemma ends all : Forall good all -> forall n s sched, met all n s -> always_again client_moves sched -> always_again server_moves sched -> always_again handler_moves sched ->
  exists k, drun (turns sched k) s = next_state [] (map t_answer all).
Proof.
  intros Gd. induction n as [n IH] using (well_founded_induction lt_wf). intros s sched M Ac As Ah.
  destruct (met_helped all Gd n s M) as [-> | (w & Hp)]; [exists 0; reflexivity|].
  assert (Aw : always_again (moves_of w) sched) by (destruct w; assumption). destruct (Aw 0) as (m & _ & Hm).
  destruct (helps all Gd n s w M Hp m sched Hm) as (k & n' & L & M').
  destruct (IH n' L _ (fun i => sched (k + i)) M') as (j & Ej); [apply again_later; assumption..|]. exists (k + j). rewrite turns_more, drun_app. exact Ej.
Qed.
End Proofs.

(** ** All together *)
Section Whole.
Context `{F : floatlib} `{U : urlenv} {R : Type}.
Variable explain : request bconn -> ekind -> ustr * option ustr * option (list ustr).
Variable reason : status -> ustr.
Variables (trims : bool) (uri_byte : N -> bool) (cl sl : limits) (ps : list (hproc bconn R)).
Variables (cap_up cap_down : nat).
Variables (es : list errand) (os : list SessionSpec.answer).
Hypothesis readers : forall hp, In hp ps -> waits_for_body hp.
Hypothesis room : 0 < most_bytes sl.
Hypothesis all_exchanged : Forall2 (exchanged explain reason trims uri_byte cl sl ps) es os.
Notation dstep := (dstep explain reason trims uri_byte cl sl ps cap_up cap_down).
Notation drun := (drun explain reason trims uri_byte cl sl ps cap_up cap_down).
Notation good := (good explain reason trims uri_byte cl sl ps).
Notation met := (met cap_up cap_down).

Lemma trips : exists Ts, map t_errand Ts = es /\ map t_answer Ts = os /\ Forall good Ts.
Proof.
  clear - readers all_exchanged. induction all_exchanged as [|e o es' os' X Xs IH]; [exists []; auto|]. destruct (IH Xs) as (Ts & <- & <- & G). destruct (exchanged_trip explain reason trims uri_byte cl sl ps readers e o X) as (T & <- & <- & Gt). exists (T :: Ts). auto.
Qed.
Lemma met_all ls : exists Ts n, map t_answer Ts = os /\ Forall good Ts /\ met Ts n (drun ls (duplex_new es)).
Proof.
  destruct trips as (Ts & <- & <- & G). assert (M : met Ts (ahead Ts) (duplex_new (map t_errand Ts))).
  { pose proof (met_next cap_up cap_down Ts [] Ts eq_refl) as M. cbn [map] in M. unfold duplex_new. rewrite (begins_next explain reason trims uri_byte cl sl ps Ts G). destruct Ts as [|T Ts]; [exact M|].
    unfold next_state, asking_state in M. inversion G as [|? ? G1 G2]; subst. rewrite (reads_q_0 explain reason trims uri_byte cl sl ps T G1), between_same in M. exact M. }
  destruct (met_run explain reason trims uri_byte cl sl ps cap_up cap_down room Ts G ls _ _ M) as (n & _ & Mn). exists Ts, n. auto.
Qed.
Lemma all_goes ls : (exists rest, os = d_got (drun ls (duplex_new es)) ++ rest) /\ d_client (drun ls (duplex_new es)) <> CStops /\ d_server (drun ls (duplex_new es)) <> SStops.
Proof. destruct (met_all ls) as (Ts & n & <- & G & M). split; [eapply met_got; eassumption | eapply met_goes; eassumption]. Qed.
Lemma all_bounds ls : length (d_up (drun ls (duplex_new es))) <= cap_up /\ length (d_down (drun ls (duplex_new es))) <= cap_down /\ (d_up (drun ls (duplex_new es)) = [] \/ d_down (drun ls (duplex_new es)) = []).
Proof. destruct (met_all ls) as (Ts & n & <- & G & M). eapply met_bounds; eassumption. Qed.
Hypothesis room_up : 0 < cap_up.
Hypothesis room_down : 0 < cap_down.
Lemma all_end ls sched : always_again client_moves sched -> always_again server_moves sched -> always_again handler_moves sched ->
  exists n0, forall n, n0 <= n -> drun (turns sched n) (drun ls (duplex_new es)) = mkDuplex [] CIdle os (SHeads []) [] [].
Proof.
  intros Ac As Ah. destruct (met_all ls) as (Ts & n & <- & G & M). destruct (ends explain reason trims uri_byte cl sl ps cap_up cap_down room room_up room_down Ts G n _ sched M Ac As Ah) as (k & Ek).
  exists k. intros m L. replace m with (k + (m - k)) by lia. rewrite turns_more, drun_app, Ek. apply idle_run. exact room.
Qed.
Lemma all_unstuck ls : let s := drun ls (duplex_new es) in (forall l, In l [LClient 1; LServer 1; LHandler] -> dstep l s = s) -> d_got s = os.
Proof.
  intros s St. set (sched := fun n => match n mod 3 with 0 => LClient 1 | 1 => LServer 1 | _ => LHandler end).
  assert (Im : forall n, dstep (sched n) s = s) by (intros n; apply St; unfold sched; destruct (n mod 3) as [|[|]]; cbn; auto).
  assert (Run : forall n, drun (turns sched n) s = s).
  { intros n. unfold turns. generalize 0. induction n as [|n IH]; intros i; [reflexivity|]. cbn [seq map Duplex.drun]. rewrite Im. apply IH. }
  assert (Md : forall n r, r < 3 -> (n * 3 + r) mod 3 = r) by (intros n r L; rewrite Nat.add_comm, Nat.mod_add by lia; apply Nat.mod_small; exact L).
  destruct (all_end ls sched) as (n0 & E).
  - intros n. exists (n * 3 + 0). split; [lia|]. exists 1. unfold sched. rewrite Md by lia. split; [lia | reflexivity].
  - intros n. exists (n * 3 + 1). split; [lia|]. exists 1. unfold sched. rewrite Md by lia. split; [lia | reflexivity].
  - intros n. exists (n * 3 + 2). split; [lia|]. unfold sched. rewrite Md by lia. reflexivity.
  - specialize (E n0 (le_n _)). fold s in E. rewrite Run in E. rewrite E. reflexivity.
Qed.
End Whole.
Lemma reads_first {R} (f : value -> request bconn -> bytes * bconn -> fut (request bconn * R)) (hp : hproc bconn R) :
  (forall v q, hp_body hp v q = fbind (read_body (q_conn q)) (f v q)) -> waits_for_body hp.
Proof. intros Eb v q n Lf Cl Lt. rewrite Eb, settle_bind. unfold read_body. rewrite Lf, length_waits, Cl by exact Lt. reflexivity. Qed.

(** ** An answer that does not wait for a long body: both ends wait for each other *)
Section Stuck.
Context `{F : floatlib} `{U : urlenv} {R : Type}.
Variable explain : request bconn -> ekind -> ustr * option ustr * option (list ustr).
Variable reason : status -> ustr.
Variables (trims : bool) (uri_byte : N -> bool) (cl sl : limits) (ps : list (hproc bconn R)).
Variables (cap_up cap_down : nat).
Variables (e : errand) (es : list errand) (head out : bytes).
Hypothesis once : answered_at_once explain reason trims uri_byte sl ps e head out.
Hypothesis long_body : most_bytes sl + cap_up < length (head ++ e_body e).
Hypothesis long_answer : cap_down < length out.
Notation dstep := (dstep explain reason trims uri_byte cl sl ps cap_up cap_down).
Notation drun := (drun explain reason trims uri_byte cl sl ps cap_up cap_down).
Notation Q := (head ++ e_body e).

Inductive stuck : duplex -> Prop :=
| Stuck p a w x : p <= a <= length Q -> a - p <= cap_up -> p <= most_bytes sl -> w <= cap_down ->
    (p < length head /\ x = SHeads (firstn p Q) /\ w = 0 \/ (exists held, x = SThinks out held) /\ w = 0 \/ (exists held, x = SWrites (skipn w out) held)) ->
    stuck (mkDuplex (e :: es) (CWrites (skipn a Q) []) [] x (between Q p a) (firstn w out)).
Lemma stuck_new : stuck (duplex_new (e :: es)).
Proof.
  destruct once as (r & Er & Eh & Fq & _). unfold duplex_new. cbn [begins]. rewrite Er, <- Eh.
  assert (Lh : 0 < length head). { pose proof (run_request trims uri_byte _ (pr_method (e_proc e)) r (proj1 (fq_target _ _ _ _ _ Fq)) (proj2 (fq_target _ _ _ _ _ Fq)) (fq_headers _ _ _ _ _ Fq) (fq_count _ _ _ _ _ Fq)) as P. rewrite <- Eh in P. destruct head; [discriminate P | cbn; lia]. }
  apply (Stuck 0 0 0 (SHeads [])); try lia. left. auto.
Qed.
Lemma stuck_step l s : stuck s -> stuck (dstep l s).
Proof.
  intros [p a w x L C M W X]. destruct once as (r & Er & Eh & Fq & An).
  pose proof (run_request trims uri_byte _ (pr_method (e_proc e)) r (proj1 (fq_target _ _ _ _ _ Fq)) (proj2 (fq_target _ _ _ _ _ Fq)) (fq_headers _ _ _ _ _ Fq) (fq_count _ _ _ _ _ Fq)) as P. rewrite <- Eh in P.
  pose proof (fq_bytes _ _ _ _ _ Fq) as Lb. rewrite <- Eh in Lb.
  destruct l as [k|k|]; cbn [Duplex.dstep].
  - unfold client_turn. cbn [d_client d_up d_calls d_got d_server d_down]. rewrite between_length by lia. set (j := Nat.min k (cap_up - (a - p))). rewrite skipn_plus, between_more by lia.
    rewrite Nat.min_l by lia. destruct (skipn (a + j) Q) as [|y l] eqn:E; [apply skipn_nil_iff in E; lia|]. rewrite <- E. unfold with_client. cbn [d_up d_calls d_got d_server d_down]. apply Stuck; try lia. exact X.
  - unfold server_turn. cbn [d_client d_up d_calls d_got d_server d_down]. destruct X as [(Lp & -> & ->) | [((held & ->) & ->) | (held & ->)]].
    + rewrite firstn_length, (Nat.min_l p) by lia. set (j := Nat.min k (most_bytes sl - p)). rewrite between_taken, between_left by lia. set (p' := Nat.min (p + j) a).
      assert (Lp' : p' <= most_bytes sl) by lia. unfold server_head. destruct (Nat.lt_ge_cases p' (length head)) as [Z|Z].
      * rewrite (head_more _ _ _ _ _ _ P Z). rewrite firstn_length, Nat.min_l by lia. rewrite (proj2 (Nat.leb_gt _ _)) by lia. apply (Stuck p' a 0); try lia. left. auto.
      * rewrite (head_done _ _ _ _ _ _ P Z). unfold handles. edestruct An as (c & h & b & Rp & Eo); [| | | rewrite Rp, <- Eo]; try reflexivity. apply (Stuck p' a 0); try lia. right; left. eauto.
    + apply (Stuck p a 0); try lia. right; left. eauto.
    + rewrite firstn_length, (Nat.min_l w) by lia. set (j := Nat.min k (cap_down - w)). rewrite skipn_plus, moved, Nat.min_l by lia.
      destruct (skipn (w + j) out) as [|y l] eqn:E; [apply skipn_nil_iff in E; lia|]. rewrite <- E. unfold with_server. cbn [d_up d_calls d_got d_client d_down]. apply Stuck; try lia. right; right. eauto.
  - unfold handler_turn. cbn [d_server]. destruct X as [(Lp & -> & ->) | [((held & ->) & ->) | (held & ->)]].
    + apply (Stuck p a 0); try lia. left. auto.
    + unfold with_server. cbn [d_up d_calls d_got d_client d_down]. apply (Stuck p a 0); try lia. right; right. exists held. reflexivity.
    + apply Stuck; try lia. right; right. eauto.
Qed.
Lemma stuck_run ls : d_got (drun ls (duplex_new (e :: es))) = [].
Proof.
  assert (X : stuck (drun ls (duplex_new (e :: es)))); [|destruct X; reflexivity].
  generalize stuck_new. generalize (duplex_new (e :: es)). induction ls as [|l ls IH]; intros s M; cbn [Duplex.drun]; [exact M | apply IH, stuck_step, M].
Qed.
End Stuck.
