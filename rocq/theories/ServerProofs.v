(** * Proofs about the server. *)
From Verif Require Import Base Utf8 Decimal DepUrl Serde Json Procedure Router RouterSpec RouterProofs Status SerHeader SerRequest SerResponse DePath DeQuery DeHeader DeRequest
  PathProofs QueryProofs HeaderProofs FieldProofs RequestTrip ResponseProofs ResponseTrip JsonText JsonDe DepHttp DeResponse Problem ProblemSpec ProblemProofs Error Client ClientSpec ClientProofs Server ServerSpec.
Open Scope N_scope.

Lemma settle_bind {A B} (f : fut A) (g : A -> fut B) :
  settle (fbind f g) = match settle f with Comes x => settle (g x) | Breaks e => Breaks e | Hangs => Hangs end.
Proof. induction f; cbn; auto. Qed.
Lemma settle_no_error {A} (f : nfut A) : settle (no_error f) = nsettle f.
Proof. induction f; cbn; auto. Qed.
Lemma phase_kind i e : error_of (FromPhase i e) = error_of e.
Proof. destruct i; reflexivity. Qed.

(** ** Decoding a request does not panic *)
Section Decode.
Context `{floatlib}.
Variables (ep : entry_point) (x : url) (hs : list rheader).
Theorem de_request_safe : names_ok hs = true -> forall t, safe (de_request ep x hs t).
Proof.
  intros NO.
  assert (PN : safe (pde_new ep x)) by (unfold pde_new; destruct (u_path x); exact I).
  assert (SV : forall q, q <> RInit -> forall t, safe (req_value ep x hs t q)).
  { intros [| | |] Nq t; [congruence| | |]; cbn [req_value].
    - unfold pde_new. destruct (u_path x) as [segs|]; cbn [ok_or_invalid bind]; [|exact I]. apply safe_bind; [apply de_path_safe | intros [? ?] _; exact I].
    - apply safe_bind; [apply de_query_safe | intros [? ?] _; exact I].
    - apply safe_bind; [apply de_header_safe, NO | intros [? ?] _; exact I]. }
  assert (SS : forall q k, q <> RInit -> safe (req_skip ep x hs k q)).
  { intros [| | |] k Nq; [congruence| |exact I|]; cbn [req_skip].
    - apply safe_bind; [exact PN | intros; exact I].
    - destruct hs as [|[? ?] ?]; exact I. }
  assert (E3 : emits req_next_field RHeader RHeader []) by (apply ENil; reflexivity).
  assert (E2 : emits req_next_field RHeader RQuery [(u "header", RHeader)]) by (eapply ECons; [reflexivity | exact E3]).
  assert (E1 : emits req_next_field RHeader RPath [(u "query", RQuery); (u "header", RHeader)]) by (eapply ECons; [reflexivity | exact E2]).
  assert (E0 : emits req_next_field RHeader RInit [(u "path", RPath); (u "query", RQuery); (u "header", RHeader)]) by (eapply ECons; [reflexivity | exact E1]).
  assert (VS : forall t s v s', req_value ep x hs t s = Ok (v, s') -> s' = s) by (intros; eapply req_value_phase; eassumption).
  assert (KS : forall k s s', req_skip ep x hs k s = Ok s' -> s' = s) by (intros; eapply req_skip_phase; eassumption).
  assert (SK : forall t k, safe (de_str_key t k)).
  { intros t k. destruct t; try exact I. cbn [de_str_key]. destruct (assoc k vs) as [[| | |]|]; exact I. }
  assert (M : forall k v e q l, emits req_next_field e q l -> (forall n r, In (n, r) l -> r <> RInit) -> forall f m, (length l < f)%nat ->
    safe (visit_map f (req_next_key k) (fun _ => Err Invalid) (req_value ep x hs v) m q)).
  { intros k v e q l E. induction E as [s N|s n q l N E IH]; intros Nl [|f] m L; try (exfalso; cbn in L; lia); cbn [visit_map].
    - unfold req_next_key at 1. rewrite N. cbn. exact I.
    - unfold req_next_key at 1. rewrite N. cbn [bind]. apply safe_bind.
      + apply safe_bind; [apply SK | intros; exact I].
      + intros [o s'] Eo. destruct (de_str_key k n) as [w| | |]; cbn [bind] in Eo; try discriminate. injection Eo as <- <-.
        apply safe_bind; [apply SV, (Nl n q); left; reflexivity|]. intros [y s''] Ey. apply VS in Ey. subst s''. apply IH; [|cbn in L; lia].
        intros n' r' I. apply (Nl n' r'). right. exact I. }
  intros t. unfold de_request. apply safe_bind; [|intros [? ?] _; exact I].
  assert (NI : forall n r, In (n, r) [(u "path", RPath); (u "query", RQuery); (u "header", RHeader)] -> r <> RInit)
    by (intros n r [[= <- <-]|[[= <- <-]|[[= <- <-]|[]]]]; discriminate).
  induction t; try exact I; cbn [de_request_from].
  - apply safe_bind; [exact IHt | intros [? ?] _; exact I].
  - apply safe_bind; [|intros [? ?] _; exact I]. eapply M; [exact E0 | exact NI | cbn; lia].
  - apply safe_bind; [|intros [? ?] _; exact I].
    eapply (chain_safe _ _ _ VS KS fs _ _ _ _ E0); [|cbn; lia].
    intros k q I. split; [apply SS, (NI _ _ I) | intros; apply SV, (NI _ _ I)].
Qed.
End Decode.

Section Proofs.
Context `{floatlib} `{urlenv} {Conn R : Type}.
Variable explain : request Conn -> ekind -> ustr * option ustr * option (list ustr).
Variable reason : status -> ustr.
Variable ln : link Conn.
Variable ps : list (hproc Conn R).
Notation tr := (build (registrations ps)).
Notation reply_to := (reply_to explain reason ln ps).
Notation on_request := (on_request explain reason ln tr).
Notation turn := (turn explain reason ln tr).
Notation rounds := (rounds explain reason ln tr).
Notation conversation := (conversation explain reason ln ps).

(** ** Answers (C28) *)
Definition of_answer (x : res (Conn * respb * bytes)) : reply :=
  match x with Ok (c, h, b) => Sends c h b | Err k => Refuses k | Panic | Diverge => Crashes end.
Definition reads_reply (x : res (fut (res (Conn * respb * bytes)))) : reply :=
  match x with Ok f => once (settle f) of_answer | Err k => Refuses k | Panic | Diverge => Crashes end.

Lemma refuse_is r p st : code_of st = problem_status p -> once (settle (refuse ln r p)) of_answer = refusal ln r st p.
Proof.
  intros C. unfold refuse, refusal. rewrite settle_bind. destruct (settle (l_drain ln r)) as [r'|e|]; try reflexivity. cbn [settle once].
  assert (L : problem_status p < 65536) by (rewrite <- C; destruct st; reflexivity).
  destruct (presp_sent (into_response p) (problem_status p) (N.of_nat (length (problem_text p))) eq_refl L) as [A _]. specialize (A st C).
  unfold serialize. unfold encode_response in A. destruct (ser_response (pr_value (into_response p)) sser_new) as [s| | |]; cbn [bind] in *; try discriminate.
  change (pr_body (into_response p)) with (problem_body p). rewrite problem_body_is. cbn [bind]. fold (problem_text p). rewrite A. reflexivity.
Qed.

Theorem on_request_is r : reads_reply (on_request r) = reply_to r.
Proof.
  unfold Server.on_request, ServerSpec.reply_to. destruct (parse_url (q_target r)) as [[[segs|] q]|].
  - unfold registrations. cbn [u_path]. rewrite routing_refines. cbn [bind]. destruct (route_spec _ _ _) as [p|[|]]; cbn [status_of].
    + unfold handle. destruct (de_request _ _ _ _) as [v|k| |]; try reflexivity.
      * cbn [reads_reply]. rewrite settle_bind. destruct (settle (hp_body p v r)) as [[r' y]|e|]; try reflexivity.
        rewrite settle_bind, settle_no_error. cbn [once]. destruct (nsettle (hp_call p y)) as [[v' b]|e|]; try reflexivity. cbn [settle once].
        unfold serialize, encode_response. destruct (ser_response v' sser_new) as [s|e| |]; cbn [bind]; try reflexivity.
        destruct (finish_response _ s) as [h|e| |]; reflexivity.
      * cbn [reads_reply]. unfold bad_request, invalid_request. destruct (explain r k) as [[t d] h]. apply refuse_is. reflexivity.
    + apply (refuse_is r (about_blank reason StNotFound) StNotFound). reflexivity.
    + apply (refuse_is r (about_blank reason StMethodNotAllowed) StMethodNotAllowed). reflexivity.
  - reflexivity.
  - cbn [reads_reply]. unfold bad_request, invalid_request. destruct (explain r Invalid) as [[t d] h]. apply refuse_is. reflexivity.
Qed.

Lemma refusal_not_crash r st p : refusal ln r st p <> Crashes.
Proof. unfold refusal. destruct (settle _); discriminate. Qed.
Theorem reply_panics_iff r : names_ok (q_headers r) = true ->
  (reply_to r = Crashes <-> exists x, parse_url (q_target r) = Some x /\ u_path x = None).
Proof.
  intros N. unfold ServerSpec.reply_to. destruct (parse_url (q_target r)) as [[[segs|] q]|].
  - split; [|intros (x & [= <-] & E); discriminate]. destruct (route_spec _ _ _) as [p|[|]].
    + pose proof (de_request_safe (hp_entry p) (mkUrl (Some segs) q) (q_headers r) N (hp_req p)) as S.
      destruct (de_request _ _ _ _) as [v|k| |]; try contradiction.
      * destruct (settle (hp_body p v r)) as [[r' y]|e|]; cbn [once]; try discriminate.
        destruct (nsettle (hp_call p y)) as [[v' b]|e|]; cbn [once]; try discriminate.
        pose proof (encode_response_safe v' (N.of_nat (length b))) as S'. destruct (encode_response _ _); try discriminate; contradiction.
      * intros E. elim (refusal_not_crash _ _ _ E).
    + intros E. elim (refusal_not_crash _ _ _ E).
    + intros E. elim (refusal_not_crash _ _ _ E).
  - split; [intros _; eexists; split; [reflexivity|reflexivity] | reflexivity].
  - split; [intros E; elim (refusal_not_crash _ _ _ E) | intros (x & [=] & _)].
Qed.

Theorem reply_statuses r r' :
  settle (l_drain ln r) = Comes r' ->
  let table := accepted (map (fun p => (hp_method p, hp_entry p, p)) ps) in
  (parse_url (q_target r) = None -> exists h b, reply_to r = Sends (q_conn r') h b /\ code_of (pb_status h) = 400) /\
  (forall segs q, parse_url (q_target r) = Some (mkUrl (Some segs) q) ->
     (route_spec table (q_method r) segs = inr NotFound -> exists h b, reply_to r = Sends (q_conn r') h b /\ code_of (pb_status h) = 404) /\
     (route_spec table (q_method r) segs = inr MethodNotAllowed -> exists h b, reply_to r = Sends (q_conn r') h b /\ code_of (pb_status h) = 405) /\
     (forall p k, route_spec table (q_method r) segs = inl p ->
        de_request (hp_entry p) (mkUrl (Some segs) q) (q_headers r) (hp_req p) = Err k ->
        exists h b, reply_to r = Sends (q_conn r') h b /\ code_of (pb_status h) = 400) /\
     (forall p v r1 y v1 b1 h1, route_spec table (q_method r) segs = inl p ->
        de_request (hp_entry p) (mkUrl (Some segs) q) (q_headers r) (hp_req p) = Ok v ->
        settle (hp_body p v r) = Comes (r1, y) -> nsettle (hp_call p y) = Comes (v1, b1) ->
        encode_response v1 (N.of_nat (length b1)) = Ok h1 -> reply_to r = Sends (q_conn r1) h1 b1)).
Proof.
  intros D. assert (Rf : forall st p, exists h b, refusal ln r st p = Sends (q_conn r') h b /\ pb_status h = st).
  { intros st p. unfold refusal. rewrite D. cbn [once]. do 2 eexists. split; reflexivity. }
  cbv zeta. unfold ServerSpec.reply_to, invalid_request. split.
  - intros E. rewrite E. destruct (Rf StBadRequest (Trackable (fst (fst (explain r Invalid))) 400 (snd (fst (explain r Invalid))) None (snd (explain r Invalid)))) as (h & b & A & B).
    exists h, b. rewrite B. auto.
  - intros segs q E. rewrite E. split; [|split; [|split]].
    + intros Rt. rewrite Rt. destruct (Rf StNotFound (AboutBlank (reason StNotFound) 404)) as (h & b & A & B). exists h, b. rewrite B. auto.
    + intros Rt. rewrite Rt. destruct (Rf StMethodNotAllowed (AboutBlank (reason StMethodNotAllowed) 405)) as (h & b & A & B). exists h, b. rewrite B. auto.
    + intros p k Rt De. rewrite Rt, De.
      destruct (Rf StBadRequest (Trackable (fst (fst (explain r k))) 400 (snd (fst (explain r k))) None (snd (explain r k)))) as (h & b & A & B). exists h, b. rewrite B. auto.
    + intros p v r1 y v1 b1 h1 Rt De Hb Hc En. rewrite Rt, De, Hb. cbn [once]. rewrite Hc. cbn [once]. rewrite En. reflexivity.
Qed.

(** Content-Length is that of the body (C31). *)
Theorem reply_length r c h b : reply_to r = Sends c h b -> exists hs, pb_headers h = hs ++ [content_length (N.of_nat (length b))].
Proof.
  assert (F : forall r st p, refusal ln r st p = Sends c h b -> exists hs, pb_headers h = hs ++ [content_length (N.of_nat (length b))]).
  { intros r0 st p. unfold refusal. destruct (settle _); cbn [once]; try discriminate. intros [= <- <- <-]. cbn [pb_headers].
    eexists [_]. reflexivity. }
  unfold ServerSpec.reply_to. destruct (parse_url (q_target r)) as [[[segs|] q]|]; [|discriminate|apply F].
  destruct (route_spec _ _ _) as [p|[|]]; [|apply F|apply F].
  destruct (de_request _ _ _ _) as [v|k| |]; try discriminate; [|apply F].
  destruct (settle (hp_body p v r)) as [[r' y]|e|]; cbn [once]; try discriminate.
  destruct (nsettle (hp_call p y)) as [[v' b']|e|]; cbn [once]; try discriminate.
  destruct (encode_response v' _) as [h'|e| |] eqn:E; try discriminate. intros [= <- <- <-].
  unfold encode_response, finish_response in E. destruct (ser_response v' sser_new) as [s|e| |]; cbn [bind] in E; try discriminate.
  destruct (ss_resp s) as [rb|]; try discriminate. injection E as <-. cbn [pb_headers]. eauto.
Qed.

(** ** One connection (C30) *)
Definition body_for (m : method) (b : bytes) : option bytes := match m with MHead => None | _ => Some b end.
Lemma body_for_is m b : (if method_eqb m MHead then None else Some b) = body_for m b.
Proof. destruct m; reflexivity. Qed.
Definition replied (n : nat) (m : method) (x : reply) : list (sact Conn) * ending :=
  match x with
  | Sends c h b => performing (AWrite h (body_for m b) c) (conversation n (l_write ln h (body_for m b) c))
  | Refuses k => ([], Failing k)
  | Crashes => ([], Crashed)
  | Hesitates => ([], Unfinished)
  end.
Definition rest_b (n : nat) (f : fut (option (request Conn))) : list (sact Conn) * ending :=
  then_ (settle f) (fun o => match o with None => ([], Closed) | Some r => replied n (q_method r) (reply_to r) end).
Definition left (n : nat) (t : task Conn) : list (sact Conn) * ending :=
  match t_phase t with
  | SpA f => conversation n f
  | SpB f => rest_b n f
  | SpC f => replied n (t_method t) (once (settle f) of_answer)
  end.
Lemma conversation_S n f : conversation (S n) f =
  then_ (settle f) (fun c => performing (ARead c) (rest_b n (fbind (l_read ln c) (or_else (Conn := Conn))))).
Proof.
  cbn [ServerSpec.conversation]. destruct (settle f) as [c|e|]; try reflexivity. cbn [then_]. f_equal. unfold rest_b. rewrite settle_bind.
  destruct (settle (l_read ln c)) as [a|e|]; try reflexivity. cbn [then_]. destruct a as [r|[| |]|]; try reflexivity.
Qed.

Definition extended (a : list (sact Conn)) (x : list (sact Conn) * ending) := (a ++ fst x, snd x).
Lemma turn_left n t : let '(a, s) := turn t in
  match s with
  | Goes t' | Sleeps t' => exists n', (n <= n' <= S n)%nat /\ left (S n) t = extended a (left n' t')
  | Ends => left (S n) t = (a, Closed)
  | Stops k => left (S n) t = (a, Failing k)
  | Dies => left (S n) t = (a, Crashed)
  end.
Proof.
  destruct t as [m [f|f|f]]; unfold Server.turn; cbn [t_phase t_method].
  - destruct f as [c|e|f|]; cbn [fpoll].
    + exists n. split; [lia|]. unfold left. cbn [t_phase]. rewrite conversation_S. reflexivity.
    + unfold left. cbn [t_phase]. rewrite conversation_S, phase_kind. reflexivity.
    + exists (S n). split; [lia|]. unfold left. cbn [t_phase]. rewrite !conversation_S. cbn [settle]. unfold extended. cbn [app]. apply surjective_pairing.
    + exists (S n). split; [lia|]. unfold left. cbn [t_phase]. rewrite !conversation_S. reflexivity.
  - destruct f as [[r|]|e|f|]; cbn [fpoll].
    + pose proof (on_request_is r) as Q. destruct (Server.on_request explain reason ln tr r) as [f|k| |]; cbn [reads_reply] in Q; unfold left, rest_b; cbn [t_phase t_method settle then_]; rewrite <- Q; try reflexivity.
      exists (S n). split; [lia|]. unfold extended. cbn [app]. apply surjective_pairing.
    + reflexivity.
    + unfold left, rest_b. cbn [t_phase settle then_]. rewrite phase_kind. reflexivity.
    + exists (S n). split; [lia|]. unfold left, rest_b. cbn [t_phase settle]. unfold extended. cbn [app]. apply surjective_pairing.
    + exists (S n). split; [lia|]. reflexivity.
  - destruct f as [[[[c h] b]|k| |]|e|f|]; cbn [fpoll]; try reflexivity.
    + rewrite body_for_is. exists (S n). split; [lia|]. unfold left. cbn [t_phase t_method settle once of_answer]. reflexivity.
    + exists (S n). split; [lia|]. unfold left. cbn [t_phase t_method settle]. unfold extended. cbn [app]. apply surjective_pairing.
    + exists (S n). split; [lia|]. reflexivity.
Qed.

Lemma rounds_left : forall k n t, (k <= n)%nat -> let '(a, s) := rounds k t in
  match ended s with
  | Some e => left n t = (a, e)
  | None => exists a', fst (left n t) = a ++ a'
  end.
Proof.
  induction k as [|k IH]; intros n t Ln; cbn [Server.rounds].
  - exists (fst (left n t)). reflexivity.
  - destruct n as [|n]; [lia|]. pose proof (turn_left n t) as Q. destruct (turn t) as [a [t'|t'| |e|]]; cbn [ended]; try exact Q;
      destruct Q as (n' & L' & E); specialize (IH n' t' ltac:(lia)); destruct (rounds k t') as [a' s]; cbn [ended] in *;
      destruct (ended s); rewrite E; unfold extended; cbn [fst snd].
    + rewrite IH. reflexivity.
    + destruct IH as [b Eb]. rewrite Eb. exists b. apply app_assoc.
    + rewrite IH. reflexivity.
    + destruct IH as [b Eb]. rewrite Eb. exists b. apply app_assoc.
Qed.

(** Waiting for a future to settle. *)
Lemma wait_a m : forall f k, match settle f with
  | Comes c => rounds (delay f + k) (mkTask m (SpA f)) = rounds k (mkTask m (SpA (Ready c)))
  | Breaks e => rounds (delay f + k) (mkTask m (SpA f)) = rounds k (mkTask m (SpA (Failed e)))
  | Hangs => True end.
Proof.
  induction f as [x|e|f IH|]; intros k; cbn [settle delay Nat.add]; try reflexivity. specialize (IH k).
  cbn [Server.rounds]. change (turn (mkTask m (SpA (Later f)))) with ([] : list (sact Conn), Sleeps (mkTask m (SpA f))). cbn [app].
  destruct (settle f); auto; rewrite IH; destruct (rounds k _); reflexivity.
Qed.
Lemma wait_b m : forall f k, match settle f with
  | Comes c => rounds (delay f + k) (mkTask m (SpB f)) = rounds k (mkTask m (SpB (Ready c)))
  | Breaks e => rounds (delay f + k) (mkTask m (SpB f)) = rounds k (mkTask m (SpB (Failed e)))
  | Hangs => True end.
Proof.
  induction f as [x|e|f IH|]; intros k; cbn [settle delay Nat.add]; try reflexivity. specialize (IH k).
  cbn [Server.rounds]. change (turn (mkTask m (SpB (Later f)))) with ([] : list (sact Conn), Sleeps (mkTask m (SpB f))). cbn [app].
  destruct (settle f); auto; rewrite IH; destruct (rounds k _); reflexivity.
Qed.
Lemma wait_c m : forall f k, match settle f with
  | Comes c => rounds (delay f + k) (mkTask m (SpC f)) = rounds k (mkTask m (SpC (Ready c)))
  | Breaks e => rounds (delay f + k) (mkTask m (SpC f)) = rounds k (mkTask m (SpC (Failed e)))
  | Hangs => True end.
Proof.
  induction f as [x|e|f IH|]; intros k; cbn [settle delay Nat.add]; try reflexivity. specialize (IH k).
  cbn [Server.rounds]. change (turn (mkTask m (SpC (Later f)))) with ([] : list (sact Conn), Sleeps (mkTask m (SpC f))). cbn [app].
  destruct (settle f); auto; rewrite IH; destruct (rounds k _); reflexivity.
Qed.

(** Enough rounds perform the conversation. *)
Definition reaches (x : list (sact Conn) * ending) (t : task Conn) : Prop :=
  exists k a', fst (rounds k t) = fst x ++ a' /\ (snd x <> Unfinished -> a' = [] /\ ended (snd (rounds k t)) = Some (snd x)).
Lemma reaches_nil t : reaches ([], Unfinished) t.
Proof. exists 0%nat, []. split; [reflexivity|]. intros X. elim X. reflexivity. Qed.
Lemma reaches_goes a x t t' : turn t = (a, Goes t') -> reaches x t' -> reaches (extended a x) t.
Proof.
  intros E (k & b & A & B). exists (S k), b. cbn [Server.rounds]. rewrite E. destruct (rounds k t') as [a' s]. unfold extended. cbn [fst snd] in *. rewrite A, app_assoc. auto.
Qed.
Lemma reaches_wait d t t' x : (forall k, rounds (d + k) t = rounds k t') -> reaches x t' -> reaches x t.
Proof. intros E (k & b & A & B). exists (d + k)%nat, b. rewrite E. auto. Qed.
Lemma reaches_end e s t : turn t = ([], s) -> ended s = Some e -> reaches ([], e) t.
Proof. intros E Es. exists 1%nat, []. cbn [Server.rounds]. rewrite E. destruct s; try discriminate; auto. Qed.

Lemma conversation_reached : forall n f m, reaches (conversation n f) (mkTask m (SpA f)).
Proof.
  induction n as [|n IH]; intros f m; [apply reaches_nil|]. rewrite conversation_S.
  pose proof (wait_a m f) as W. destruct (settle f) as [c|e|]; cbn [then_]; [|eapply reaches_wait; [exact W|]; eapply reaches_end; [reflexivity | reflexivity] | apply reaches_nil].
  eapply reaches_wait; [exact W|]. change (performing ?x ?y) with (extended [x] y). eapply reaches_goes; [reflexivity|]. cbn [t_method].
  generalize (fbind (l_read ln c) (or_else (Conn := Conn))). intros g. clear W. pose proof (wait_b m g) as W. unfold rest_b.
  destruct (settle g) as [o|e|]; cbn [then_]; [|eapply reaches_wait; [exact W|]; eapply reaches_end; [reflexivity | reflexivity] | apply reaches_nil].
  eapply reaches_wait; [exact W|]. destruct o as [r|]; [|eapply reaches_end; reflexivity].
  pose proof (on_request_is r) as Q. destruct (on_request r) as [h|k| |] eqn:E; cbn [reads_reply] in Q; rewrite <- Q; cbn [replied].
  - change (replied n (q_method r) (once (settle h) of_answer)) with (extended [] (replied n (q_method r) (once (settle h) of_answer))) || idtac.
    replace (replied n (q_method r) (once (settle h) of_answer)) with (extended [] (replied n (q_method r) (once (settle h) of_answer)))
      by (unfold extended; cbn [app]; symmetry; apply surjective_pairing).
    eapply reaches_goes; [unfold Server.turn; cbn [t_phase fpoll]; rewrite E; reflexivity|]. clear W Q E.
    pose proof (wait_c (q_method r) h) as W. destruct (settle h) as [y|e|]; cbn [once replied]; [|eapply reaches_wait; [exact W|]; eapply reaches_end; [reflexivity | reflexivity] | apply reaches_nil].
    eapply reaches_wait; [exact W|]. destruct y as [[[c' h'] b]|k| |]; cbn [of_answer replied].
    + change (performing ?x ?y) with (extended [x] y). eapply reaches_goes; [unfold Server.turn; cbn [t_phase fpoll t_method]; rewrite body_for_is; reflexivity|]. apply IH.
    + eapply reaches_end; reflexivity.
    + eapply reaches_end; reflexivity.
    + eapply reaches_end; reflexivity.
  - eapply reaches_end; [unfold Server.turn; cbn [t_phase fpoll]; rewrite E; reflexivity | reflexivity].
  - eapply reaches_end; [unfold Server.turn; cbn [t_phase fpoll]; rewrite E; reflexivity | reflexivity].
  - eapply reaches_end; [unfold Server.turn; cbn [t_phase fpoll]; rewrite E; reflexivity | reflexivity].
Qed.

(** The conversation is a dialogue, and so is all that is seen of it. *)
Lemma conversation_dialogue : forall n f, dialogue explain reason ln ps f (fst (conversation n f)).
Proof.
  induction n as [|n IH]; intros f; [constructor|]. cbn [ServerSpec.conversation]. destruct (settle f) as [c|e|] eqn:E1; try constructor. cbn [then_ performing fst].
  destruct (settle (l_read ln c)) as [a|e|] eqn:E2; try (constructor; exact E1). cbn [then_]. destruct a as [r|[| |]|]; try (constructor; exact E1).
  destruct (reply_to r) as [c' h b|k| |] eqn:E3; try (constructor; exact E1). cbn [performing fst]. econstructor; try eassumption; [reflexivity | apply IH].
Qed.
Lemma dialogue_prefix f l : dialogue explain reason ln ps f l -> forall a a', l = a ++ a' -> dialogue explain reason ln ps f a.
Proof.
  induction 1 as [f|f c E|f c r c' h b body l E1 E2 E3 E4 D IH]; intros a a' Q.
  - destruct a; [constructor | discriminate].
  - destruct a as [|x [|y a]]; try discriminate; [constructor|]. injection Q as <- _. constructor. exact E.
  - destruct a as [|x [|y a]]; [constructor| |].
    + injection Q as <- _. constructor. exact E1.
    + injection Q as <- <- Q. econstructor; try eassumption. eapply IH. exact Q.
Qed.
Theorem rounds_dialogue k f : dialogue explain reason ln ps f (fst (rounds k (task_new f))).
Proof.
  pose proof (rounds_left k k (task_new f) ltac:(lia)) as Q. pose proof (conversation_dialogue k f) as D. destruct (rounds k (task_new f)) as [a s]. cbn [fst].
  destruct (ended s) as [e|].
  - change (left k (task_new f)) with (conversation k f) in Q. rewrite Q in D. exact D.
  - destruct Q as [a' Q]. eapply dialogue_prefix; [exact D | exact Q].
Qed.
Theorem rounds_conversation k n f : (k <= n)%nat -> let '(a, s) := rounds k (task_new f) in
  match ended s with
  | Some e => conversation n f = (a, e)
  | None => exists a', fst (conversation n f) = a ++ a'
  end.
Proof. exact (rounds_left k n (task_new f)). Qed.
Theorem conversation_rounds n f : exists k a', fst (rounds k (task_new f)) = fst (conversation n f) ++ a' /\
  (snd (conversation n f) <> Unfinished -> a' = [] /\ ended (snd (rounds k (task_new f))) = Some (snd (conversation n f))).
Proof. exact (conversation_reached n f MGet). Qed.

(** A poll is a number of rounds. *)
Lemma poll_rounds : forall fuel t, let '(a, s) := poll_task explain reason ln tr fuel t in
  match s with
  | Ok (Sleeps t') => exists k, rounds k t = (a, Goes t')
  | Ok s => exists k, rounds k t = (a, s) /\ ended s <> None
  | Diverge => exists t', rounds fuel t = (a, Goes t')
  | _ => False
  end.
Proof.
  induction fuel as [|fuel IH]; intros t; cbn [poll_task]; [exists t; reflexivity|].
  destruct (turn t) as [a [t'|t'| |e|]] eqn:E.
  - specialize (IH t'). destruct (poll_task explain reason ln tr fuel t') as [a' [[t''|t''| |e|]| | |]]; try contradiction;
      try (destruct IH as (k & IH & N); exists (S k); split; [|exact N]; cbn [Server.rounds]; rewrite E, IH; reflexivity).
    + destruct IH as (k & IH). exists (S k). cbn [Server.rounds]. rewrite E, IH. reflexivity.
    + destruct IH as [t'' IH]. exists t''. cbn [Server.rounds]. rewrite E, IH. reflexivity.
  - exists 1%nat. cbn [Server.rounds]. rewrite E, app_nil_r. reflexivity.
  - exists 1%nat. cbn [Server.rounds]. rewrite E. split; [reflexivity | discriminate].
  - exists 1%nat. cbn [Server.rounds]. rewrite E. split; [reflexivity | discriminate].
  - exists 1%nat. cbn [Server.rounds]. rewrite E. split; [reflexivity | discriminate].
Qed.
Lemma rounds_S k t : rounds (S k) t =
  match turn t with (a, Goes t) | (a, Sleeps t) => let '(a', s) := rounds k t in (a ++ a', s) | (a, s) => (a, s) end.
Proof. reflexivity. Qed.
Lemma rounds_snoc : forall k t, rounds (S k) t = let '(a, s) := rounds k t in
  match s with Goes t' | Sleeps t' => let '(a', s') := turn t' in (a ++ a', match s' with Sleeps t => Goes t | s => s end) | s => (a, s) end.
Proof.
  induction k as [|k IH]; intros t.
  - cbn [Server.rounds]. destruct (turn t) as [a [t'|t'| |e|]]; cbn [app]; rewrite ?app_nil_r; reflexivity.
  - rewrite (rounds_S (S k) t), (rounds_S k t). destruct (turn t) as [a [t'|t'| |e|]]; try reflexivity; rewrite IH; destruct (rounds k t') as [a' [t''|t''| |e|]]; try reflexivity;
      destruct (turn t'') as [a'' s'']; rewrite app_assoc; reflexivity.
Qed.

Lemma rounds_over k j t : ended (snd (rounds k t)) <> None -> rounds (j + k) t = rounds k t.
Proof.
  intros E. induction j as [|j IH]; [reflexivity|]. cbn [Nat.add]. rewrite rounds_snoc, IH. destruct (rounds k t) as [a [t'|t'| |e|]]; try reflexivity; elim E; reflexivity.
Qed.

(** ** Framing (C31) *)
Lemma dialogue_writes f l : dialogue explain reason ln ps f l -> forall h body c', In (AWrite h body c') l ->
  exists c r b, settle (l_read ln c) = Comes (Got r) /\ reply_to r = Sends c' h b /\ body = body_for (q_method r) b.
Proof.
  induction 1 as [f|f c E|f c r c' h b body l E1 E2 E3 E4 D IH]; intros h0 body0 c0 I.
  - contradiction.
  - destruct I as [I|[]]. discriminate.
  - destruct I as [I|[I|I]]; [discriminate| |apply IH, I]. injection I as <- <- <-. exists c, r, b. auto.
Qed.
Theorem writes_framed k connected h body c' : In (AWrite h body c') (fst (rounds k (task_new connected))) ->
  exists c r b, settle (l_read ln c) = Comes (Got r) /\ reply_to r = Sends c' h b /\
    (exists hs, pb_headers h = hs ++ [content_length (N.of_nat (length b))]) /\
    (q_method r = MHead -> body = None) /\ (q_method r <> MHead -> body = Some b).
Proof.
  intros I. destruct (dialogue_writes _ _ (rounds_dialogue k connected) _ _ _ I) as (c & r & b & A & B & C). exists c, r, b.
  split; [exact A|]. split; [exact B|]. split; [eapply reply_length; exact B|]. rewrite C. split; [intros ->; reflexivity|]. destruct (q_method r); auto; congruence.
Qed.

(** ** The accept loop (C32) *)
Context {L : Type}.
Variable incoming : L -> fut (option (fut Conn) * L).
Fixpoint arounds (n : nat) (a : aphase Conn L) : list (task Conn) * astep Conn L :=
  match n with
  | O => ([], AGoes a)
  | S n => match accept_turn incoming a with (ts, AGoes a) | (ts, ASleeps a) => let '(ts', s) := arounds n a in (ts ++ ts', s) | (ts, s) => (ts, s) end
  end.
Definition aleft (n : nat) (a : aphase Conn L) : list (fut Conn) * closing :=
  match a with AcA f => accepting incoming n f | AcB f => clients incoming n f end.
Lemma accept_left n a : let '(ts, s) := accept_turn incoming a in exists cs, ts = map task_new cs /\
  match s with
  | AGoes a' | ASleeps a' => exists n', (n <= n' <= S n)%nat /\ aleft (S n) a = (cs ++ fst (aleft n' a'), snd (aleft n' a'))
  | AStops k => aleft (S n) a = (cs, Broken k)
  end.
Proof.
  destruct a as [f|f]; cbn [accept_turn].
  - destruct f as [l|e|f|]; cbn [fpoll]; exists []; (split; [reflexivity|]); cbn [aleft app]; unfold accepting; cbn [settle].
    + exists (S n). split; [lia|]. apply surjective_pairing.
    + rewrite phase_kind. reflexivity.
    + exists (S n). split; [lia|]. destruct (settle f); try reflexivity. apply surjective_pairing.
    + exists (S n). split; [lia|]. reflexivity.
  - destruct f as [[[c|] l]|e|f|]; cbn [fpoll].
    + exists [c]. split; [reflexivity|]. exists n. split; [lia|]. reflexivity.
    + exists []. split; reflexivity.
    + exists []. rewrite phase_kind. split; reflexivity.
    + exists []. split; [reflexivity|]. exists (S n). split; [lia|]. cbn [aleft clients settle app]. apply surjective_pairing.
    + exists []. split; [reflexivity|]. exists (S n). split; [lia|]. reflexivity.
Qed.
Lemma arounds_left : forall k n a, (k <= n)%nat -> let '(ts, s) := arounds k a in exists cs, ts = map task_new cs /\
  match s with
  | AGoes _ | ASleeps _ => exists cs', fst (aleft n a) = cs ++ cs'
  | AStops e => aleft n a = (cs, Broken e)
  end.
Proof.
  induction k as [|k IH]; intros n a Ln; cbn [arounds].
  - exists []. split; [reflexivity|]. exists (fst (aleft n a)). reflexivity.
  - destruct n as [|n]; [lia|]. pose proof (accept_left n a) as Q. destruct (accept_turn incoming a) as [ts [a'|a'|e]]; [| |exact Q];
      destruct Q as (cs & Ts & n' & L' & E); specialize (IH n' a' ltac:(lia)); destruct (arounds k a') as [ts' s]; destruct IH as (cs' & Ts' & IH);
      exists (cs ++ cs'); (split; [rewrite map_app; congruence|]); destruct s; rewrite E; cbn [fst snd]; try (rewrite IH; reflexivity);
      destruct IH as [d IH]; rewrite IH; exists d; apply app_assoc.
Qed.
Lemma arounds_S k a : arounds (S k) a =
  match accept_turn incoming a with (ts, AGoes a) | (ts, ASleeps a) => let '(ts', s) := arounds k a in (ts ++ ts', s) | (ts, s) => (ts, s) end.
Proof. reflexivity. Qed.
Definition aview (s : astep Conn L) : astep Conn L := match s with ASleeps a => AGoes a | s => s end.
Definition tview (s : sstep Conn) : sstep Conn := match s with Sleeps a => Goes a | s => s end.
Lemma arounds_snoc : forall k a, arounds (S k) a = let '(ts, s) := arounds k a in
  match s with AGoes a' | ASleeps a' => let '(ts', s') := accept_turn incoming a' in (ts ++ ts', aview s') | s => (ts, s) end.
Proof.
  induction k as [|k IH]; intros a.
  - cbn [arounds]. destruct (accept_turn incoming a) as [ts [a'|a'|e]]; cbn [app aview]; rewrite ?app_nil_r; reflexivity.
  - rewrite (arounds_S (S k) a), (arounds_S k a). destruct (accept_turn incoming a) as [ts [a'|a'|e]]; try reflexivity;
      rewrite IH; destruct (arounds k a') as [ts' [a''|a''|e]]; try reflexivity; destruct (accept_turn incoming a'') as [ts'' s'']; rewrite app_assoc; reflexivity.
Qed.

(** Enough rounds accept all the clients that come. *)
Lemma await_b : forall f k, match settle f with
  | Comes c => arounds (delay f + k) (AcB f) = arounds k (AcB (Ready c))
  | Breaks e => arounds (delay f + k) (AcB f) = arounds k (AcB (Failed e))
  | Hangs => True end.
Proof.
  induction f as [x|e|f IH|]; intros k; cbn [settle delay Nat.add]; try reflexivity. specialize (IH k).
  rewrite arounds_S. cbn [accept_turn fpoll app]. destruct (settle f); auto; rewrite IH; destruct (arounds k _); reflexivity.
Qed.
Lemma await_a : forall f k, match settle f with
  | Comes c => arounds (delay f + k) (AcA f) = arounds k (AcA (Ready c))
  | Breaks e => arounds (delay f + k) (AcA f) = arounds k (AcA (Failed e))
  | Hangs => True end.
Proof.
  induction f as [x|e|f IH|]; intros k; cbn [settle delay Nat.add]; try reflexivity. specialize (IH k).
  rewrite arounds_S. cbn [accept_turn fpoll app]. destruct (settle f); auto; rewrite IH; destruct (arounds k _); reflexivity.
Qed.
Definition closes (s : astep Conn L) : option closing := match s with AStops k => Some (Broken k) | _ => None end.
Definition areaches (x : list (fut Conn) * closing) (a : aphase Conn L) : Prop :=
  exists k ts', fst (arounds k a) = map task_new (fst x) ++ ts' /\ (snd x <> Open -> ts' = [] /\ closes (snd (arounds k a)) = Some (snd x)).
Lemma areaches_nil a : areaches ([], Open) a.
Proof. exists 0%nat, []. split; [reflexivity|]. intros X. elim X. reflexivity. Qed.
Lemma areaches_wait d a a' x : (forall k, arounds (d + k) a = arounds k a') -> areaches x a' -> areaches x a.
Proof. intros E (k & b & A & B). exists (d + k)%nat, b. rewrite E. auto. Qed.
Lemma areaches_stop k a : accept_turn incoming a = ([], AStops k) -> areaches ([], Broken k) a.
Proof. intros E. exists 1%nat, []. rewrite arounds_S, E. auto. Qed.
Lemma clients_reached : forall n f, areaches (clients incoming n f) (AcB f).
Proof.
  induction n as [|n IH]; intros f; [apply areaches_nil|]. cbn [clients]. pose proof (await_b f) as W.
  destruct (settle f) as [[[c|] l]|e|]; [| | |apply areaches_nil].
  - eapply areaches_wait; [exact W|]. destruct (IH (incoming l)) as (k & ts & A & B). exists (S k), ts. rewrite arounds_S. cbn [accept_turn fpoll].
    destruct (arounds k (AcB (incoming l))) as [ts' s]. cbn [fst snd map app] in *. split; [congruence | exact B].
  - eapply areaches_wait; [exact W|]. apply areaches_stop. reflexivity.
  - eapply areaches_wait; [exact W|]. replace (error_of e) with (error_of (FromPhase IxB e)) by apply phase_kind. apply areaches_stop. reflexivity.
Qed.
Lemma accepting_reached n f : areaches (accepting incoming n f) (AcA f).
Proof.
  unfold accepting. pose proof (await_a f) as W. destruct (settle f) as [l|e|]; [| |apply areaches_nil]; (eapply areaches_wait; [exact W|]).
  - destruct (clients_reached n (incoming l)) as (k & ts & A & B). exists (S k), ts. rewrite arounds_S. cbn [accept_turn fpoll].
    destruct (arounds k (AcB (incoming l))) as [ts' s]. cbn [fst snd app] in *. split; assumption.
  - replace (error_of e) with (error_of (FromPhase IxA e)) by apply phase_kind. apply areaches_stop. reflexivity.
Qed.

(** ** Everything together *)
Notation serve_step := (serve_step explain reason ln incoming tr).
Notation serve_run := (serve_run explain reason ln incoming tr).
Definition is_acceptor (w : who) : bool := match w with Acceptor => true | Connection _ => false end.
Definition is_conn (i : nat) (w : who) : bool := match w with Acceptor => false | Connection j => Nat.eqb i j end.
Definition turns (f : who -> bool) (sched : list who) : nat := length (filter f sched).
Definition acts_of (i : nat) (ev : list (event Conn)) : list (sact Conn) :=
  flat_map (fun e => match e with EAct j a => if Nat.eqb i j then [a] else [] | ESpawn _ => [] end) ev.

Lemma acts_of_app i a b : acts_of i (a ++ b) = acts_of i a ++ acts_of i b.
Proof. apply flat_map_app. Qed.
Lemma acts_same i a : acts_of i (map (EAct i) a) = a.
Proof. induction a as [|x a IH]; [reflexivity|]. cbn. rewrite Nat.eqb_refl. cbn. f_equal. exact IH. Qed.
Lemma acts_other i j a : i <> j -> acts_of i (map (EAct j) a) = [].
Proof. intros N. induction a as [|x a IH]; [reflexivity|]. cbn. rewrite (proj2 (Nat.eqb_neq i j) N). exact IH. Qed.
Lemma acts_spawn i (f : nat -> nat) l : acts_of i (map (fun j => ESpawn (f j)) l) = [].
Proof. induction l; auto. Qed.
Lemma nth_update {A} (x : A) : forall l i j, nth_error (update i x l) j = if Nat.eqb i j then match nth_error l j with Some _ => Some x | None => None end else nth_error l j.
Proof.
  induction l as [|y l IH]; intros [|i] [|j]; cbn; try reflexivity.
  - destruct (Nat.eqb i j); reflexivity.
  - apply IH.
Qed.
Lemma length_update {A} (x : A) : forall l i, length (update i x l) = length l.
Proof. induction l as [|y l IH]; intros [|i]; cbn; auto. Qed.

(** One step of the system is one of the accept loop, or one of one connection. *)
Theorem task_from : forall sched s i t k a st, nth_error (v_tasks s) i = Some st -> rounds k t = (a, tview st) ->
    let '(ev, s') := serve_run sched s in
    exists st', nth_error (v_tasks s') i = Some st' /\ rounds (turns (is_conn i) sched + k) t = (a ++ acts_of i ev, tview st').
Proof.
  induction sched as [|w sched IH]; intros s i t k a st N Q; cbn [Server.serve_run].
    - exists st. rewrite app_nil_r. auto.
    - assert (S1 : let '(ev, s1) := serve_step w s in exists st1, nth_error (v_tasks s1) i = Some st1 /\
                 rounds ((if is_conn i w then 1 else 0) + k) t = (a ++ acts_of i ev, tview st1)).
      { destruct w as [|j]; cbn [Server.serve_step is_conn].
        - destruct (v_accept s) as [b|b|b].
          + destruct (accept_turn incoming b) as [ts b']. exists st. cbn [v_tasks]. rewrite nth_error_app1 by (apply nth_error_Some; congruence).
            rewrite acts_spawn, app_nil_r. auto.
          + destruct (accept_turn incoming b) as [ts b']. exists st. cbn [v_tasks]. rewrite nth_error_app1 by (apply nth_error_Some; congruence).
            rewrite acts_spawn, app_nil_r. auto.
          + exists st. cbn. rewrite app_nil_r. auto.
        - destruct (Nat.eqb i j) eqn:Ej.
          + apply Nat.eqb_eq in Ej. subst j. rewrite N. change (1 + k)%nat with (S k). rewrite rounds_snoc, Q.
            destruct st as [t'|t'| |e|]; cbn [tview].
            * destruct (turn t') as [a' s']. exists s'. cbn [v_tasks]. rewrite nth_update, Nat.eqb_refl, N, acts_same. destruct s'; auto.
            * destruct (turn t') as [a' s']. exists s'. cbn [v_tasks]. rewrite nth_update, Nat.eqb_refl, N, acts_same. destruct s'; auto.
            * eexists. split; [exact N|]. cbn. rewrite app_nil_r. reflexivity.
            * eexists. split; [exact N|]. cbn. rewrite app_nil_r. reflexivity.
            * eexists. split; [exact N|]. cbn. rewrite app_nil_r. reflexivity.
          + apply Nat.eqb_neq in Ej.
            assert (Y : forall t', let '(a0, st0) := turn t' in exists st1, nth_error (v_tasks (mkServer (v_accept s) (update j st0 (v_tasks s)))) i = Some st1 /\
                        rounds (0 + k) t = (a ++ acts_of i (map (EAct j) a0), tview st1)).
            { intros t'. destruct (turn t') as [a' s']. exists st. cbn [v_tasks]. rewrite nth_update, (proj2 (Nat.eqb_neq j i)), (acts_other i j) by congruence. rewrite app_nil_r. auto. }
            destruct (nth_error (v_tasks s) j) as [[t'|t'| |e|]|]; try (exists st; cbn; rewrite app_nil_r; auto; fail);
              specialize (Y t'); destruct (turn t'); exact Y. }
      destruct (serve_step w s) as [ev s1]. destruct S1 as (st1 & N1 & Q1). specialize (IH s1 i t _ _ st1 N1 Q1).
      destruct (serve_run sched s1) as [ev' s']. destruct IH as (st' & N' & Q'). exists st'. split; [exact N'|].
      rewrite acts_of_app, app_assoc, <- Q'. f_equal. unfold turns. cbn [filter]. destruct (is_conn i w); cbn [length]; lia.
Qed.
Theorem task_alone : forall sched s i t, nth_error (v_tasks s) i = Some (Goes t) ->
  let '(ev, s') := serve_run sched s in
  exists st, nth_error (v_tasks s') i = Some st /\ rounds (turns (is_conn i) sched) t = (acts_of i ev, tview st).
Proof.
  intros sched s i t N. pose proof (task_from sched s i t 0%nat [] (Goes t) N eq_refl) as X. destruct (serve_run sched s) as [ev s'].
  rewrite Nat.add_0_r in X. exact X.
Qed.

Definition spawned (ev : list (event Conn)) : list nat := flat_map (fun e => match e with ESpawn i => [i] | EAct _ _ => [] end) ev.
Lemma spawned_app a b : spawned (a ++ b) = spawned a ++ spawned b.
Proof. apply flat_map_app. Qed.
Lemma spawned_acts j (a : list (sact Conn)) : spawned (map (EAct j) a) = [].
Proof. induction a; auto. Qed.
Lemma spawned_new m n : spawned (map (fun i => ESpawn (m + i)) (seq 0 n)) = seq m n.
Proof.
  assert (G : forall o, spawned (map (fun i => ESpawn (m + i)) (seq o n)) = seq (m + o) n).
  { induction n as [|n IHn]; intros o; [reflexivity|]. cbn. f_equal. specialize (IHn (S o)). unfold spawned in IHn. rewrite IHn. f_equal. lia. }
  rewrite G. f_equal. lia.
Qed.

(** The state of everything: the accept loop run by itself, and connection [i], the task of the [i]-th client, by itself. *)
Definition apart (bind : fut L) (k : nat) (ev : list (event Conn)) (s : server Conn L) : Prop :=
  exists ts, arounds k (AcA bind) = (ts, aview (v_accept s)) /\ spawned ev = seq 0 (length ts) /\ length (v_tasks s) = length ts /\
    (forall i, (length ts <= i)%nat -> acts_of i ev = []) /\
    forall i t, nth_error ts i = Some t -> exists st n, nth_error (v_tasks s) i = Some st /\ rounds n t = (acts_of i ev, tview st).
Lemma apart_step bind k ev s w : apart bind k ev s ->
  let '(e, s') := serve_step w s in apart bind ((if is_acceptor w then 1 else 0) + k) (ev ++ e) s'.
Proof.
  intros (ts & A & Sp & Lt & Z & T). destruct w as [|j]; cbn [Server.serve_step is_acceptor].
  - assert (Y : forall b, aview (v_accept s) = AGoes b -> let '(t1, b') := accept_turn incoming b in
      apart bind (1 + k) (ev ++ map (fun i => ESpawn (length (v_tasks s) + i)) (seq 0 (length t1))) (mkServer b' (v_tasks s ++ map Goes t1))).
    { intros b Eb. destruct (accept_turn incoming b) as [t1 b'] eqn:Et. exists (ts ++ t1). split; [|split; [|split; [|split]]].
      - change (1 + k)%nat with (S k). rewrite arounds_snoc, A, Eb, Et. reflexivity.
      - rewrite spawned_app, spawned_new, Sp, Lt, app_length, seq_app. reflexivity.
      - cbn [v_tasks]. rewrite !app_length, map_length. lia.
      - intros i Gi. rewrite app_length in Gi. rewrite acts_of_app, acts_spawn, Z by lia. reflexivity.
      - intros i t Ni. rewrite acts_of_app, acts_spawn, app_nil_r. cbn [v_tasks]. destruct (Nat.lt_ge_cases i (length ts)) as [Li|Gi].
        + rewrite nth_error_app1 in Ni by lia. rewrite nth_error_app1 by lia. apply T, Ni.
        + rewrite nth_error_app2 in Ni by lia. rewrite nth_error_app2, Lt, nth_error_map, Ni by lia. exists (Goes t), 0%nat. split; [reflexivity|].
          rewrite Z by lia. reflexivity. }
    destruct (v_accept s) as [b|b|e] eqn:Ea.
    + specialize (Y b eq_refl). destruct (accept_turn incoming b). exact Y.
    + specialize (Y b eq_refl). destruct (accept_turn incoming b). exact Y.
    + rewrite app_nil_r. exists ts. change (1 + k)%nat with (S k). rewrite arounds_snoc, A, Ea. cbn [aview]. auto.
  - assert (Y : forall st0 t', nth_error (v_tasks s) j = Some st0 -> tview st0 = Goes t' -> let '(a0, st) := turn t' in
      apart bind (0 + k) (ev ++ map (EAct j) a0) (mkServer (v_accept s) (update j st (v_tasks s)))).
    { intros st0 t' Nj V. destruct (turn t') as [a0 st] eqn:Et. exists ts. cbn [v_accept v_tasks]. rewrite spawned_app, spawned_acts, app_nil_r, length_update.
      split; [exact A|]. split; [exact Sp|]. split; [exact Lt|]. split.
      - intros i Gi. rewrite acts_of_app, Z by exact Gi. apply acts_other. intros <-. assert (nth_error (v_tasks s) i <> None) as Q by congruence.
        apply nth_error_Some in Q. lia.
      - intros i t Ni. destruct (T i t Ni) as (st1 & n & N1 & R1). rewrite nth_update, acts_of_app. destruct (Nat.eqb_spec j i) as [->|Ne].
        + rewrite N1, acts_same. rewrite Nj in N1. injection N1 as <-. exists st, (S n). split; [reflexivity|].
          rewrite rounds_snoc, R1, V, Et. reflexivity.
        + rewrite acts_other, app_nil_r by congruence. eauto. }
    assert (St : apart bind (0 + k) (ev ++ []) s) by (rewrite app_nil_r; exists ts; auto).
    destruct (nth_error (v_tasks s) j) as [[t'|t'| |e|]|]; try exact St.
    + specialize (Y _ t' eq_refl eq_refl). destruct (turn t'). exact Y.
    + specialize (Y _ t' eq_refl eq_refl). destruct (turn t'). exact Y.
Qed.
Theorem all_apart bind sched : let '(ev, s) := serve_run sched (server_new bind) in apart bind (turns is_acceptor sched) ev s.
Proof.
  assert (X : forall sched k ev s, apart bind k ev s -> let '(ev', s') := serve_run sched s in apart bind (turns is_acceptor sched + k) (ev ++ ev') s').
  { induction sched0 as [|w l IH]; intros k ev s P; cbn [Server.serve_run]; [rewrite app_nil_r; exact P|].
    pose proof (apart_step bind k ev s w P) as Q. destruct (serve_step w s) as [e s1]. specialize (IH _ _ _ Q). destruct (serve_run l s1) as [e' s'].
    rewrite <- app_assoc in IH. replace (turns is_acceptor (w :: l) + k)%nat with (turns is_acceptor l + ((if is_acceptor w then 1 else 0) + k))%nat; [exact IH|].
    unfold turns. cbn [filter]. destruct (is_acceptor w); cbn [length]; lia. }
  specialize (X sched 0%nat [] (server_new bind)). destruct (serve_run sched (server_new bind)) as [ev s]. rewrite Nat.add_0_r in X. apply X.
  exists []. repeat split; auto. intros [|i] t; discriminate.
Qed.

(** What was accepted, against the specification. *)
Theorem spawns_clients bind sched n : (turns is_acceptor sched <= n)%nat ->
  let '(ev, s) := serve_run sched (server_new bind) in
  exists cs, spawned ev = seq 0 (length cs) /\ length (v_tasks s) = length cs /\
    match v_accept s with
    | AStops k => accepting incoming n bind = (cs, Broken k)
    | _ => exists cs', fst (accepting incoming n bind) = cs ++ cs'
    end /\
    forall i c, nth_error cs i = Some c -> exists st k, nth_error (v_tasks s) i = Some st /\ rounds k (task_new c) = (acts_of i ev, tview st).
Proof.
  intros Ln. pose proof (all_apart bind sched) as P. destruct (serve_run sched (server_new bind)) as [ev s]. destruct P as (ts & A & Sp & Lt & _ & T).
  pose proof (arounds_left _ n (AcA bind) Ln) as Q. rewrite A in Q. destruct Q as (cs & -> & Q). exists cs. rewrite map_length in *.
  split; [exact Sp|]. split; [exact Lt|]. split; [destruct (v_accept s); exact Q|].
  intros i c Ni. apply T. rewrite nth_error_map, Ni. reflexivity.
Qed.
End Proofs.

(** A refusal of the server arrives as the problem it is (C44). *)
Theorem refusal_arrives `{floatlib} `{jsonfloat} `{httpenv} {Conn} (ln : link Conn) url_norm reason r r' st p n variants x :
  settle (l_drain ln r) = Comes r' ->
  problem_ok url_norm p -> code_of st = problem_status p -> status_from_str x = Ok st -> assoc x variants = Some (VNewtype pr_ty) ->
  exists c h b hs v, refusal ln r st p = Sends c h b /\ deliver (pb_headers h) = Some hs /\
    de_response (code_of (pb_status h)) hs (TEnum n variants) = Ok (SNewtypeVariant n x v) /\
    exists d, pr_decoded reason v = Some d /\ pr_set_body url_norm d b = mkPresp None p.
Proof.
  intros D O C X A. destruct (problem_arrives url_norm reason p p (N.of_nat (length (problem_text p))) n variants x st O C (proj1 O) X A)
    as (r1 & hs & b & v & E & B & S & Dl & Dr & d & Pd & Ps). change (pr_value (set_problem (into_response p) p)) with (pr_value (into_response p)) in E.
  destruct (presp_sent (into_response p) (problem_status p) (N.of_nat (length (problem_text p))) eq_refl (proj1 O)) as [Q _]. rewrite (Q st C) in E. injection E as <-.
  change (pr_body (into_response p)) with (problem_body p) in B. change (pr_body (set_problem (into_response p) p)) with (problem_body p) in B. rewrite problem_body_is in B. injection B as <-.
  unfold refusal. rewrite D. cbn [once]. do 5 eexists. split; [reflexivity|]. split; [exact Dl|]. split; [exact Dr|]. eauto.
Qed.
