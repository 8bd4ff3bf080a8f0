(** * What the server keeps of the bytes that come: proofs (C89). *)
From Verif Require Import Base FieldSpec Utf8 Decimal DepUrl Serde Json Procedure Router RouterSpec RouterProofs Status SerHeader SerRequest SerResponse DeHeader DeRequest DeResponse JsonText Problem ProblemSpec Error Client ClientSpec ClientProofs
  Server ServerSpec ServerProofs ServerFair SessionSpec HttpBytes HttpBytesSpec HttpBytesProofs TypeProofs CutsSpec CutsProofs WholeSpec Whole Footprint FootprintSpec.
Open Scope nat_scope.

Section Footprint.
Context `{floatlib} `{urlenv} {R : Type}.
Variable explain : request bconn -> ekind -> ustr * option ustr * option (list ustr).
Variable explained : method -> ustr -> list rheader -> ekind -> ustr * option ustr * option (list ustr).
Variable reason : status -> ustr.
Variables (trims : bool) (uri_byte : N -> bool) (sl : limits).
Variable ps : list (hproc bconn R).
Variable manners : hproc bconn R -> manner R.
Hypothesis Ex : forall q k, explain q k = explained (q_method q) (q_target q) (q_headers q) k.
Hypothesis Hm : forall hp, In hp ps -> behaves hp (manners hp).
Notation ln := (byte_link trims uri_byte sl).
Notation room := (most_bytes sl).
Notation parse := (run (qstep trims uri_byte (most_headers sl)) QStart).
Notation reply_to := (reply_to explain reason ln ps).
Notation retort_to := (retort_to explained reason ps manners).
Notation exchange := (exchange explained reason parse room ps manners).
Notation whole := (whole explained reason parse room ps manners).
Notation fturn := (fturn explain reason trims uri_byte sl ps).
Notation fstep := (fstep explain reason trims uri_byte sl ps).
Notation frun := (frun explain reason trims uri_byte sl ps).
Notation f_handles := (f_handles explain reason trims uri_byte sl ps).
Notation f_heads := (f_heads explain reason trims uri_byte sl ps).

(** ** More bytes *)
Definition push (z : bytes) (x : retort) : retort := match x with Replies h b r => Replies h b (r ++ z) | NoReply e => NoReply e end.
Definition there (hs : list rheader) (s : bytes) : Prop := exists n, length_given hs = Some n /\ n <= length s.
Definition fixed (hs : list rheader) (f : bytes -> retort) : Prop :=
  forall s z, f s <> NoReply Unfinished \/ there hs s -> f (s ++ z) = push z (f s).

Lemma there_dec hs s : there hs s \/ (~ there hs s).
Proof.
  unfold there. destruct (length_given hs) as [n|].
  - destruct (Nat.le_gt_cases n (length s)) as [L|L]; [left; exists n; split; [reflexivity | exact L] | right; intros (k & [= <-] & K); lia].
  - right. intros (n & E & _). discriminate.
Qed.
Lemma body_there hs s z : there hs s -> exists n, length_given hs = Some n /\ body_in false hs s = Comes (firstn n s, skipn n s) /\ body_in false hs (s ++ z) = Comes (firstn n s, skipn n s ++ z).
Proof.
  intros (n & E & L). exists n. split; [exact E|]. unfold body_in. rewrite E, app_length, (proj2 (Nat.leb_le n (length s)) L), (proj2 (Nat.leb_le n (length s + length z)) ltac:(lia)).
  split; [reflexivity|]. rewrite firstn_app, skipn_app. replace (n - length s) with 0 by lia. cbn [firstn skipn]. rewrite app_nil_r. reflexivity.
Qed.
Lemma body_away hs s : ~ there hs s -> body_in false hs s = Hangs.
Proof.
  intros N. unfold body_in. destruct (length_given hs) as [n|] eqn:E; [|reflexivity]. destruct (n <=? length s) eqn:L; [|reflexivity].
  elim N. exists n. split; [exact E | apply Nat.leb_le, L].
Qed.
Lemma problem_fixed hs st p : fixed hs (problem_reply false hs st p).
Proof.
  intros s z C. unfold problem_reply in *. destruct (there_dec hs s) as [T|T].
  - destruct (body_there hs s z T) as (n & _ & -> & ->). reflexivity.
  - rewrite (body_away hs s T) in C. destruct C as [C|C]; [elim C; reflexivity | elim (T C)].
Qed.
Lemma invalid_fixed m t hs k : fixed hs (invalid explained false m t hs k).
Proof. unfold invalid. destruct (explained m t hs k) as [[a b] d]. apply problem_fixed. Qed.
Lemma retort_fixed m t hs : fixed hs (retort_to false m t hs).
Proof.
  intros s z. unfold WholeSpec.retort_to. destruct (parse_url t) as [[[segs|] qs]|]; [|reflexivity|apply invalid_fixed].
  destruct (route_spec _ m segs) as [hp|[]]; [|apply problem_fixed|apply problem_fixed].
  destruct (de_request _ _ _ _) as [v|k| |]; [|apply invalid_fixed|reflexivity|reflexivity]. unfold handed. intros C.
  assert (G : forall x r, match nsettle (hp_call hp x) with Comes (w, b) => match encode_response w (N.of_nat (length b)) with Ok h => Replies h b (r ++ z) | Err k => NoReply (Failing k) | Panic | Diverge => NoReply Crashed end | _ => NoReply Unfinished end =
    push z (match nsettle (hp_call hp x) with Comes (w, b) => match encode_response w (N.of_nat (length b)) with Ok h => Replies h b r | Err k => NoReply (Failing k) | Panic | Diverge => NoReply Crashed end | _ => NoReply Unfinished end)).
  { intros x r. destruct (nsettle (hp_call hp x)) as [[w b]|e|]; try reflexivity. destruct (encode_response w _); reflexivity. }
  destruct (manners hp) as [mk|mk]; [|cbn [with_body]; apply G]. destruct (there_dec hs s) as [T|T].
  - destruct (body_there hs s z T) as (n & _ & -> & ->). cbn [with_body]. apply G.
  - rewrite (body_away hs s T) in C. destruct C as [C|C]; [elim C; reflexivity | elim (T C)].
Qed.

(** What is left after a reply. *)
Definition leaves (hs : list rheader) (f : bytes -> retort) : Prop :=
  forall s h b r, f s = Replies h b r -> (exists n, length_given hs = Some n /\ n <= length s /\ r = skipn n s) \/ forall s', f s' = Replies h b s'.
Lemma body_leaves hs s b r : body_in false hs s = Comes (b, r) -> exists n, length_given hs = Some n /\ n <= length s /\ r = skipn n s.
Proof.
  unfold body_in. destruct (length_given hs) as [n|]; [|discriminate]. destruct (n <=? length s) eqn:L; [|discriminate]. intros [= _ <-]. exists n. apply Nat.leb_le in L. split; [reflexivity|]. split; [exact L | reflexivity].
Qed.
Lemma problem_leaves hs st p : leaves hs (problem_reply false hs st p).
Proof.
  intros s h b r. unfold problem_reply. destruct (body_in false hs s) as [[x y]|e|] eqn:B; cbn; try discriminate. intros [= _ _ <-]. left. exact (body_leaves _ _ _ _ B).
Qed.
Lemma invalid_leaves m t hs k : leaves hs (invalid explained false m t hs k).
Proof. unfold invalid. destruct (explained m t hs k) as [[a b] d]. apply problem_leaves. Qed.
Lemma retort_leaves m t hs : leaves hs (retort_to false m t hs).
Proof.
  intros s h b r. unfold WholeSpec.retort_to. destruct (parse_url t) as [[[segs|] qs]|]; [|discriminate|apply invalid_leaves].
  destruct (route_spec _ m segs) as [hp|[]]; [|apply problem_leaves|apply problem_leaves].
  destruct (de_request _ _ _ _) as [v|k| |]; [|apply invalid_leaves|discriminate|discriminate]. unfold handed.
  destruct (manners hp) as [mk|mk].
  - destruct (body_in false hs s) as [[x y]|e|] eqn:B; cbn [with_body]; try discriminate. intros E. left.
    assert (y = r) as <- by (destruct (nsettle (hp_call hp _)) as [[w b']|e|]; try discriminate; destruct (encode_response w _); try discriminate; injection E as _ _ ->; reflexivity).
    exact (body_leaves _ _ _ _ B).
  - cbn [with_body]. intros E. right. intros s'. destruct (nsettle (hp_call hp _)) as [[w b']|e|]; try discriminate. destruct (encode_response w _); try discriminate. injection E as -> -> _. reflexivity.
Qed.

(** ** What a turn does *)
Definition with_reply (m : method) (x : retort) : list (respb * option bytes) :=
  match x with Replies h b rest => (h, match m with MHead => None | _ => Some b end) :: fst (whole false rest) | NoReply _ => [] end.
Lemma whole_step s : fst (whole false s) = match head_in parse room false s with Comes (Some (Some ((m, t, hs), rest))) => with_reply m (retort_to false m t hs rest) | _ => [] end.
Proof.
  unfold WholeSpec.whole. cbn [WholeSpec.exchange]. destruct (head_in _ _ _ _) as [[[[[[m t] hs] rest]|]|]|e|] eqn:Hd; try reflexivity. apply head_short in Hd.
  destruct (retort_to false m t hs rest) as [h b rest'|e] eqn:Rt; [|reflexivity]. assert (L : length rest' <= length rest) by exact (retort_short explained reason ps manners Hm _ _ _ _ _ _ _ _ Rt). unfold with_reply. cbn [fst].
  rewrite (exchange_all explained reason trims uri_byte sl ps manners Hm) by lia. reflexivity.
Qed.
(** What is still to be replied, when [z] comes. *)
Definition due (s : foot) (z : bytes) : list (respb * option bytes) :=
  match f_stage s with
  | FHead held => fst (whole false (held ++ f_queue s ++ z))
  | FBody m t hs _ held => with_reply m (retort_to false m t hs (held ++ f_queue s ++ z))
  | FStop => []
  end.
Definition sound (s : foot) : Prop :=
  match f_stage s with
  | FHead held => length held <= room
  | FBody m t hs n held => n = body_length hs /\ retort_to false m t hs held = NoReply Unfinished /\ match n with Some n => length held <= Nat.max room n | None => True end
  | FStop => True
  end.

Lemma handles_good m t hs held queue sent : match body_length hs with Some n => length held <= Nat.max room n | None => True end ->
  (length held <= room \/ exists s, retort_to false m t hs s = NoReply Unfinished) ->
  let s := f_handles m t hs (body_length hs) held queue sent in
  sound s /\ forall z, f_sent s ++ due s z = sent ++ with_reply m (retort_to false m t hs (held ++ queue ++ z)).
Proof.
  intros L O. cbv zeta. unfold Footprint.f_handles.
  pose proof (reply_accords explain explained reason trims uri_byte sl ps manners Ex Hm false m t hs held (mkBconn [] (@cons bytes held nil) false (body_length hs))) as A.
  specialize (A (conj eq_refl (conj (app_nil_r held) (Nat.le_0_l _))) eq_refl).
  pose proof (fun z => retort_fixed m t hs held z) as Fx. destruct (retort_to false m t hs held) as [h b rest|e] eqn:Rt; cbn [accords] in A.
  - destruct A as (c & -> & (_ & Es & _)). unfold sound, due. cbn [f_stage f_queue f_sent]. rewrite Es. split.
    + destruct (retort_leaves m t hs held h b rest Rt) as [(n & E & Ln & ->)|K].
      * rewrite length_given_ok in E. rewrite E in L. rewrite skipn_length. lia.
      * destruct O as [O|[s O]]; [|rewrite K in O; discriminate]. specialize (K held). rewrite Rt in K. injection K as ->. exact O.
    + intros z. rewrite (Fx (queue ++ z)) by (left; discriminate). cbn [push with_reply]. rewrite <- app_assoc. reflexivity.
  - destruct e; try contradiction; [rewrite A|rewrite A|rewrite A]; unfold sound, due; cbn [f_stage f_queue f_sent].
    + split; [|intros z; reflexivity]. split; [reflexivity|]. split; [exact Rt | exact L].
    + split; [exact I|]. intros z. rewrite (Fx (queue ++ z)) by (left; discriminate). reflexivity.
    + split; [exact I|]. intros z. rewrite (Fx (queue ++ z)) by (left; discriminate). reflexivity.
Qed.

Lemma head_of_done held z x rest : length held <= room -> parse held = PDone x rest -> head_in parse room false (held ++ z) = Comes (Some (Some (x, rest ++ z))).
Proof.
  intros L E. unfold head_in. rewrite firstn_app, (firstn_all2 held) by exact L. rewrite (run_done_app _ _ _ _ _ _ E). rewrite <- app_assoc. f_equal. f_equal. f_equal. f_equal. f_equal.
  rewrite skipn_app, (skipn_all2 held) by exact L. cbn [app]. apply firstn_skipn.
Qed.
Lemma head_of_bad held z : length held <= room -> parse held = PBad -> head_in parse room false (held ++ z) = Comes (Some None).
Proof. intros L E. unfold head_in. rewrite firstn_app, (firstn_all2 held) by exact L. rewrite (run_bad_app _ _ _ _ E). reflexivity. Qed.
Lemma head_of_full held z : length held = room -> parse held = PMore -> head_in parse room false (held ++ z) = Comes (Some None).
Proof.
  intros L E. unfold head_in. rewrite firstn_app, (firstn_all2 held) by lia. replace (room - length held) with 0 by lia. cbn [firstn]. rewrite app_nil_r, E, (proj2 (Nat.leb_le _ _)); [reflexivity|]. rewrite app_length. lia.
Qed.
Lemma done_short held x rest : parse held = PDone x rest -> length rest <= length held.
Proof.
  assert (D : forall l t x r, run (qstep trims uri_byte (most_headers sl)) t l = PDone x r -> length r < length l).
  { induction l as [|a l IH]; intros t y r E; cbn in E; [discriminate|]. destruct (qstep _ _ _ t a); [apply IH in E; cbn; lia | injection E as _ <-; cbn; lia | discriminate]. }
  intros E. apply D in E. lia.
Qed.
Lemma heads_good held queue sent : length held <= room ->
  let s := f_heads held queue sent in sound s /\ forall z, f_sent s ++ due s z = sent ++ fst (whole false (held ++ queue ++ z)).
Proof.
  intros L. cbv zeta. unfold Footprint.f_heads. destruct (parse held) as [| |[[m t] hs] rest] eqn:P.
  - destruct (room <=? length held) eqn:E.
    + apply Nat.leb_le in E. split; [exact I|]. intros z. rewrite whole_step, head_of_full by (try assumption; lia). reflexivity.
    + split; [exact L|]. intros z. reflexivity.
  - split; [exact I|]. intros z. rewrite whole_step, head_of_bad by assumption. reflexivity.
  - pose proof (done_short _ _ _ P) as D. destruct (handles_good m t hs rest queue sent) as [G1 G2].
    + destruct (body_length hs); [lia | exact I].
    + left. lia.
    + split; [exact G1|]. intros z. rewrite G2, whole_step, (head_of_done _ _ _ _ L P). reflexivity.
Qed.
Lemma turn_good k s : sound s -> sound (fturn k s) /\ forall z, f_sent (fturn k s) ++ due (fturn k s) z = f_sent s ++ due s z.
Proof.
  intros G. unfold Footprint.fturn. destruct s as [[held|m t hs n held|] queue sent]; cbn [f_stage f_queue f_sent]; unfold sound in G; cbn [f_stage] in G.
  - destruct (heads_good (held ++ firstn (Nat.min k (room - length held)) queue) (skipn (Nat.min k (room - length held)) queue) sent) as [A B].
    + rewrite app_length. pose proof (firstn_le_length (Nat.min k (room - length held)) queue) as X. rewrite firstn_length in *. lia.
    + split; [exact A|]. intros z. rewrite B. unfold due. cbn [f_stage f_queue]. rewrite <- app_assoc, (app_assoc (firstn _ _)), firstn_skipn. reflexivity.
  - destruct G as (-> & Rt & G). set (j := match body_length hs with Some n => Nat.min k (n - length held) | None => k end).
    destruct (handles_good m t hs (held ++ firstn j queue) (skipn j queue) sent) as [A B].
    + unfold j. destruct (body_length hs) as [n|]; [|exact I]. rewrite app_length, firstn_length. lia.
    + right. exists held. exact Rt.
    + split; [exact A|]. intros z. rewrite B. unfold due. cbn [f_stage f_queue]. rewrite <- app_assoc, (app_assoc (firstn _ _)), firstn_skipn. reflexivity.
  - split; [exact I|]. intros z. reflexivity.
Qed.
Lemma run_good : forall ls s, sound s -> sound (frun ls s) /\ forall z, f_sent (frun ls s) ++ due (frun ls s) z = f_sent s ++ due s (sent_by_peer ls ++ z).
Proof.
  induction ls as [|l ls IH]; intros s G; [split; [exact G | reflexivity]|]. cbn [Footprint.frun].
  assert (X : sound (fstep l s) /\ forall z, f_sent (fstep l s) ++ due (fstep l s) z = f_sent s ++ due s (match l with FArrive p => p | FTurn _ => [] end ++ z)).
  { destruct l as [p|k]; cbn [Footprint.fstep]; [|exact (turn_good k s G)]. split; [exact G|]. intros z. unfold due. cbn [f_stage f_queue f_sent]. destruct (f_stage s); rewrite ?app_assoc; reflexivity. }
  destruct X as [X1 X2]. destruct (IH _ X1) as [Y1 Y2]. split; [exact Y1|]. intros z. rewrite Y2, X2. cbn [sent_by_peer flat_map]. fold (sent_by_peer ls). rewrite app_assoc. reflexivity.
Qed.
Lemma new_good : sound foot_new.
Proof. apply Nat.le_0_l. Qed.

(** ** What is kept *)
Theorem kept_bounded ls : let s := frun ls foot_new in
  match reading s with None => kept s <= room | Some (Some n) => kept s <= Nat.max room n | Some None => True end.
Proof.
  cbv zeta. destruct (run_good ls foot_new new_good) as [G _]. unfold sound, reading, kept in *. destruct (f_stage (frun ls foot_new)) as [held|m t hs [n|] held|]; [exact G | apply G | exact I | lia].
Qed.
Theorem bytes_in ls : prefix (f_sent (frun ls foot_new)) (fst (whole false (sent_by_peer ls))).
Proof.
  destruct (run_good ls foot_new new_good) as [_ B]. specialize (B []). rewrite app_nil_r in B. cbn [foot_new f_sent f_queue app due f_stage] in B. rewrite <- B. eexists. reflexivity.
Qed.
(** At rest nothing is due. *)
Lemma rest_done s : sound s -> (forall k, fturn k s = s) -> due s [] = [].
Proof.
  intros G Q. destruct s as [[held|m t hs n held|] queue sent]; [| |reflexivity]; unfold sound in G; cbn [f_stage] in G; unfold due; cbn [f_stage f_queue]; rewrite app_nil_r.
  - assert (P : parse held = PMore /\ length held < room).
    { specialize (Q 0). unfold Footprint.fturn in Q. cbn [f_stage f_queue f_sent Nat.min firstn skipn] in Q. rewrite app_nil_r in Q. pose proof (heads_good held queue sent G) as Hg. cbv zeta in Hg.
      unfold Footprint.f_heads in *. destruct (parse held) as [| |[[m t] hs] rest] eqn:P.
      - split; [reflexivity|]. destruct (room <=? length held) eqn:E; [discriminate|]. apply Nat.leb_gt, E.
      - discriminate.
      - exfalso. assert (D : length rest < length held).
        { clear - P. assert (D : forall l t x r, run (qstep trims uri_byte (most_headers sl)) t l = PDone x r -> length r < length l).
          { induction l as [|a l IH]; intros t' y r E; cbn in E; [discriminate|]. destruct (qstep _ _ _ t' a); [apply IH in E; cbn; lia | injection E as _ <-; cbn; lia | discriminate]. }
          exact (D _ _ _ _ P). }
        unfold Footprint.f_handles in Q.
        pose proof (reply_accords explain explained reason trims uri_byte sl ps manners Ex Hm false m t hs rest (mkBconn [] (@cons bytes rest nil) false (body_length hs)) (conj eq_refl (conj (app_nil_r rest) (Nat.le_0_l _))) eq_refl) as A.
        destruct (retort_to false m t hs rest) as [h b r|e] eqn:Rt; cbn [accords] in A.
        + destruct A as (c & E & (_ & Es & _)). rewrite E in Q. injection Q as _ Q. apply (f_equal (@length _)) in Q. rewrite app_length in Q. cbn in Q. lia.
        + destruct e; try contradiction; rewrite A in Q; discriminate. }
    destruct P as [P L]. destruct queue as [|a queue].
    + rewrite app_nil_r, whole_step. unfold head_in. rewrite firstn_all2 by lia. rewrite P, (proj2 (Nat.leb_gt _ _) L). reflexivity.
    + exfalso. specialize (Q 1). unfold Footprint.fturn in Q. cbn [f_stage f_queue f_sent] in Q. replace (Nat.min 1 (room - length held)) with 1 in Q by lia. cbn [firstn skipn] in Q.
      apply (f_equal f_queue) in Q. unfold Footprint.f_heads, Footprint.f_handles in Q. destruct (parse (held ++ [a])) as [| |[[m t] hs] rest]; [| |destruct (ServerSpec.reply_to _ _ _ _ _)]; cbn in Q; apply (f_equal (@length _)) in Q; cbn in Q; lia.
  - destruct G as (-> & Rt & G). destruct (there_dec hs held) as [T|T].
    + rewrite (retort_fixed m t hs held queue (or_intror T)), Rt. reflexivity.
    + destruct queue as [|a queue]; [rewrite app_nil_r, Rt; reflexivity|]. exfalso. specialize (Q 1). unfold Footprint.fturn in Q. cbn [f_stage f_queue f_sent] in Q.
      assert (J : match body_length hs with Some n => Nat.min 1 (n - length held) | None => 1 end = 1).
      { destruct (body_length hs) as [n|] eqn:E; [|reflexivity]. destruct (Nat.le_gt_cases n (length held)); [|lia]. elim T. exists n. rewrite length_given_ok. split; assumption. }
      rewrite J in Q. cbn [firstn skipn] in Q. apply (f_equal f_queue) in Q. unfold Footprint.f_handles in Q. destruct (ServerSpec.reply_to _ _ _ _ _); cbn in Q; apply (f_equal (@length _)) in Q; cbn in Q; lia.
Qed.
Theorem all_in ls : (forall k, fturn k (frun ls foot_new) = frun ls foot_new) -> f_sent (frun ls foot_new) = fst (whole false (sent_by_peer ls)).
Proof.
  intros Q. destruct (run_good ls foot_new new_good) as [G B]. specialize (B []). rewrite (rest_done _ G Q), !app_nil_r in B. exact B.
Qed.
End Footprint.

(** ** Requests that are refused *)
Section Refused.
Context `{floatlib} `{urlenv} {R : Type}.
Variable explain : request bconn -> ekind -> ustr * option ustr * option (list ustr).
Variable reason : status -> ustr.
Variables (trims : bool) (uri_byte : N -> bool) (sl : limits).
Variable ps : list (hproc bconn R).
Notation ln := (byte_link trims uri_byte sl).
Notation room := (most_bytes sl).
Notation parse := (run (qstep trims uri_byte (most_headers sl)) QStart).
Notation reply_to := (reply_to explain reason ln ps).
Notation fturn := (fturn explain reason trims uri_byte sl ps).
Notation frun := (frun explain reason trims uri_byte sl ps).
Notation f_handles := (f_handles explain reason trims uri_byte sl ps).
Variables (m : method) (t : ustr) (hs : list rheader) (st : status).
Hypothesis Un : unrouted ps m t st.

Definition blame : problem := AboutBlank (reason st) (match st with StNotFound => 404 | _ => 405 end).
Definition blame_head : respb := mkRespb st [(u "content-type", u "application/problem+json"); length_header (N.of_nat (length (problem_text blame)))].
Definition blamed : respb * option bytes := (blame_head, match m with MHead => None | _ => Some (problem_text blame) end).
Lemma unrouted_refused c : reply_to (mkRequest m t hs c) = refusal ln (mkRequest m t hs c) st blame.
Proof.
  destruct Un as (segs & q & e & E1 & E2 & Es). unfold ServerSpec.reply_to, blame. cbn [q_target q_method q_headers]. rewrite E1, E2. destruct e; rewrite Es; reflexivity.
Qed.
Lemma refused_handles held queue sent : f_handles m t hs (body_length hs) held queue sent =
  match body_length hs with
  | Some n => if n <=? length held then mkFoot (FHead (skipn n held)) queue (sent ++ [blamed]) else mkFoot (FBody m t hs (Some n) held) queue sent
  | None => mkFoot (FBody m t hs None held) queue sent
  end.
Proof.
  unfold Footprint.f_handles. rewrite unrouted_refused.
  pose proof (refusal_accords trims uri_byte sl false m t hs held (mkBconn [] (@cons bytes held nil) false (body_length hs)) st blame (conj eq_refl (conj (app_nil_r held) (Nat.le_0_l _))) eq_refl) as A.
  unfold problem_reply, body_in in A. rewrite length_given_ok in A. destruct (body_length hs) as [n|]; [|cbn [with_body accords] in A; rewrite A; reflexivity].
  destruct (n <=? length held); cbn [with_body accords] in A; [|rewrite A; reflexivity]. destruct A as (c & -> & (_ & -> & _)). reflexivity.
Qed.

Variable head : bytes.
Hypothesis Hd : parse head = PDone (m, t, hs) [].
Hypothesis Hl : length head <= room.
Lemma head_read : frun [FArrive head; FTurn (length head)] foot_new = f_handles m t hs (body_length hs) [] [] [].
Proof.
  cbn [Footprint.frun Footprint.fstep]. unfold Footprint.fturn, foot_new. cbn [f_stage f_queue f_sent app length].
  replace (Nat.min (length head) (room - 0)) with (length head) by lia. rewrite firstn_all, skipn_all. unfold f_heads. rewrite Hd. reflexivity.
Qed.
Lemma frun_app : forall a b s, frun (a ++ b) s = frun b (frun a s).
Proof. induction a as [|l a IH]; intros b s; [reflexivity|]. cbn. apply IH. Qed.
Theorem refused_kept n b j : body_length hs = Some n -> length b = n -> j < n ->
  let s1 := frun [FArrive head; FTurn (length head); FArrive (firstn j b); FTurn j] foot_new in
  let s2 := frun [FArrive (skipn j b); FTurn n] s1 in
  (kept s1 = j /\ f_sent s1 = []) /\ kept s2 = 0 /\ f_sent s2 = [blamed].
Proof.
  intros E L J. cbv zeta. change [FArrive head; FTurn (length head); FArrive (firstn j b); FTurn j] with ([FArrive head; FTurn (length head)] ++ [FArrive (firstn j b); FTurn j]).
  rewrite frun_app, head_read, refused_handles, E. rewrite (proj2 (Nat.leb_gt n (length (@nil N)))) by (cbn; lia).
  assert (Lj : length (firstn j b) = j) by (rewrite firstn_length; lia).
  assert (S1 : frun [FArrive (firstn j b); FTurn j] (mkFoot (FBody m t hs (Some n) []) [] []) = mkFoot (FBody m t hs (Some n) (firstn j b)) [] []).
  { cbn [Footprint.frun Footprint.fstep]. unfold Footprint.fturn. cbn [f_stage f_queue f_sent app length]. replace (Nat.min j (n - 0)) with j by lia.
    rewrite firstn_all2 by lia. rewrite skipn_all2 by lia. rewrite <- E, refused_handles, E, (proj2 (Nat.leb_gt n (length (firstn j b)))) by lia. reflexivity. }
  rewrite S1. split; [split; [exact Lj | reflexivity]|].
  cbn [Footprint.frun Footprint.fstep]. unfold Footprint.fturn. cbn [f_stage f_queue f_sent app]. rewrite Lj. replace (Nat.min n (n - j)) with (n - j) by lia.
  assert (Lk : length (skipn j b) = n - j) by (rewrite skipn_length; lia). rewrite (firstn_all2 (n := n - j) (skipn j b)) by lia. rewrite (skipn_all2 (n := n - j) (skipn j b)) by lia. rewrite firstn_skipn, <- E, refused_handles, E, L, Nat.leb_refl.
  split; [|reflexivity]. unfold kept. cbn [f_stage]. rewrite skipn_length. lia.
Qed.
Theorem refused_endless b : body_length hs = None ->
  let s := frun [FArrive head; FTurn (length head); FArrive b; FTurn (length b)] foot_new in kept s = length b /\ f_sent s = [].
Proof.
  intros E. cbv zeta. change [FArrive head; FTurn (length head); FArrive b; FTurn (length b)] with ([FArrive head; FTurn (length head)] ++ [FArrive b; FTurn (length b)]).
  rewrite frun_app, head_read, refused_handles, E. cbn [Footprint.frun Footprint.fstep]. unfold Footprint.fturn. cbn [f_stage f_queue f_sent app]. rewrite firstn_all, skipn_all, <- E, refused_handles, E.
  split; reflexivity.
Qed.
End Refused.

Theorem unbounded `{floatlib} `{urlenv} (R : Type) explain reason trims uri_byte sl (ps : list (hproc bconn R)) m t st : unrouted ps m t st ->
  t <> [] -> (forall c, In c t -> uri_byte c = true /\ c <> 32%N) -> length (request_head m (mkReqb t [])) <= most_bytes sl ->
  forall most, exists ls, most < kept (frun explain reason trims uri_byte sl ps ls foot_new) /\ f_sent (frun explain reason trims uri_byte sl ps ls foot_new) = [].
Proof.
  intros Un T C L most.
  destruct (refused_endless explain reason trims uri_byte sl ps m t [] st Un (request_head m (mkReqb t []))
    (run_request trims uri_byte (most_headers sl) m (mkReqb t []) T C eq_refl (Nat.le_0_l _)) L (repeat 0%N (S most)) eq_refl) as [K E].
  eexists. split; [|exact E]. rewrite K, repeat_length. lia.
Qed.

(** ** The server of Server.v *)
Theorem same_server `{floatlib} `{urlenv} (R : Type) explain explained reason trims uri_byte sl (ps : list (hproc bconn R)) manners ls c :
  (forall q k, explain q k = explained (q_method q) (q_target q) (q_headers q) k) -> (forall hp, In hp ps -> behaves hp (manners hp)) ->
  b_held c = [] -> b_closed c = false -> stream c = sent_by_peer ls ->
  let replies k := replied (fst (rounds explain reason (byte_link trims uri_byte sl) (build (registrations ps)) k (task_new (Ready c)))) in
  let s := frun explain reason trims uri_byte sl ps ls foot_new in
  exists k0, forall k, k0 <= k -> prefix (f_sent s) (replies k) /\ ((forall j, fturn explain reason trims uri_byte sl ps j s = s) -> f_sent s = replies k).
Proof.
  intros Ex Hm Hh Hc Hs. cbv zeta. destruct (server_whole explain explained reason trims uri_byte sl ps manners Ex Hm c) as [_ [k0 W]]; [rewrite Hh; apply Nat.le_0_l|]. rewrite Hc, Hs in W. exists k0. intros k L. destruct (W k L) as [-> _]. split.
  - apply bytes_in; assumption.
  - apply all_in; assumption.
Qed.
