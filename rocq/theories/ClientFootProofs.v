(** * What a call keeps of the bytes that come: proofs (C94). *)
From Verif Require Import Base FieldSpec Utf8 Decimal DepUrl Serde SerHeader SerRequest DeHeader DeResponse Status Router RouterSpec DepHttp Error Client ClientSpec ClientProofs
  SessionSpec HttpBytes HttpBytesSpec HttpBytesProofs CutsSpec CutsProofs WholeSpec Whole ClientFoot ClientFootSpec.
Open Scope nat_scope.

Section Foot.
Context `{floatlib} `{urlenv}.
Variables (trims : bool) (cl : limits) (p : proc).
Notation room := (most_bytes cl).
Notation parse := (run (pstep trims (most_headers cl)) (PVersion (u "HTTP/1.1 "))).
Notation k_ends := (k_ends p).
Notation k_bodies := (k_bodies p).
Notation k_heads := (k_heads trims cl p).
Notation kturn := (kturn trims cl p).
Notation kstep := (kstep trims cl p).
Notation krun := (krun trims cl p).

(** ** What is still to come of the bytes *)
Definition judged (code : N) (hs : list rheader) (x : settled (bytes * bytes)) : finding :=
  match x with
  | Comes (b, rest) => match de_response code hs (pr_resp p) with Ok x => Finds x b rest | Err k => NoFind k | Panic | Diverge => Bursts end
  | Breaks _ => NoFind Other
  | Hangs => StillWaits
  end.
Definition content_found (closed : bool) (code : N) (hs : list rheader) (s : bytes) : finding :=
  judged code hs (match pr_method p with MHead => Comes ([], s) | _ => body_in closed hs s end).
Definition response_found (closed : bool) (s : bytes) : finding :=
  match head_in parse room closed s with
  | Comes (Some (Some ((n, hs), rest))) => content_found closed n hs rest
  | Hangs => StillWaits
  | _ => NoFind Other
  end.
Lemma found_here v body closed s h : encode_request (pr_entry p) v (N.of_nat (length body)) = Ok h -> found_in room parse p v body closed s = response_found closed s.
Proof.
  intros E. unfold found_in. rewrite E. unfold response_found, content_found, judged. destruct (head_in _ _ _ _) as [[[[[n hs] rest]|]|]| |]; try reflexivity.
Qed.
Definition ends_as (r : res (value * bytes)) (rest : bytes) : finding :=
  match r with Ok (v, b) => Finds v b rest | Err k => NoFind k | _ => Bursts end.
Definition to_come (s : kstage) (closed : bool) (z : bytes) : finding :=
  match s with
  | KHead held => response_found closed (held ++ z)
  | KBody code hs _ held => content_found closed code hs (held ++ z)
  | KDone r held => ends_as r (held ++ z)
  end.
Definition firm (s : kstage) : Prop :=
  match s with
  | KHead held => length held <= room
  | KBody _ hs n held => n = body_length hs /\ is_head p = false /\ match n with Some n => length held <= Nat.max room n | None => True end
  | KDone _ held => length held <= room
  end.

Lemma ends_come code hs b rest closed z : to_come (k_ends code hs b rest) closed z = judged code hs (Comes (b, rest ++ z)).
Proof. unfold ClientFoot.k_ends, judged. cbn [to_come]. destruct (de_response code hs (pr_resp p)); reflexivity. Qed.
Lemma is_head_spec : is_head p = match pr_method p with MHead => true | _ => false end.
Proof. unfold is_head. destruct (pr_method p); reflexivity. Qed.
Lemma bodies_good eof code hs held : match body_length hs with Some n => length held <= Nat.max room n | None => True end -> (is_head p = true -> length held <= room) ->
  firm (k_bodies eof code hs (body_length hs) held) /\
  forall closed z, (eof = true -> closed = true /\ z = []) -> to_come (k_bodies eof code hs (body_length hs) held) closed z = content_found closed code hs (held ++ z).
Proof.
  intros L Lh. unfold ClientFoot.k_bodies, content_found. rewrite is_head_spec in *.
  assert (Hd : pr_method p = MHead \/ (match pr_method p with MHead => true | _ => false end) = false) by (destruct (pr_method p); auto).
  destruct Hd as [Hd|Hd].
  - rewrite Hd in *. split; [exact (Lh eq_refl)|]. intros closed z _. apply ends_come.
  - rewrite Hd. assert (Hc : forall (A : Type) (x y : A), match pr_method p with MHead => x | _ => y end = y) by (intros; destruct (pr_method p); [reflexivity|reflexivity|discriminate|reflexivity..]).
    destruct (body_length hs) as [n|] eqn:E.
    + destruct (Nat.leb_spec n (length held)) as [Hn|Hn].
      * split; [cbn; rewrite skipn_length; lia|]. intros closed z _. rewrite ends_come, Hc. unfold body_in. rewrite length_given_ok, E, (proj2 (Nat.leb_le _ _)) by (rewrite app_length; lia).
        rewrite firstn_app, skipn_app. replace (n - length held) with 0 by lia. cbn [firstn skipn]. rewrite app_nil_r. reflexivity.
      * destruct eof.
        -- split; [apply Nat.le_0_l|]. intros closed z Z. destruct (Z eq_refl) as [-> ->]. rewrite Hc. unfold body_in. rewrite length_given_ok, E, app_nil_r, (proj2 (Nat.leb_gt _ _) Hn). reflexivity.
        -- split; [cbn; rewrite E, is_head_spec; auto|]. intros closed z _. reflexivity.
    + destruct eof.
      * split; [apply Nat.le_0_l|]. intros closed z Z. destruct (Z eq_refl) as [-> ->]. rewrite ends_come, Hc. unfold body_in. rewrite length_given_ok, E, !app_nil_r. reflexivity.
      * split; [cbn; rewrite E, is_head_spec; auto|]. intros closed z _. reflexivity.
Qed.

Lemma head_done held closed z x rest : length held <= room -> parse held = PDone x rest -> head_in parse room closed (held ++ z) = Comes (Some (Some (x, rest ++ z))).
Proof.
  intros L E. unfold head_in. rewrite firstn_app, (firstn_all2 held) by exact L. rewrite (run_done_app _ _ _ _ _ _ E). rewrite <- app_assoc. f_equal. f_equal. f_equal. f_equal. f_equal.
  rewrite skipn_app, (skipn_all2 held) by exact L. cbn [app]. apply firstn_skipn.
Qed.
Lemma head_bad held closed z : length held <= room -> parse held = PBad -> head_in parse room closed (held ++ z) = Comes (Some None).
Proof. intros L E. unfold head_in. rewrite firstn_app, (firstn_all2 held) by exact L. rewrite (run_bad_app _ _ _ _ E). reflexivity. Qed.
Lemma head_full held closed z : length held = room -> parse held = PMore -> head_in parse room closed (held ++ z) = Comes (Some None).
Proof.
  intros L E. unfold head_in. rewrite firstn_app, (firstn_all2 held) by lia. replace (room - length held) with 0 by lia. cbn [firstn]. rewrite app_nil_r, E, (proj2 (Nat.leb_le _ _)); [reflexivity|]. rewrite app_length. lia.
Qed.
Lemma done_less held x rest : parse held = PDone x rest -> length rest < length held.
Proof.
  assert (D : forall l t x r, run (pstep trims (most_headers cl)) t l = PDone x r -> length r < length l).
  { induction l as [|a l IH]; intros t y r E; cbn in E; [discriminate|]. destruct (pstep _ _ t a); [apply IH in E; cbn; lia | injection E as _ <-; cbn; lia | discriminate]. }
  apply D.
Qed.
Lemma heads_good eof held : length held <= room -> firm (k_heads eof held) /\
  forall closed z, (eof = true -> closed = true /\ z = []) -> to_come (k_heads eof held) closed z = response_found closed (held ++ z).
Proof.
  intros L. unfold ClientFoot.k_heads, response_found. destruct (parse held) as [| |[code hs] rest] eqn:P.
  - destruct (Nat.leb_spec room (length held)) as [E|E].
    + split; [apply Nat.le_0_l|]. intros closed z _. rewrite head_full by (try assumption; lia). reflexivity.
    + destruct eof.
      * split; [apply Nat.le_0_l|]. intros closed z Z. destruct (Z eq_refl) as [-> ->]. rewrite app_nil_r. unfold head_in. rewrite firstn_all2 by lia. rewrite P, (proj2 (Nat.leb_gt _ _) E). reflexivity.
      * split; [exact L|]. intros closed z _. reflexivity.
  - split; [apply Nat.le_0_l|]. intros closed z _. rewrite head_bad by assumption. reflexivity.
  - pose proof (done_less _ _ _ P) as D. destruct (bodies_good eof code hs rest) as [G1 G2].
    + destruct (body_length hs); [lia | exact I].
    + lia.
    + split; [exact G1|]. intros closed z Z. rewrite G2 by exact Z. rewrite (head_done _ _ _ _ _ L P). reflexivity.
Qed.
(** What is not read yet comes before what is not sent yet; and after the end nothing is sent. *)
Definition due (s : kfoot) (closed : bool) (z : bytes) : finding := to_come (kf_stage s) closed (kf_queue s ++ z).
Lemma turn_good k s : firm (kf_stage s) -> firm (kf_stage (kturn k s)) /\ kf_closed (kturn k s) = kf_closed s /\
  forall closed z, (kf_closed s = true -> closed = true /\ z = []) -> due (kturn k s) closed z = due s closed z.
Proof.
  intros G. unfold ClientFoot.kturn, due. destruct s as [[held|code hs n held|r held] queue shut]; cbn [kf_stage kf_queue kf_closed]; cbn [kf_stage firm] in G.
  - set (j := Nat.min k (room - length held)).
    destruct (heads_good (shut && match queue with [] => true | _ => false end) (held ++ firstn j queue)) as [A B].
    + rewrite app_length, firstn_length. lia.
    + split; [exact A|]. split; [reflexivity|]. intros closed z Z. rewrite B.
      * cbn [to_come]. rewrite <- app_assoc, (app_assoc (firstn _ _)), firstn_skipn. reflexivity.
      * intros X. apply andb_prop in X. destruct X as [X1 X2]. destruct queue; [|discriminate]. destruct (Z X1) as [-> ->]. split; [reflexivity|]. rewrite skipn_nil. reflexivity.
  - destruct G as (-> & Hd & G). set (j := match body_length hs with Some n => Nat.min k (n - length held) | None => k end).
    destruct (bodies_good (shut && match queue with [] => true | _ => false end) code hs (held ++ firstn j queue)) as [A B].
    + unfold j. destruct (body_length hs) as [n|]; [|exact I]. rewrite app_length, firstn_length. lia.
    + congruence.
    + split; [exact A|]. split; [reflexivity|]. intros closed z Z. rewrite B.
      * cbn [to_come]. rewrite <- app_assoc, (app_assoc (firstn _ _)), firstn_skipn. reflexivity.
      * intros X. apply andb_prop in X. destruct X as [X1 X2]. destruct queue; [|discriminate]. destruct (Z X1) as [-> ->]. split; [reflexivity|]. rewrite skipn_nil. reflexivity.
  - split; [exact G|]. split; reflexivity.
Qed.
Definition more (s : kfoot) (ls : list klabel) : bytes := if kf_closed s then [] else sent_back ls.
Lemma run_good : forall ls s, firm (kf_stage s) -> let closed := kf_closed s || closed_by ls in
  firm (kf_stage (krun ls s)) /\ kf_closed (krun ls s) = closed /\ due (krun ls s) closed [] = due s closed (more s ls).
Proof.
  induction ls as [|l ls IH]; intros s G; cbv zeta.
  - cbn [closed_by existsb]. rewrite orb_false_r. split; [exact G|]. split; [reflexivity|]. unfold more. cbn. destruct (kf_closed s); reflexivity.
  - cbn [ClientFoot.krun].
    assert (X : firm (kf_stage (kstep l s)) /\ kf_closed (kstep l s) || closed_by ls = kf_closed s || closed_by (l :: ls) /\
      due (kstep l s) (kf_closed s || closed_by (l :: ls)) (more (kstep l s) ls) = due s (kf_closed s || closed_by (l :: ls)) (more s (l :: ls))).
    { destruct l as [x| |k]; cbn [ClientFoot.kstep].
      - unfold more. cbn [closed_by existsb sent_back orb]. destruct (kf_closed s) eqn:C; cbn [kf_closed kf_stage].
        + rewrite C. split; [exact G|]. split; reflexivity.
        + split; [exact G|]. split; [reflexivity|]. unfold due. cbn [kf_stage kf_queue]. rewrite app_assoc. reflexivity.
      - split; [exact G|]. split; [cbn; rewrite orb_true_r; reflexivity|]. unfold more. cbn. destruct (kf_closed s); reflexivity.
      - destruct (turn_good k s G) as (A & B & C). split; [exact A|]. split; [rewrite B; reflexivity|]. rewrite C.
        + unfold more. rewrite B. reflexivity.
        + intros X. unfold more. rewrite B, X. split; reflexivity. }
    destruct X as (X1 & X2 & X3). destruct (IH _ X1) as (Y1 & Y2 & Y3). rewrite X2 in *. split; [exact Y1|]. split; [exact Y2|]. rewrite Y3. exact X3.
Qed.

(** ** What is kept *)
Theorem call_keeps ls held0 : length held0 <= room -> let s := krun ls (kfoot_new held0) in
  (match awaiting s with None => holding s <= room | Some (Some n) => holding s <= Nat.max room n | Some None => True end) /\
  (pr_method p = MHead -> holding s <= room).
Proof.
  intros L. cbv zeta. destruct (run_good ls (kfoot_new held0) L) as (G & _ & _). unfold firm, awaiting, holding in *. destruct (kf_stage (krun ls (kfoot_new held0))) as [held|code hs n held|r held].
  - auto.
  - destruct G as (_ & Hd & G). split; [destruct n; [exact G | exact I]|]. intros E. rewrite is_head_spec, E in Hd. discriminate.
  - auto.
Qed.

(** ** At rest *)
Lemma rest_waits s : firm (kf_stage s) -> (forall k, kturn k s = s) -> spent s = None -> kf_closed s = false /\ due s false [] = StillWaits.
Proof.
  intros G Q N. assert (Kq : forall k, kf_queue (kturn k s) = kf_queue s) by (intros k; rewrite Q; reflexivity). assert (Ks : kf_stage (kturn 0 s) = kf_stage s) by (rewrite Q; reflexivity).
  destruct s as [[held|code hs n held|r held] queue shut]; cbn [kf_stage kf_queue kf_closed firm] in *; [| |destruct r as [[v b]| | |]; discriminate N].
  - unfold ClientFoot.kturn in Ks. cbn [kf_stage kf_queue kf_closed Nat.min firstn] in Ks. rewrite app_nil_r in Ks.
    assert (P : parse held = PMore /\ length held < room /\ shut && match queue with [] => true | _ => false end = false).
    { unfold ClientFoot.k_heads in Ks. destruct (parse held) as [| |[code hs] rest] eqn:P; [|discriminate|].
      - destruct (Nat.leb_spec room (length held)) as [E|E]; [discriminate|]. destruct (shut && _); [discriminate | auto].
      - exfalso. unfold ClientFoot.k_bodies, ClientFoot.k_ends in Ks. destruct (is_head p); [discriminate|]. destruct (body_length hs); [destruct (_ <=? _); [discriminate|]|]; destruct (shut && _); discriminate. }
    destruct P as (P & L & E). destruct queue as [|a queue].
    + rewrite andb_true_r in E. split; [exact E|]. unfold due. cbn [kf_stage kf_queue to_come app]. rewrite app_nil_r. unfold response_found, head_in. rewrite firstn_all2 by lia. rewrite P, (proj2 (Nat.leb_gt _ _) L). reflexivity.
    + exfalso. specialize (Kq 1). unfold ClientFoot.kturn in Kq. cbn [kf_stage kf_queue] in Kq. replace (Nat.min 1 (room - length held)) with 1 in Kq by lia. cbn [skipn] in Kq. apply (f_equal (@length _)) in Kq. cbn in Kq. lia.
  - destruct G as (-> & Hd & G). unfold ClientFoot.kturn in Ks. cbn [kf_stage kf_queue kf_closed] in Ks.
    replace (match body_length hs with Some n => Nat.min 0 (n - length held) | None => 0 end) with 0 in Ks by (destruct (body_length hs); reflexivity). cbn [firstn] in Ks. rewrite app_nil_r in Ks.
    unfold ClientFoot.k_bodies, ClientFoot.k_ends in Ks. rewrite Hd in Ks.
    assert (E : (match body_length hs with Some n => length held < n | None => True end) /\ shut && match queue with [] => true | _ => false end = false).
    { destruct (body_length hs) as [n|]; [destruct (Nat.leb_spec n (length held)); [discriminate|]|]; destruct (shut && _); try discriminate; auto. }
    destruct E as [E1 E2]. destruct queue as [|a queue].
    + rewrite andb_true_r in E2. split; [exact E2|]. unfold due. cbn [kf_stage kf_queue to_come app]. rewrite app_nil_r. unfold content_found, judged.
      rewrite is_head_spec in Hd. destruct (pr_method p); try discriminate; unfold body_in; rewrite length_given_ok; (destruct (body_length hs) as [n|]; [rewrite (proj2 (Nat.leb_gt _ _) E1)|]); reflexivity.
    + exfalso. specialize (Kq 1). unfold ClientFoot.kturn in Kq. cbn [kf_stage kf_queue] in Kq. replace (match body_length hs with Some n => Nat.min 1 (n - length held) | None => 1 end) with 1 in Kq by (destruct (body_length hs); lia).
      cbn [skipn] in Kq. apply (f_equal (@length _)) in Kq. cbn in Kq. lia.
Qed.

(** ** The same call *)
Theorem same_call ls v body c h : length (b_held c) <= room -> encode_request (pr_entry p) v (N.of_nat (length body)) = Ok h ->
  stream c = b_held c ++ sent_back ls -> b_closed c = closed_by ls ->
  let result k := reads_as (snd (drive (byte_wire trims cl) p k (call_new (v, body) (Ready c)))) in
  let s := krun ls (kfoot_new (b_held c)) in
  exists k0, forall k, k0 <= k ->
    match spent s with Some x => stands (result k) x | None => (forall j, kturn j s = s) -> result k = Waits end.
Proof.
  intros L E St Cl. cbv zeta. destruct (call_whole trims cl p v body c L) as [_ [k0 W]]. exists k0. intros k Lk. specialize (W k Lk). rewrite (found_here v body _ _ h E), St, Cl in W.
  destruct (run_good ls (kfoot_new (b_held c)) L) as (G & C & D). cbn [kfoot_new kf_closed orb] in C, D. unfold more in D. cbn [kfoot_new kf_closed] in D.
  change (due (krun ls (kfoot_new (b_held c))) (closed_by ls) [] = response_found (closed_by ls) (b_held c ++ sent_back ls)) in D.
  rewrite <- D in W. destruct (spent _) as [x|] eqn:Sp.
  - unfold due, spent in *. destruct (kf_stage _) as [| |r held]; try discriminate. cbn [to_come] in W. rewrite app_nil_r in W. destruct r as [[v' b]|e| |]; injection Sp as <-; exact W.
  - intros Q. destruct (rest_waits _ G Q Sp) as [A B]. rewrite <- C, A, B in W. exact W.
Qed.

(** ** Kept to the end *)
Lemma turn_head eof_free head code hs k : parse head = PDone (code, hs) [] -> length head <= room -> length head <= k ->
  kturn k (mkKfoot (KHead []) head eof_free) = mkKfoot (k_bodies (eof_free && match head with [] => true | _ => false end) code hs (body_length hs) []) [] eof_free.
Proof.
  intros P L K. unfold ClientFoot.kturn. cbn [kf_stage kf_queue kf_closed length app]. rewrite Nat.sub_0_r. rewrite firstn_all2, skipn_all2 by lia. unfold ClientFoot.k_heads. rewrite P. reflexivity.
Qed.
Theorem kept_to_the_end head code hs n b j k : pr_method p <> MHead -> parse head = PDone (code, hs) [] -> length head <= room -> length_given hs = Some n ->
  de_response code hs (pr_resp p) = Err k -> length b = n -> j < n ->
  let s1 := krun [KArrive head; KTurn (length head); KArrive (firstn j b); KTurn j] (kfoot_new []) in
  let s2 := krun [KArrive (skipn j b); KTurn n] s1 in
  (holding s1 = j /\ spent s1 = None) /\ holding s2 = 0 /\ spent s2 = Some (NoFind k).
Proof.
  intros Hm P L Lg De Lb Lj. cbv zeta. rewrite length_given_ok in Lg. assert (Hd : is_head p = false) by (rewrite is_head_spec; destruct (pr_method p); congruence).
  assert (K0 : k_bodies false code hs (Some n) [] = KBody code hs (Some n) []) by (unfold ClientFoot.k_bodies; rewrite Hd; cbn [length]; rewrite (proj2 (Nat.leb_gt n 0)) by lia; reflexivity).
  assert (S1 : krun [KArrive head; KTurn (length head); KArrive (firstn j b); KTurn j] (kfoot_new []) = mkKfoot (KBody code hs (Some n) (firstn j b)) [] false).
  { cbn [ClientFoot.krun ClientFoot.kstep kfoot_new kf_closed kf_stage kf_queue app]. rewrite (turn_head false head code hs _ P L (le_n _)). cbn [andb]. rewrite Lg, K0. cbn [kf_closed kf_stage kf_queue app]. unfold ClientFoot.kturn. cbn [kf_stage kf_queue kf_closed length app andb]. replace (Nat.min j (n - 0)) with j by lia.
    rewrite (firstn_all2 (firstn j b)), (skipn_all2 (firstn j b)) by (rewrite firstn_length; lia). unfold ClientFoot.k_bodies. rewrite Hd, (proj2 (Nat.leb_gt _ _)) by (rewrite firstn_length; lia). reflexivity. }
  rewrite S1. split; [split; [unfold holding; cbn [kf_stage]; rewrite firstn_length; lia | reflexivity]|].
  cbn [ClientFoot.krun ClientFoot.kstep kf_closed kf_stage kf_queue app]. unfold ClientFoot.kturn. cbn [kf_stage kf_queue kf_closed andb].
  rewrite (firstn_all2 (skipn j b)), (skipn_all2 (skipn j b)) by (rewrite skipn_length, firstn_length; lia). rewrite firstn_skipn. unfold ClientFoot.k_bodies, ClientFoot.k_ends. rewrite Hd, De, Lb, Nat.leb_refl.
  unfold holding, spent. cbn [kf_stage]. split; [rewrite skipn_length; lia | reflexivity].
Qed.
Definition bare_head : bytes := u "HTTP/1.1 200 OK" ++ [13; 10; 13; 10]%N.
Lemma bare_parse : parse bare_head = PDone (200%N, []) [].
Proof. destruct trims; reflexivity. Qed.
Theorem no_bound : pr_method p <> MHead -> length bare_head <= room ->
  forall most, exists ls, most < holding (krun ls (kfoot_new [])) /\ spent (krun ls (kfoot_new [])) = None.
Proof.
  intros Hm L most. assert (Hd : is_head p = false) by (rewrite is_head_spec; destruct (pr_method p); congruence).
  exists [KArrive bare_head; KTurn (length bare_head); KArrive (repeat 0%N (S most)); KTurn (S most)].
  assert (K0 : forall held, k_bodies false 200%N [] None held = KBody 200%N [] None held) by (intros held; unfold ClientFoot.k_bodies; rewrite Hd; reflexivity).
  assert (S1 : krun [KArrive bare_head; KTurn (length bare_head); KArrive (repeat 0%N (S most)); KTurn (S most)] (kfoot_new []) = mkKfoot (KBody 200%N [] None (repeat 0%N (S most))) [] false).
  { cbn [ClientFoot.krun ClientFoot.kstep kfoot_new kf_closed kf_stage kf_queue app]. rewrite (turn_head false bare_head 200%N [] _ bare_parse L (le_n _)). cbn [andb]. change (body_length []) with (@None nat). rewrite K0.
    cbn [kf_closed kf_stage kf_queue app]. unfold ClientFoot.kturn. cbn [kf_closed kf_stage kf_queue app andb]. rewrite K0, firstn_all2, skipn_all2 by (rewrite repeat_length; lia). reflexivity. }
  rewrite S1. unfold holding, spent. cbn [kf_stage]. rewrite repeat_length. split; [lia | reflexivity].
Qed.
End Foot.
