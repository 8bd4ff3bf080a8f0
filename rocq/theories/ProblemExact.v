(** * The documents read as problems are exactly those that represent one (C53). *)
From Verif Require Import Base Utf8 Decimal Serde Status Json JsonText JsonSpec JsonProofs JsonSound JsonDe JsonTrip ValueInd ScalarSpec FieldSpec SerHeader SerRequest SerResponse
  DeHeader DeResponse DepHttp FieldProofs HeaderProofs RequestArrives ResponseSpec ResponseProofs ResponseTrip Problem ProblemSpec ProblemProofs JsonTypeSpec ProblemExactSpec.
Open Scope N_scope.

Lemma once_none l k : assoc k l = None <-> filter (fun m : ustr * json => ustr_eqb (fst m) k) l = [].
Proof.
  induction l as [|[x j] l IH]; [cbn; tauto|]. cbn [assoc filter fst]. destruct (ustr_eqb_spec k x) as [->|N].
  - rewrite ustr_eqb_refl. split; discriminate.
  - destruct (ustr_eqb_spec x k) as [->|]; [congruence | exact IH].
Qed.
Lemma once_cons_same k j l : at_most_once ((k, j) :: l) k <-> assoc k l = None.
Proof.
  unfold at_most_once. cbn [filter fst]. rewrite ustr_eqb_refl. cbn [length]. rewrite once_none. destruct (filter _ l); cbn [length]; split; intros Q; try reflexivity; try discriminate; lia.
Qed.
Lemma once_cons_other k x j l : x <> k -> at_most_once ((x, j) :: l) k <-> at_most_once l k.
Proof. intros N. unfold at_most_once. cbn [filter fst]. apply ustr_eqb_neq in N. rewrite N. tauto. Qed.

(** ** The tag *)
Lemma take_tag_some t : forall l rest x, take_tag (Some t) rest l = Ok x <-> assoc (u "type") l = None /\ x = (t, rest ++ untagged l).
Proof.
  induction l as [|[k j] l IH]; intros rest x.
  - cbn [take_tag assoc untagged filter]. rewrite app_nil_r. split; [intros [= <-]; auto | intros [_ ->]; reflexivity].
  - cbn [take_tag assoc]. unfold untagged. cbn [filter fst]. fold (untagged l). destruct (ustr_eqb_spec k (u "type")) as [->|N].
    + rewrite ustr_eqb_refl. split; [discriminate | intros [Q _]; discriminate Q].
    + destruct (ustr_eqb_spec (u "type") k) as [E|_]; [congruence|]. cbn [negb]. rewrite IH, <- app_assoc. reflexivity.
Qed.
Lemma take_tag_iff : forall l rest t r, take_tag None rest l = Ok (t, r) <->
  at_most_once l (u "type") /\ assoc (u "type") l = Some (JStr t) /\ r = rest ++ untagged l.
Proof.
  induction l as [|[k j] l IH]; intros rest t r.
  - cbn. split; [discriminate | intros (_ & Q & _); discriminate Q].
  - cbn [take_tag assoc]. unfold untagged. cbn [filter fst]. fold (untagged l). destruct (ustr_eqb_spec k (u "type")) as [->|N].
    + rewrite ustr_eqb_refl, once_cons_same. cbn [negb]. destruct j; try (split; [discriminate | intros (_ & Q & _); discriminate Q]).
      rewrite take_tag_some. split; [intros (A & [= <- ->]); auto | intros (A & [= <-] & ->); auto].
    + destruct (ustr_eqb_spec (u "type") k) as [E|_]; [congruence|]. cbn [negb]. rewrite IH, <- app_assoc, (once_cons_other _ _ _ _ N). reflexivity.
Qed.
Lemma untagged_once l k : k <> u "type" -> at_most_once (untagged l) k <-> at_most_once l k.
Proof.
  intros N. unfold at_most_once. replace (filter (fun m : ustr * json => ustr_eqb (fst m) k) (untagged l)) with (filter (fun m : ustr * json => ustr_eqb (fst m) k) l); [tauto|].
  induction l as [|[x j] l IH]; [reflexivity|]. unfold untagged. cbn [filter fst]. fold (untagged l). rewrite IH. destruct (ustr_eqb_spec x k) as [->|].
  - apply ustr_eqb_neq in N. rewrite N. cbn [negb filter fst]. rewrite ustr_eqb_refl. reflexivity.
  - destruct (ustr_eqb x (u "type")); cbn [negb filter fst]; [reflexivity|]. destruct (ustr_eqb_spec x k); [contradiction | reflexivity].
Qed.

(** ** The members *)
Lemma obj_loop_got decs : forall l got g k v, obj_loop decs got l = Ok g -> assoc k decs <> None -> assoc k got = Some v -> assoc k g = Some v /\ assoc k l = None.
Proof.
  induction l as [|[x j] l IH]; intros got g k v E D G; cbn [obj_loop] in E; [injection E as <-; auto|]. cbn [assoc].
  destruct (assoc x decs) as [d|] eqn:Dx.
  - destruct (assoc x got) eqn:Gx; [discriminate|]. destruct (d j) as [w|e| |]; try discriminate. cbn [bind] in E.
    destruct (IH (got ++ [(x, w)]) g k v E D) as [A B]; [rewrite assoc_app, G; reflexivity|]. split; [exact A|]. destruct (ustr_eqb_spec k x) as [->|]; [congruence | exact B].
  - destruct (IH got g k v E D G) as [A B]. split; [exact A|]. destruct (ustr_eqb_spec k x) as [->|]; [congruence | exact B].
Qed.
Lemma obj_loop_reads decs : forall l got g k d, obj_loop decs got l = Ok g -> assoc k decs = Some d -> assoc k got = None ->
  at_most_once l k /\ match assoc k l with None => assoc k g = None | Some j => exists v, d j = Ok v /\ assoc k g = Some v end.
Proof.
  induction l as [|[x j] l IH]; intros got g k d E D G; cbn [obj_loop] in E; [injection E as <-; split; [unfold at_most_once; cbn; lia | exact G]|]. cbn [assoc].
  destruct (ustr_eqb_spec k x) as [<-|N].
  - rewrite D, G in E. destruct (d j) as [w|e| |] eqn:Dj; try discriminate. cbn [bind] in E.
    destruct (obj_loop_got decs l (got ++ [(k, w)]) g k w E) as [A B]; [congruence | rewrite assoc_app, G; cbn; rewrite ustr_eqb_refl; reflexivity|].
    split; [apply once_cons_same, B | eauto].
  - rewrite once_cons_other by congruence. destruct (assoc x decs) as [dx|] eqn:Dx.
    + destruct (assoc x got) eqn:Gx; [discriminate|]. destruct (dx j) as [w|e| |]; try discriminate. cbn [bind] in E.
      apply (IH (got ++ [(x, w)]) g k d E D). rewrite assoc_app, G. cbn. apply ustr_eqb_neq in N. rewrite N. reflexivity.
    + exact (IH got g k d E D G).
Qed.

(** Members that do not matter may as well not be there. *)
Definition keep (ks : list ustr) (l : list (ustr * json)) := filter (fun m => existsb (ustr_eqb (fst m)) ks) l.
Lemma keep_in ks k : existsb (ustr_eqb k) ks = true <-> In k ks.
Proof. rewrite existsb_exists. split; [intros (x & I & E); apply ustr_eqb_eq in E; congruence | intros I; exists k; split; [exact I | apply ustr_eqb_refl]]. Qed.
Lemma keep_assoc ks l k : In k ks -> assoc k (keep ks l) = assoc k l.
Proof.
  intros I. induction l as [|[x j] l IH]; [reflexivity|]. unfold keep. cbn [filter fst assoc]. fold (keep ks l). destruct (existsb (ustr_eqb x) ks) eqn:E; cbn [assoc]; rewrite IH; [reflexivity|].
  destruct (ustr_eqb_spec k x) as [->|]; [|reflexivity]. apply keep_in in I. congruence.
Qed.
Lemma keep_nodup ks l : (forall k, In k ks -> at_most_once l k) -> NoDup (map fst (keep ks l)).
Proof.
  induction l as [|[x j] l IH]; intros O; [constructor|]. unfold keep. cbn [filter fst]. fold (keep ks l).
  assert (O' : forall k, In k ks -> at_most_once l k).
  { intros k I. specialize (O k I). unfold at_most_once in *. cbn [filter fst] in O. destruct (ustr_eqb x k); cbn [length] in O; lia. }
  destruct (existsb (ustr_eqb x) ks) eqn:E; [|exact (IH O')]. cbn [map fst]. constructor; [|exact (IH O')]. apply keep_in in E.
  pose proof (proj1 (once_cons_same x j l) (O x E)) as A. rewrite <- (keep_assoc ks l x E) in A. intros I. clear - A I.
  induction (keep ks l) as [|[y k] m IHm]; [contradiction|]. cbn [assoc map fst] in *. destruct (ustr_eqb_spec x y) as [->|N]; [discriminate|]. destruct I as [<-|I]; [congruence | exact (IHm A I)].
Qed.
Lemma obj_loop_keep decs ks : (forall k, assoc k decs <> None -> In k ks) -> forall l got, obj_loop decs got (keep ks l) = obj_loop decs got l.
Proof.
  intros K. induction l as [|[x j] l IH]; intros got; [reflexivity|]. unfold keep. cbn [filter fst obj_loop]. fold (keep ks l). destruct (existsb (ustr_eqb x) ks) eqn:E.
  - cbn [obj_loop]. destruct (assoc x decs) as [d|]; [|apply IH]. destruct (assoc x got); [reflexivity|]. destruct (d j) as [v|e| |]; try reflexivity. cbn [bind]. apply IH.
  - destruct (assoc x decs) as [d|] eqn:D; [|apply IH]. exfalso. assert (I : In x ks) by (apply K; congruence). apply keep_in in I. congruence.
Qed.
Lemma keep_untagged ks l : untagged (keep ks l) = keep ks (untagged l).
Proof.
  induction l as [|[x j] l IH]; [reflexivity|]. unfold keep, untagged in *. cbn [filter fst]. destruct (existsb (ustr_eqb x) ks) eqn:E, (negb (ustr_eqb x (u "type"))) eqn:N; cbn [filter fst]; rewrite ?E, ?N, IH; reflexivity.
Qed.

Section Proofs.
Context `{floatlib} `{jsonfloat}.
Variable url_norm : ustr -> option ustr.

Lemma decs_assoc fs k : assoc k (map (fun f : ustr * ty => (fst f, from_json (snd f))) fs) = option_map from_json (assoc k fs).
Proof. induction fs as [|[n t] fs IH]; [reflexivity|]. cbn [map assoc fst snd]. destruct (ustr_eqb k n); [reflexivity | exact IH]. Qed.

Lemma keep_read fs ks l : (forall k, assoc k fs <> None -> In k ks) -> read_fields fs (JObj (keep ks l)) = read_fields fs (JObj l).
Proof.
  intros K. unfold read_fields, json_struct. rewrite (obj_loop_keep _ ks); [reflexivity|]. intros k. rewrite decs_assoc. intros N. apply K. destruct (assoc k fs); [discriminate | elim N; reflexivity].
Qed.
Lemma describes_keep l p : describes url_norm l p -> describes url_norm (keep (known p) l) p.
Proof.
  intros D. assert (K : forall k, In k (known p) -> assoc k (keep (known p) l) = assoc k l) by (intros k; apply keep_assoc).
  destruct p as [title s|title s detail instance history]; unfold describes in *.
  - rewrite !K by (cbn; tauto). exact D.
  - unfold says in *. rewrite !K by (cbn; tauto). exact D.
Qed.
Lemma keep_same l p : (forall k, In k (known p) -> at_most_once l k) -> describes url_norm l p ->
  problem_of_json url_norm (JObj (keep (known p) l)) = problem_of_json url_norm (JObj l).
Proof.
  intros O D. assert (exists t, assoc (u "type") l = Some (JStr t) /\ match p with AboutBlank _ _ => t = about_tag | _ => t = trackable_tag end) as (t & At & Ht).
  { destruct p; unfold describes in D; [exists about_tag | exists trackable_tag]; tauto. }
  assert (Ty : In (u "type") (known p)) by (destruct p; left; reflexivity).
  unfold problem_of_json, tagged.
  assert (E1 : take_tag None [] l = Ok (t, untagged l)) by (apply take_tag_iff; auto).
  assert (E2 : take_tag None [] (keep (known p) l) = Ok (t, keep (known p) (untagged l))).
  { apply take_tag_iff. rewrite keep_assoc by exact Ty. split; [|split; [exact At | symmetry; apply keep_untagged]].
    pose proof (keep_nodup _ _ O) as ND. unfold at_most_once. assert (G : forall m : list (ustr * json), NoDup (map fst m) -> (length (filter (fun x => ustr_eqb (fst x) (u "type")) m) <= 1)%nat).
    { clear. induction m as [|[x j] m IH]; intros ND; [cbn; lia|]. inversion ND as [|? ? Nx ND']; subst. cbn [filter fst]. destruct (ustr_eqb_spec x (u "type")) as [->|]; [|apply IH, ND'].
      rewrite (proj1 (once_none m (u "type")) (assoc_none _ _ Nx)). cbn. lia. }
    apply G, ND. }
  rewrite E1, E2. cbn [bind]. destruct p as [title s|title s detail instance history]; subst t.
  - rewrite ustr_eqb_refl, keep_read; [reflexivity|]. intros k N. unfold trackable_fields, about_fields in N. cbn [app assoc] in N. cbn [known In]. repeat match type of N with context [ustr_eqb k ?x] => destruct (ustr_eqb_spec k x) as [Q|_]; [symmetry in Q; auto 10|] end. elim N. reflexivity.
  - change (ustr_eqb trackable_tag about_tag) with false. rewrite ustr_eqb_refl, keep_read; [reflexivity|]. intros k N. unfold trackable_fields, about_fields in N. cbn [app assoc] in N. cbn [known In].
    repeat match type of N with context [ustr_eqb k ?x] => destruct (ustr_eqb_spec k x) as [Q|_]; [symmetry in Q; auto 10|] end. elim N. reflexivity.
Qed.

Lemma obj_complete l p : problem_status p < 65536 -> (forall k, In k (known p) -> at_most_once l k) -> describes url_norm l p -> problem_of_json url_norm (JObj l) = Ok p.
Proof.
  intros R O D. rewrite <- (keep_same l p O D). apply describes_read; [apply keep_nodup, O | exact R | apply describes_keep, D].
Qed.

(** ** What the fields decode to *)
Lemma str_inv j v : from_json TStr j = Ok v -> exists s, j = JStr s /\ v = SStr s.
Proof. destruct j; cbn; try discriminate. intros [= <-]. eauto. Qed.
Lemma u16_inv j v : from_json (TInt U16) j = Ok v -> exists n, j = JInt (Z.of_N n) /\ n < 65536 /\ v = SInt U16 (Z.of_N n).
Proof.
  destruct j; cbn [from_json]; try discriminate. destruct (in_range U16 _) eqn:E; [|discriminate]. intros [= <-]. unfold in_range in E. cbn [imin imax] in E.
  exists (Z.to_N z). rewrite Z2N.id by lia. split; [reflexivity|]. split; [lia | reflexivity].
Qed.
Lemma opt_str_inv j v : from_json (TOption TStr) j = Ok v -> (j = JNull /\ v = SNone) \/ (exists s, j = JStr s /\ v = SSome (SStr s)).
Proof. destruct j; cbn; try discriminate; intros [= <-]; eauto. Qed.
Lemma strings_inv : forall l vs, arr_all (from_json TStr) l = Ok vs -> exists h, l = map JStr h /\ vs = map SStr h.
Proof.
  induction l as [|j l IH]; intros vs E; cbn [arr_all] in E; [injection E as <-; exists []; auto|].
  destruct (from_json TStr j) as [v|e| |] eqn:Ej; try discriminate. cbn [bind] in E. destruct (arr_all _ l) as [ws|e| |] eqn:El; try discriminate. cbn [bind] in E. injection E as <-.
  apply str_inv in Ej. destruct Ej as (s & -> & ->). destruct (IH ws eq_refl) as (h & -> & ->). exists (s :: h). auto.
Qed.
Lemma opt_seq_inv j v : from_json (TOption (TSeq TStr)) j = Ok v -> (j = JNull /\ v = SNone) \/ (exists h, j = JArr (map JStr h) /\ v = SSome (SSeq (map SStr h))).
Proof.
  destruct j; try (cbn; discriminate); [cbn; intros [= <-]; auto|].
  change (res_map SSome (vs <- arr_all (from_json TStr) l ;; Ok (SSeq vs)) = Ok v -> (JArr l = JNull /\ v = SNone) \/ (exists h, JArr l = JArr (map JStr h) /\ v = SSome (SSeq (map SStr h)))).
  destruct (arr_all _ l) as [vs|e| |] eqn:E; try discriminate. cbn. intros [= <-]. apply strings_inv in E. destruct E as (h & -> & ->). right. eauto.
Qed.

(** A field read from an object. *)
Lemma field_inv fs l g k t : obj_loop (map (fun f : ustr * ty => (fst f, from_json (snd f))) fs) [] l = Ok g -> assoc k fs = Some t ->
  at_most_once l k /\ match assoc k l with None => assoc k g = None | Some j => exists v, from_json t j = Ok v /\ assoc k g = Some v end.
Proof. intros E A. apply (obj_loop_reads _ l [] g k (from_json t) E); [rewrite decs_assoc, A; reflexivity | reflexivity]. Qed.

Lemma obj_sound l p : problem_of_json url_norm (JObj l) = Ok p -> problem_status p < 65536 /\ (forall k, In k (known p) -> at_most_once l k) /\ describes url_norm l p.
Proof.
  unfold problem_of_json, tagged. destruct (take_tag None [] l) as [[t c]|e| |] eqn:T; try discriminate. cbn [bind]. apply take_tag_iff in T. destruct T as (Ot & At & ->). cbn [app].
  assert (Nt : forall n : ustr, ustr_eqb n (u "type") = false -> assoc n (untagged l) = assoc n l) by (intros n E; apply untagged_assoc, ustr_eqb_neq, E).
  assert (No : forall n : ustr, ustr_eqb n (u "type") = false -> at_most_once (untagged l) n -> at_most_once l n) by (intros n E; apply untagged_once, ustr_eqb_neq, E).
  destruct (ustr_eqb_spec t about_tag) as [->|_]; [|destruct (ustr_eqb_spec t trackable_tag) as [->|_]; [|discriminate]].
  - unfold read_fields, json_struct. destruct (obj_loop _ [] (untagged l)) as [g|e| |] eqn:L; try discriminate. cbn [bind].
    destruct (field_inv _ _ _ (u "title") TStr L eq_refl) as [O1 F1]. destruct (field_inv _ _ _ (u "status") (TInt U16) L eq_refl) as [O2 F2].
    rewrite Nt in F1, F2 by reflexivity. apply No in O1, O2; try reflexivity. unfold about_fields. cbn [struct_fields].
    destruct (assoc (u "title") l) as [j1|] eqn:A1; [|rewrite F1; discriminate]. destruct F1 as (v1 & F1 & ->). cbn [bind].
    destruct (assoc (u "status") l) as [j2|] eqn:A2; [|rewrite F2; discriminate]. destruct F2 as (v2 & F2 & ->). cbn [bind].
    apply str_inv in F1. destruct F1 as (s & -> & ->). apply u16_inv in F2. destruct F2 as (n & -> & R & ->). intros [= <-].
    rewrite N2Z.id. unfold describes; cbn [problem_status known]. split; [exact R|]. split; [|split; [exact A2 | split; [exact At | exact A1]]].
    intros k [<-|[<-|[<-|[]]]]; assumption.
  - unfold read_fields, json_struct. destruct (obj_loop _ [] (untagged l)) as [g|e| |] eqn:L; try discriminate. cbn [bind].
    destruct (field_inv _ _ _ (u "title") TStr L eq_refl) as [O1 F1]. destruct (field_inv _ _ _ (u "status") (TInt U16) L eq_refl) as [O2 F2].
    destruct (field_inv _ _ _ (u "detail") (TOption TStr) L eq_refl) as [O3 F3]. destruct (field_inv _ _ _ (u "instance") (TOption TStr) L eq_refl) as [O4 F4].
    destruct (field_inv _ _ _ (u "history") (TOption (TSeq TStr)) L eq_refl) as [O5 F5].
    rewrite Nt in F1, F2, F3, F4, F5 by reflexivity. apply No in O1, O2, O3, O4, O5; try reflexivity. unfold trackable_fields, about_fields. cbn [app struct_fields].
    destruct (assoc (u "title") l) as [j1|] eqn:A1; [|rewrite F1; discriminate]. destruct F1 as (v1 & F1 & ->). cbn [bind].
    destruct (assoc (u "status") l) as [j2|] eqn:A2; [|rewrite F2; discriminate]. destruct F2 as (v2 & F2 & ->). cbn [bind].
    apply str_inv in F1. destruct F1 as (s & -> & ->). apply u16_inv in F2. destruct F2 as (n & -> & R & ->).
    assert (G : forall k ty v, match assoc k l with None => assoc k g = None | Some j => exists v, from_json (TOption ty) j = Ok v /\ assoc k g = Some v end ->
      (match assoc k g with Some v => Ok v | None => if is_option (TOption ty) then Ok SNone else Err Invalid end) = Ok v ->
      (assoc k l = None /\ v = SNone) \/ (exists j, assoc k l = Some j /\ from_json (TOption ty) j = Ok v)).
    { intros k ty v F E. destruct (assoc k l) as [j|].
      - right. exists j. split; [reflexivity|]. destruct F as (w & F & G). rewrite G in E. congruence.
      - left. rewrite F in E. cbn in E. split; [reflexivity | congruence]. }
    pose proof (fun v => G _ _ v F3) as G3. pose proof (fun v => G _ _ v F4) as G4. pose proof (fun v => G _ _ v F5) as G5. clear G F3 F4 F5.
    destruct (match assoc (u "detail") g with Some v => Ok v | None => if is_option (TOption TStr) then Ok SNone else Err Invalid end) as [v3|e| |]; try discriminate. specialize (G3 v3 eq_refl). cbn [bind].
    destruct (match assoc (u "instance") g with Some v => Ok v | None => if is_option (TOption TStr) then Ok SNone else Err Invalid end) as [v4|e| |]; try discriminate. specialize (G4 v4 eq_refl). cbn [bind].
    destruct (match assoc (u "history") g with Some v => Ok v | None => if is_option (TOption (TSeq TStr)) then Ok SNone else Err Invalid end) as [v5|e| |]; try discriminate. specialize (G5 v5 eq_refl). cbn [bind].
    rewrite N2Z.id.
    assert (S3 : says l (u "detail") JStr (opt_str v3)).
    { destruct G3 as [[A ->]|(j & A & F)]; [left; exact A|]. apply opt_str_inv in F. destruct F as [[-> ->]|(x & -> & ->)]; [right; exact A | exact A]. }
    assert (S5 : says l (u "history") (fun h => JArr (map JStr h)) (match v5 with SSome (SSeq l) => Some (strings l) | _ => None end)).
    { destruct G5 as [[A ->]|(j & A & F)]; [left; exact A|]. apply opt_seq_inv in F. destruct F as [[-> ->]|(x & -> & ->)]; [right; exact A | rewrite strings_of; exact A]. }
    assert (Kn : forall k, In k (known (Trackable s n None None None)) -> at_most_once l k) by (intros k Ik; cbn in Ik; repeat (destruct Ik as [<-|Ik]; [assumption|]); contradiction).
    destruct (opt_str v4) as [i|] eqn:O; [destruct (url_norm i) as [i'|] eqn:Un; [|discriminate]|]; cbn [bind]; intros [= <-]; unfold describes; cbn [problem_status].
    + split; [exact R|]. split; [exact Kn|]. split; [exact A2|]. split; [exact At|]. split; [exact A1|]. split; [exact S3|]. split; [exact S5|]. exists i. split; [|exact Un].
      destruct G4 as [[A ->]|(j & A & F)]; [discriminate O|]. apply opt_str_inv in F. destruct F as [[-> ->]|(x & -> & ->)]; [discriminate O|]. injection O as <-. exact A.
    + split; [exact R|]. split; [exact Kn|]. split; [exact A2|]. split; [exact At|]. split; [exact A1|]. split; [exact S3|]. split; [exact S5|].
      destruct G4 as [[A ->]|(j & A & F)]; [left; exact A|]. apply opt_str_inv in F. destruct F as [[-> ->]|(x & -> & ->)]; [right; exact A | discriminate O].
Qed.

(** ** Arrays *)
Lemma arr2 d1 d2 l vs : arr_exact [d1; d2] l = Ok vs <-> exists a b v1 v2, l = [a; b] /\ vs = [v1; v2] /\ d1 a = Ok v1 /\ d2 b = Ok v2.
Proof.
  split.
  - intros E. destruct l as [|a [|b [|c r]]]; cbn [arr_exact] in E; try discriminate.
    + destruct (d1 a); discriminate.
    + destruct (d1 a) as [v1|e| |] eqn:E1; try discriminate. cbn [bind] in E. destruct (d2 b) as [v2|e| |] eqn:E2; try discriminate. cbn [bind] in E. injection E as <-. exists a, b, v1, v2. auto.
    + destruct (d1 a); try discriminate. cbn [bind] in E. destruct (d2 b); discriminate.
  - intros (a & b & v1 & v2 & -> & -> & E1 & E2). cbn [arr_exact]. rewrite E1. cbn [bind]. rewrite E2. reflexivity.
Qed.
Lemma arr_cons d ds l vs : arr_exact (d :: ds) l = Ok vs <-> exists a l' v vs', l = a :: l' /\ vs = v :: vs' /\ d a = Ok v /\ arr_exact ds l' = Ok vs'.
Proof.
  split.
  - intros E. destruct l as [|a l']; cbn [arr_exact] in E; [discriminate|]. destruct (d a) as [v|e| |] eqn:E1; try discriminate. cbn [bind] in E.
    destruct (arr_exact ds l') as [vs'|e| |] eqn:E2; try discriminate. injection E as <-. exists a, l', v, vs'. auto.
  - intros (a & l' & v & vs' & -> & -> & E1 & E2). cbn [arr_exact]. rewrite E1. cbn [bind]. rewrite E2. reflexivity.
Qed.
Lemma arr_nil l vs : arr_exact [] l = Ok vs <-> l = [] /\ vs = [].
Proof. destruct l; cbn; split; [intros [= <-]; auto | intros [_ ->]; reflexivity | discriminate | intros [Q _]; discriminate Q]. Qed.

Lemma pad_about l : pad about_fields l = l.
Proof. unfold pad, about_fields. destruct l as [|a [|b r]]; cbn; rewrite ?app_nil_r; try reflexivity. destruct r; cbn; rewrite ?app_nil_r; reflexivity. Qed.
Lemma pad_trackable a b l' : (length l' <= 3)%nat -> pad trackable_fields (a :: b :: l') = [a; b; nth 0 l' JNull; nth 1 l' JNull; nth 2 l' JNull].
Proof. intros L. destruct l' as [|c [|d [|e [|f r]]]]; try reflexivity. cbn in L. lia. Qed.
Lemma pad_long a b l' x y z : pad trackable_fields (a :: b :: l') = [a; b; x; y; z] -> (length l' <= 3)%nat.
Proof. intros E. assert (L : length (pad trackable_fields (a :: b :: l')) = 5%nat) by (rewrite E; reflexivity). unfold pad in L. rewrite app_length in L. cbn [length] in L. lia. Qed.
Lemma nth_says {A} (f : A -> json) l n o : (forall x, f x <> JNull) -> elem_says l n f o <-> nth n l JNull = match o with Some x => f x | None => JNull end.
Proof.
  intros N. unfold elem_says. assert (E : nth n l JNull = match nth_error l n with Some j => j | None => JNull end).
  { destruct (nth_error l n) eqn:Q; [exact (nth_error_nth l n JNull Q)|]. apply nth_overflow, nth_error_None, Q. }
  rewrite E. destruct o as [x|], (nth_error l n) as [j|]; split; intros Q; try congruence; try tauto.
  all: try (elim (N x); congruence). all: try (destruct Q as [Q|Q]; congruence). all: try (rewrite Q; auto).
Qed.

Lemma arr_sound l p : problem_of_json url_norm (JArr l) = Ok p -> problem_status p < 65536 /\ listed url_norm l p.
Proof.
  unfold problem_of_json, tagged. destruct l as [|[| | | |t| |] l]; try discriminate. cbn [bind].
  destruct (ustr_eqb_spec t about_tag) as [->|_]; [|destruct (ustr_eqb_spec t trackable_tag) as [->|_]; [|discriminate]].
  - unfold read_fields, json_struct. rewrite pad_about. cbn [about_fields map fst snd].
    destruct (arr_exact _ l) as [vs|e| |] eqn:E; try discriminate. cbn [bind]. apply arr2 in E. destruct E as (a & b & v1 & v2 & -> & -> & E1 & E2). cbn [combine].
    apply str_inv in E1. destruct E1 as (s & -> & ->). apply u16_inv in E2. destruct E2 as (n & -> & R & ->). intros [= <-]. rewrite N2Z.id. split; [exact R | reflexivity].
  - unfold read_fields, json_struct. destruct (arr_exact _ (pad trackable_fields l)) as [vs|e| |] eqn:E; try discriminate. cbn [bind trackable_fields about_fields app map fst snd] in *.
    apply arr_cons in E. destruct E as (a & l1 & v1 & vs1 & E & -> & E1 & F). apply arr_cons in F. destruct F as (b & l2 & v2 & vs2 & -> & -> & E2 & F).
    apply arr_cons in F. destruct F as (c & l3 & v3 & vs3 & -> & -> & E3 & F). apply arr_cons in F. destruct F as (d & l4 & v4 & vs4 & -> & -> & E4 & F).
    apply arr_cons in F. destruct F as (f & l5 & v5 & vs5 & -> & -> & E5 & F). apply arr_nil in F. destruct F as [-> ->]. cbn [combine].
    apply str_inv in E1. destruct E1 as (s & -> & ->). apply u16_inv in E2. destruct E2 as (n & -> & R & ->).
    change ([(u "title", TStr); (u "status", TInt U16); (u "detail", TOption TStr); (u "instance", TOption TStr); (u "history", TOption (TSeq TStr))]) with trackable_fields in E.
    destruct l as [|a [|b l']]; [discriminate E | discriminate E|]. assert (Q : a = JStr s /\ b = JInt (Z.of_N n)) by (unfold pad in E; cbn [app] in E; injection E as -> -> _; auto). destruct Q as [-> ->].
    pose proof (pad_long _ _ _ _ _ _ E) as L. rewrite (pad_trackable _ _ _ L) in E. injection E as C D F. rewrite N2Z.id.
    assert (S3 : elem_says l' 0 JStr (opt_str v3)).
    { apply nth_says; [discriminate|]. rewrite C. apply opt_str_inv in E3. destruct E3 as [[-> ->]|(x & -> & ->)]; reflexivity. }
    assert (S5 : elem_says l' 2 (fun h => JArr (map JStr h)) (match v5 with SSome (SSeq l) => Some (strings l) | _ => None end)).
    { apply nth_says; [discriminate|]. rewrite F. apply opt_seq_inv in E5. destruct E5 as [[-> ->]|(x & -> & ->)]; [reflexivity|]. rewrite strings_of. reflexivity. }
    assert (S4 : elem_says l' 1 JStr (opt_str v4)).
    { apply nth_says; [discriminate|]. rewrite D. apply opt_str_inv in E4. destruct E4 as [[-> ->]|(x & -> & ->)]; reflexivity. }
    destruct (opt_str v4) as [i|] eqn:O; [destruct (url_norm i) as [i'|] eqn:Un; [|discriminate]|]; cbn [bind]; intros [= <-]; (split; [exact R|]); exists l'; (split; [reflexivity|]); (split; [exact L|]); (split; [exact S3|]);
      (split; [exact S5|]); [exists i; auto | exact S4].
Qed.

Lemma from_opt_str o : from_json (TOption TStr) (match o with Some x => JStr x | None => JNull end) = Ok (match o with Some x => SSome (SStr x) | None => SNone end).
Proof. destruct o; reflexivity. Qed.
Lemma from_u16 n : n < 65536 -> from_json (TInt U16) (JInt (Z.of_N n)) = Ok (SInt U16 (Z.of_N n)).
Proof. intros R. cbn [from_json]. replace (in_range U16 (Z.of_N n)) with true; [reflexivity|]. unfold in_range. cbn [imin imax]. symmetry. lia. Qed.
Lemma from_opt_seq o : from_json (TOption (TSeq TStr)) (match o with Some x => JArr (map JStr x) | None => JNull end) = Ok (match o with Some x => SSome (SSeq (map SStr x)) | None => SNone end).
Proof.
  destruct o as [h|]; [|reflexivity]. change (res_map SSome (vs <- arr_all (from_json TStr) (map JStr h) ;; Ok (SSeq vs)) = Ok (SSome (SSeq (map SStr h)))).
  rewrite from_strings. reflexivity.
Qed.
Lemma opt_str_some o : opt_str (match o with Some x => SSome (SStr x) | None => SNone end) = o.
Proof. destruct o; reflexivity. Qed.
Lemma arr_complete l p : problem_status p < 65536 -> listed url_norm l p -> problem_of_json url_norm (JArr l) = Ok p.
Proof.
  intros R. destruct p as [title s|title s detail instance history]; cbn [listed problem_status] in *.
  - intros ->. unfold problem_of_json, tagged. cbn [bind]. rewrite ustr_eqb_refl. unfold read_fields, json_struct. rewrite pad_about. cbn [about_fields map fst snd arr_exact].
    rewrite (from_u16 _ R). cbn [from_json bind combine map]. rewrite N2Z.id. reflexivity.
  - intros (l' & -> & L & D & Hi & I). unfold problem_of_json, tagged. cbn [bind]. change (ustr_eqb trackable_tag about_tag) with false. cbv iota. rewrite ustr_eqb_refl.
    unfold read_fields, json_struct. rewrite (pad_trackable _ _ _ L).
    apply nth_says in D; [|discriminate]. apply nth_says in Hi; [|discriminate]. rewrite D, Hi.
    assert (X : exists i, nth 1 l' JNull = match i with Some x => JStr x | None => JNull end /\
      match i with None => Ok None | Some s => match url_norm s with Some n => Ok (Some n) | None => Err Invalid end end = Ok instance).
    { destruct instance as [n|].
      - destruct I as (x & I & Un). exists (Some x). rewrite Un. split; [|reflexivity]. exact (nth_error_nth l' 1 JNull I).
      - exists None. split; [|reflexivity]. exact (proj1 (nth_says JStr l' 1 None ltac:(discriminate)) I). }
    destruct X as (i & -> & X). cbn [trackable_fields about_fields app map fst snd arr_exact].
    rewrite (from_u16 _ R), !from_opt_str, from_opt_seq. cbn [from_json bind combine map]. rewrite !opt_str_some, X. cbn [bind]. rewrite N2Z.id. destruct history; [rewrite strings_of|]; reflexivity.
Qed.

(** ** Together *)
Theorem problem_exact j p : problem_of_json url_norm j = Ok p <-> represents url_norm j p.
Proof.
  unfold represents. destruct j as [|b|z|t|s|l|l]; try (split; [discriminate | intros [_ []]]).
  - split; [apply arr_sound | intros [R L]; apply arr_complete; assumption].
  - split; [apply obj_sound | intros (R & O & D); apply obj_complete; assumption].
Qed.
Theorem problem_read_exact b p : problem_read url_norm b = Ok p <-> exists s j, utf8_decode b = Some s /\ json_document s j /\ represents url_norm j p.
Proof.
  unfold problem_read. destruct (utf8_decode b) as [s|]; [|split; [discriminate | intros (s & j & Q & _); discriminate Q]]. split.
  - destruct (parse_json s) as [j|e| |] eqn:E; try discriminate. cbn [bind]. intros P. exists s, j. split; [reflexivity|]. split; [apply parse_json_iff, E | apply problem_exact, P].
  - intros (s' & j & [= <-] & D & P). apply parse_json_iff in D. rewrite D. apply problem_exact, P.
Qed.
End Proofs.
