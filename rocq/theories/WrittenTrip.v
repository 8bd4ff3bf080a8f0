(** * What is written and what the other side is given of it (C07, C08, C13, C46, C64). *)
From Verif Require Import Base Utf8 Decimal DepUrl Serde Procedure ScalarSpec PathSpec FieldSpec SerPath SerQuery SerHeader SerRequest DePath DeQuery DeHeader DepHttp
  UrlProofs PathProofs PathTrip FieldProofs QueryProofs HeaderProofs FieldMore RequestSpec RequestTrip TypeSpec FieldExtra MapSpec MapTrip Json JsonText JsonSpec JsonDe JsonTrip JsonField JsonFieldProofs WrittenSpec.
Open Scope N_scope.

Section Written.
Context `{U : urlenv} `{F : floatlib}.

Lemma query_sent_pairs v l p x : query_written v = Some l -> pairs_ok l = true -> good_path p -> query_sent v p x -> query_pairs x = l.
Proof.
  intros W O G (s & E & P & _). destruct (query_through_url v l p W O G) as (s' & E' & x' & P' & Q & _). rewrite E in E'. injection E' as ->. rewrite P in P'. injection P' as ->. exact Q.
Qed.
Lemma query_sends v l p : query_written v = Some l -> pairs_ok l = true -> good_path p -> exists x, query_sent v p x /\ query_pairs x = l.
Proof. intros W O G. destruct (query_through_url v l p W O G) as (s & E & x & P & Q & R). exists x. split; [exists s; auto | exact Q]. Qed.
Lemma query_sent_written v p x : query_sent v p x -> exists l, query_written v = Some l.
Proof. intros (s & E & _). pose proof (ser_query_spec v) as S. destruct (query_written v) as [l|]; [eauto | congruence]. Qed.
Lemma header_sends v l len : header_written v = Some l -> header_sent v len (l ++ [length_header len]).
Proof. intros W. pose proof (ser_header_spec v []) as S. rewrite W in S. destruct S as (s & E & O). exists s. split; [exact E|]. rewrite O. reflexivity. Qed.
Lemma header_sent_written v len hs : header_sent v len hs -> exists l, header_written v = Some l /\ hs = l ++ [length_header len].
Proof. intros (s & E & ->). pose proof (ser_header_spec v []) as S. destruct (header_written v) as [l|]; [|congruence]. destruct S as (s' & E' & O). rewrite E in E'. injection E' as <-. rewrite O. eauto. Qed.

(** C07, C08 *)
Lemma query_trip_sent n fs vs p : NoDup (map fst fs) -> Forall (fun f => str_ok (fst f) = true) fs ->
  Forall2 (fun f v => fst v = fst f /\ query_faithful (snd f) (snd v)) fs vs -> good_path p ->
  exists x s', query_sent (SStruct n vs) p x /\ de_query (TStruct n fs) (qde_new (query_pairs x)) = Ok (SStruct n vs, s').
Proof.
  intros N O Q G. destruct (query_trip n fs vs N O Q) as (l & W & P & s' & D). destruct (query_sends _ _ p W P G) as (x & S & E). exists x, s'. rewrite E. auto.
Qed.
Lemma header_trip_sent n fs vs len : NoDup (map fst fs) -> Forall (fun f => lower_name (fst f) /\ fst f <> u "content-length") fs ->
  Forall2 (fun f v => fst v = fst f /\ header_faithful (snd f) (snd v)) fs vs ->
  exists hs s', header_sent (SStruct n vs) len hs /\ names_ok hs = true /\ de_header (TStruct n fs) (hde_new hs) = Ok (SStruct n vs, s').
Proof.
  intros N O Q. destruct (header_trip n fs vs N O Q) as (l & W & P & D). destruct (D len) as (s' & E). exists (l ++ [length_header len]), s'.
  split; [exact (header_sends _ _ _ W)|]. split; [|exact E]. unfold names_ok in *. rewrite forallb_app. apply andb_true_intro. split; [exact P | reflexivity].
Qed.
Lemma header_trip_sent_http `{httpenv} n fs vs len hs : NoDup (map fst fs) -> Forall (fun f => lower_name (fst f) /\ fst f <> u "content-length") fs ->
  Forall2 (fun f v => fst v = fst f /\ header_faithful (snd f) (snd v)) fs vs -> header_sent (SStruct n vs) len hs -> forallb safe_header hs = true ->
  exists hs' s', deliver hs = Some hs' /\ de_header (TStruct n fs) (hde_new hs') = Ok (SStruct n vs, s').
Proof.
  intros N O Q S Sf. destruct (header_sent_written _ _ _ S) as (l & W & ->). destruct (header_trip_http n fs vs len N O Q l W Sf) as (s & hs & s' & E & D & R).
  pose proof (ser_header_spec (SStruct n vs) []) as Z. rewrite W in Z. destruct Z as (s2 & E2 & O2). rewrite E in E2. injection E2 as <-. rewrite O2 in D. exists hs, s'. auto.
Qed.

(** C13 *)
Lemma query_true_sent n n' fs vs nm t v p x : NoDup (map fst fs) -> In (nm, t) fs -> In (nm, v) vs -> boolish t v -> incl (map fst vs) (map fst fs) ->
  wf_value (SStruct n vs) = true -> good_path p -> query_sent (SStruct n vs) p x -> exists e, de_query (TStruct n' fs) (qde_new (query_pairs x)) = Err e.
Proof.
  intros N I J B Ic Wf G S. destruct (query_sent_written _ _ _ S) as (l & W). rewrite (query_sent_pairs _ _ _ _ W (query_written_ok _ _ Wf W) G S). exact (query_true_refused n n' fs vs l nm t v N I J B Ic W).
Qed.
Lemma header_true_sent n n' fs vs nm t v len hs more : NoDup (map fst fs) -> In (nm, t) fs -> In (nm, v) vs -> boolish t v -> lower_name nm ->
  header_sent (SStruct n vs) len hs -> names_ok (hs ++ more) = true -> exists e, de_header (TStruct n' fs) (hde_new (hs ++ more)) = Err e.
Proof.
  intros N I J B L S O. destruct (header_sent_written _ _ _ S) as (l & W & ->). rewrite <- app_assoc in *. exact (header_true_refused n n' fs vs l nm t v _ N I J B L W O).
Qed.
Lemma query_false_sent n n' fs vs nm t v p x ws s' : NoDup (map fst fs) -> In (nm, t) fs -> In (nm, v) vs -> falsish t v -> incl (map fst vs) (map fst fs) ->
  wf_value (SStruct n vs) = true -> good_path p -> query_sent (SStruct n vs) p x -> de_query (TStruct n' fs) (qde_new (query_pairs x)) = Ok (SStruct n' ws, s') -> In (nm, v) ws.
Proof.
  intros N I J B Ic Wf G S. destruct (query_sent_written _ _ _ S) as (l & W). rewrite (query_sent_pairs _ _ _ _ W (query_written_ok _ _ Wf W) G S). exact (query_false_arrives n n' fs vs l nm t v ws s' N I J B Ic W).
Qed.
Lemma header_false_sent n n' fs vs nm t v len hs more ws s' : NoDup (map fst fs) -> In (nm, t) fs -> In (nm, v) vs -> falsish t v -> lower_name nm ->
  header_sent (SStruct n vs) len hs -> names_ok (hs ++ more) = true -> de_header (TStruct n' fs) (hde_new (hs ++ more)) = Ok (SStruct n' ws, s') -> In (nm, v) ws.
Proof.
  intros N I J B L S O. destruct (header_sent_written _ _ _ S) as (l & W & ->). rewrite <- app_assoc in *. exact (header_false_arrives n n' fs vs l nm t v _ ws s' N I J B L W O).
Qed.
Lemma pushes_good ss p : Forall path_safe ss -> good_path p -> good_path (fold_left push ss p).
Proof. intros S. revert p. induction S as [|s ss P S IH]; intros p G; [exact G|]. cbn [fold_left]. apply IH, good_push; [exact G | apply path_safe_ok, P]. Qed.
Lemma path_sent_fill ep vs ss segs : plain_entry ep -> length ss = var_count ep -> all_some (map scalar_text vs) = Some ss -> Forall path_safe ss ->
  path_sent ep (STuple vs) segs -> segs = fold_left push (fill ep ss) [[]].
Proof.
  intros Pe L A Sa (s & E & P). rewrite (ser_path_spec ep (STuple vs) [[]]) in E. cbn [path_args] in E. rewrite A, L, Nat.eqb_refl in E. injection E as <-. cbn [p_path] in P.
  rewrite parse_url_text in P; [injection P as <-; reflexivity | apply pushes_good; [apply fill_safe; assumption | apply good_root] | exact I].
Qed.
Lemma path_sent_texts ep vs segs : path_sent ep (STuple vs) segs -> exists ss, all_some (map scalar_text vs) = Some ss /\ length ss = var_count ep.
Proof.
  intros (s & E & _). rewrite (ser_path_spec ep (STuple vs) [[]]) in E. cbn [path_args] in E. destruct (all_some (map scalar_text vs)) as [ss|]; [|discriminate].
  destruct (Nat.eqb_spec (length ss) (var_count ep)) as [L|]; [eauto | discriminate].
Qed.
Lemma path_true_sent ep vs ss segs ts i t v ws s' : plain_entry ep -> length ts = var_count ep ->
  all_some (map scalar_text vs) = Some ss -> Forall path_safe ss -> first_ok (fill ep ss) ->
  nth_error ts i = Some t -> nth_error vs i = Some v -> boolish t v -> path_sent ep (STuple vs) segs ->
  de_path (TTuple ts) (mkPde false segs ep (var_count ep)) <> Ok (STuple ws, s').
Proof.
  intros P L A Sa O T V B S. destruct (path_sent_texts _ _ _ S) as (ss' & A' & L'). rewrite A in A'. injection A' as <-. rewrite (path_sent_fill ep vs ss segs P L' A Sa S).
  exact (path_true_refused ep vs ss ts i t v ws s' P L' L A Sa O T V B).
Qed.
Lemma path_false_sent ep vs ss segs ts i t v ws s' : plain_entry ep -> length ts = var_count ep ->
  all_some (map scalar_text vs) = Some ss -> Forall path_safe ss -> first_ok (fill ep ss) ->
  nth_error ts i = Some t -> nth_error vs i = Some v -> falsish t v -> path_sent ep (STuple vs) segs ->
  de_path (TTuple ts) (mkPde false segs ep (var_count ep)) = Ok (STuple ws, s') -> nth_error ws i = Some v.
Proof.
  intros P L A Sa O T V B S. destruct (path_sent_texts _ _ _ S) as (ss' & A' & L'). rewrite A in A'. injection A' as <-. rewrite (path_sent_fill ep vs ss segs P L' A Sa S).
  exact (path_false_arrives ep vs ss ts i t v ws s' P L' L A Sa O T V B).
Qed.

(** C64 *)
Lemma query_map_sent tk tv kvs p : NoDup (map fst kvs) -> Forall (fun kv => entry_faithful tk (fst kv) /\ query_faithful tv (snd kv)) kvs -> good_path p ->
  exists x s', query_sent (SMap kvs) p x /\ de_query (TMap tk tv) (qde_new (query_pairs x)) = Ok (SMap (present kvs), s').
Proof. intros N Q G. destruct (query_map_trip tk tv kvs N Q) as (l & W & P & s' & D). destruct (query_sends _ _ p W P G) as (x & S & E). exists x, s'. rewrite E. auto. Qed.
Lemma query_map_sent_same_iff tk tv kvs p x : NoDup (map fst kvs) -> Forall (fun kv => entry_faithful tk (fst kv) /\ query_faithful tv (snd kv)) kvs -> good_path p ->
  query_sent (SMap kvs) p x -> ((exists s', de_query (TMap tk tv) (qde_new (query_pairs x)) = Ok (SMap kvs, s')) <-> Forall (fun kv => snd kv <> SNone) kvs).
Proof.
  intros N Q G S. destruct (query_map_trip tk tv kvs N Q) as (l & W & P & _). rewrite (query_sent_pairs _ _ _ _ W P G S). exact (query_map_same_iff tk tv kvs l N Q W).
Qed.
Lemma query_whole_sent t v p : query_whole t v -> good_path p -> exists x s', query_sent v p x /\ de_query t (qde_new (query_pairs x)) = Ok (v, s').
Proof. intros Q G. destruct (query_whole_trip t v Q) as (l & W & P & s' & D). destruct (query_sends _ _ p W P G) as (x & S & E). exists x, s'. rewrite E. auto. Qed.
Lemma header_whole_sent t v len : header_whole t v -> exists hs s', header_sent v len hs /\ names_ok hs = true /\ de_header t (hde_new hs) = Ok (v, s').
Proof.
  intros Q. destruct (header_whole_trip t v Q) as (l & W & P & D). destruct (D len) as (s' & E). exists (l ++ [length_header len]), s'.
  split; [exact (header_sends _ _ _ W)|]. split; [|exact E]. unfold names_ok in *. rewrite forallb_app. apply andb_true_intro. split; [exact P | reflexivity].
Qed.
Lemma header_map_sent tk tv kvs len : NoDup (map fst kvs) ->
  Forall (fun kv => header_entry_faithful tk (fst kv) /\ header_faithful tv (snd kv) /\ exists k, cell header_leaf (fst kv) = Some (Some k) /\ lower_name k) kvs ->
  exists hs, header_sent (SMap kvs) len hs /\ names_ok hs = true /\
    forall kc, header_read tk (u "content-length") = Ok kc -> ~ In kc (map fst kvs) ->
    (forall vc, header_read tv (show_N len) = Ok vc -> exists s', de_header (TMap tk tv) (hde_new hs) = Ok (SMap (present kvs ++ [(kc, vc)]), s')) /\
    (forall e, header_read tv (show_N len) = Err e -> de_header (TMap tk tv) (hde_new hs) = Err e).
Proof.
  intros N Q. destruct (header_map_trip tk tv kvs N Q) as (l & W & P & D). exists (l ++ [length_header len]).
  split; [exact (header_sends _ _ _ W)|]. split; [|exact (D len)]. unfold names_ok in *. rewrite forallb_app. apply andb_true_intro. split; [exact P | reflexivity].
Qed.
Lemma header_map_sent_never tk tv kvs len hs s' : header_sent (SMap kvs) len hs ->
  (forall kc, header_read tk (u "content-length") = Ok kc -> ~ In kc (map fst kvs)) -> de_header (TMap tk tv) (hde_new hs) <> Ok (SMap kvs, s').
Proof. intros S K. destruct (header_sent_written _ _ _ S) as (l & W & ->). exact (header_map_never tk tv kvs l len s' W K). Qed.

(** C46 *)
Lemma query_json_sent `{jsonfloat} n fs vs p : NoDup (map fst fs) -> Forall (fun f => str_ok (fst f) = true) fs -> Forall2 (fits query_faithful) fs vs -> good_path p ->
  exists ws x s', Forall2 (fun f '(kv, kw) => field_value (fst (snd f)) (snd kv) = Ok (snd kw) /\ field_read (fst (snd f)) (snd (snd f)) (snd kw) = Ok (snd kv)) fs (combine vs ws) /\
    length ws = length vs /\ query_sent (SStruct n ws) p x /\ de_query (TStruct n (map wire_ty fs)) (qde_new (query_pairs x)) = Ok (SStruct n ws, s').
Proof.
  intros N O Q G. destruct (query_json n fs vs N O Q) as (ws & l & s' & A & L & W & P & D). destruct (query_sends _ _ p W P G) as (x & S & E). exists ws, x, s'. rewrite E. auto.
Qed.
Lemma header_json_sent `{jsonfloat} n fs vs len : NoDup (map fst fs) -> Forall (fun f => lower_name (fst f) /\ fst f <> u "content-length") fs -> Forall2 (fits header_faithful) fs vs ->
  exists ws hs s', Forall2 (fun f '(kv, kw) => field_value (fst (snd f)) (snd kv) = Ok (snd kw) /\ field_read (fst (snd f)) (snd (snd f)) (snd kw) = Ok (snd kv)) fs (combine vs ws) /\
    length ws = length vs /\ header_sent (SStruct n ws) len hs /\ names_ok hs = true /\ de_header (TStruct n (map wire_ty fs)) (hde_new hs) = Ok (SStruct n ws, s').
Proof.
  intros N O Q. destruct (header_json n fs vs N O Q) as (ws & l & A & L & W & P & D). destruct (D len) as (s' & E). exists ws, (l ++ [length_header len]), s'.
  split; [exact A|]. split; [exact L|]. split; [exact (header_sends _ _ _ W)|]. split; [|exact E]. unfold names_ok in *. rewrite forallb_app. apply andb_true_intro. split; [exact P | reflexivity].
Qed.
End Written.

(** To compute what is sent in a concrete case. *)
Ltac sent := eexists; split; [vm_compute; reflexivity|]; repeat split; vm_compute; reflexivity.
