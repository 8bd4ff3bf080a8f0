(** * Integers as they are really written and read (C01, C60). *)
From Verif Require Import Base Utf8 Decimal DepUrl Serde ScalarSpec PathSpec FieldSpec Procedure Msgpack SerPath SerQuery SerHeader SerRequest DePath DeQuery DeHeader DepHttp
  UrlProofs PathProofs PathTrip FieldProofs QueryProofs HeaderProofs FieldMore TypeSpec RequestSpec RequestTrip FieldExtra WrittenSpec WrittenTrip ElementSpec ElementProofs.
Open Scope N_scope.

Section IntTrip.
Context `{U : urlenv} `{F : floatlib}.

(** A field whose text is read as its value arrives, whatever the other fields hold. *)
Lemma query_arrives n n' fs vs l nm t v y ws s' : NoDup (map fst fs) -> In (nm, t) fs -> In (nm, v) vs ->
  cell scalar_text v = Some (Some y) -> query_read t y = Ok v ->
  incl (map fst vs) (map fst fs) -> query_written (SStruct n vs) = Some l ->
  de_query (TStruct n' fs) (qde_new l) = Ok (SStruct n' ws, s') -> In (nm, v) ws.
Proof.
  intros N I Iv C Q In1 W D. pose proof (proj1 (de_query_struct n' fs l ws N) (ex_intro _ s' D)) as Fl.
  change (struct_pairs scalar_text (fun n => n) vs = Some l) in W.
  assert (K : forall k x, In (k, x) l -> smem k (map fst fs) = true).
  { intros k x J. destruct (struct_pairs_names _ _ _ _ _ _ W J) as (m & Im & ->). apply smem_In, In1, Im. }
  rewrite (walk_all_known _ _ K) in Fl.
  pose proof (struct_pairs_in _ _ _ _ _ _ _ W Iv C) as Il.
  destruct (filled_field _ _ _ _ _ _ Fl I) as (w & Iw & [(x & Ix & R)|(A & _ & _)]).
  - destruct Fl as [ND _].
    assert (x = y) as ->. { apply (In_assoc nm l x ND) in Ix. apply (In_assoc nm l _ ND) in Il. congruence. }
    rewrite Q in R. injection R as <-. exact Iw.
  - exfalso. exact (A _ Il).
Qed.
Lemma header_arrives n n' fs vs l nm t v y more ws s' : NoDup (map fst fs) -> In (nm, t) fs -> In (nm, v) vs ->
  cell header_leaf v = Some (Some y) -> header_read t y = Ok v ->
  lower_name nm -> header_written (SStruct n vs) = Some l -> names_ok (l ++ more) = true ->
  de_header (TStruct n' fs) (hde_new (l ++ more)) = Ok (SStruct n' ws, s') -> In (nm, v) ws.
Proof.
  intros N I Iv C Q [As Lo] W O D. pose proof (proj1 (de_header_struct n' fs (l ++ more) ws N O) (ex_intro _ s' D)) as Fl.
  change (struct_pairs header_leaf utf8_encode vs = Some l) in W.
  pose proof (struct_pairs_in _ _ _ _ _ _ _ W Iv C) as Il.
  rewrite (utf8_encode_ascii nm As) in Il.
  assert (Ir : In (nm, y) (relevant (map fst fs) (l ++ more))).
  { unfold relevant. apply filter_In. split.
    - apply in_map_iff. exists (nm, y). split; [cbn [fst snd]; rewrite Lo; reflexivity | apply in_or_app; left; exact Il].
    - cbn [fst]. apply smem_In. apply (in_map fst) in I. exact I. }
  destruct (filled_field _ _ _ _ _ _ Fl I) as (w & Iw & [(x & Ix & R)|(A & _ & _)]).
  - destruct Fl as [ND _].
    assert (x = y) as ->. { apply (In_assoc nm _ x ND) in Ix. apply (In_assoc nm _ _ ND) in Ir. congruence. }
    rewrite Q in R. injection R as <-. exact Iw.
  - exfalso. exact (A _ Ir).
Qed.

Lemma query_int_arrives n n' fs vs nm k z p x ws s' : NoDup (map fst fs) -> In (nm, TInt k) fs -> In (nm, SInt k z) vs -> in_range k z = true ->
  incl (map fst vs) (map fst fs) -> wf_value (SStruct n vs) = true -> good_path p -> query_sent (SStruct n vs) p x ->
  de_query (TStruct n' fs) (qde_new (query_pairs x)) = Ok (SStruct n' ws, s') -> In (nm, SInt k z) ws.
Proof.
  intros N I J B Ic Wf G S. destruct (query_sent_written _ _ _ S) as (l & W). rewrite (query_sent_pairs _ _ _ _ W (query_written_ok _ _ Wf W) G S).
  apply (query_arrives n n' fs vs l nm (TInt k) (SInt k z) (show_int z) ws s' N I J); [reflexivity | | exact Ic | exact W].
  cbn [query_read read_scalar]. rewrite (parse_show_int k z B). reflexivity.
Qed.
Lemma header_int_arrives n n' fs vs nm k z len hs more ws s' : NoDup (map fst fs) -> In (nm, TInt k) fs -> In (nm, SInt k z) vs -> in_range k z = true ->
  lower_name nm -> header_sent (SStruct n vs) len hs -> names_ok (hs ++ more) = true ->
  de_header (TStruct n' fs) (hde_new (hs ++ more)) = Ok (SStruct n' ws, s') -> In (nm, SInt k z) ws.
Proof.
  intros N I J B L S O. destruct (header_sent_written _ _ _ S) as (l & W & ->). rewrite <- app_assoc in *.
  destruct (header_scalar_cell (TInt k) (SInt k z)) as (b & C & R); [cbn; auto|].
  exact (header_arrives n n' fs vs l nm (TInt k) (SInt k z) b _ ws s' N I J C R L W O).
Qed.

(** A tuple of integers, and its type. *)
Definition int_value (kz : ikind * Z) : value := SInt (fst kz) (snd kz).
Definition int_ty (kz : ikind * Z) : ty := TInt (fst kz).
Lemma int_path_safe z : path_safe (show_int z).
Proof.
  pose proof (show_int_chars z) as C. rewrite forallb_forall in C.
  assert (D : forall c, In c (show_int z) -> 32 < c < 128 /\ c <> 46).
  { intros c I. specialize (C c I). unfold is_digit in C. lia. }
  split; [intros c I; specialize (D c I); lia|].
  split; [intros E; rewrite E in D; destruct (D 46 (or_introl eq_refl)); congruence|].
  split; [intros E; rewrite E in D; destruct (D 46 (or_introl eq_refl)); congruence|].
  intros _ a c b E _. apply D. rewrite E. apply in_or_app. right. left. reflexivity.
Qed.
Lemma ints_texts kzs : all_some (map scalar_text (map int_value kzs)) = Some (map (fun kz => show_int (snd kz)) kzs).
Proof. induction kzs as [|[k z] r IH]; [reflexivity|]. cbn [map int_value scalar_text all_some fst snd]. rewrite IH. reflexivity. Qed.
Lemma ints_first ep kzs : plain_entry ep -> first_ok (fill ep (map (fun kz : ikind * Z => show_int (snd kz)) kzs)).
Proof.
  intros P. destruct ep as [|[c|] ep]; [exact I | |].
  - cbn [fill]. destruct (P c (or_introl eq_refl)) as [N _]. destruct c; [congruence|]. exact I.
  - destruct kzs as [|[k z] r]; [exact I|]. cbn [map fill snd]. pose proof (show_int_nonempty z) as N. destruct (show_int z); [congruence|]. exact I.
Qed.
Lemma path_ints_trip ep kzs : plain_entry ep -> length kzs = var_count ep -> Forall (fun kz => in_range (fst kz) (snd kz) = true) kzs ->
  exists segs s', path_sent ep (STuple (map int_value kzs)) segs /\
    de_path (TTuple (map int_ty kzs)) (mkPde false segs ep (var_count ep)) = Ok (STuple (map int_value kzs), s').
Proof.
  intros P L R.
  destruct (path_trip_url ep (TTuple (map int_ty kzs)) (STuple (map int_value kzs)) (map int_ty kzs) (map int_value kzs) (map (fun kz => show_int (snd kz)) kzs)) as (p & s' & E1 & E2 & E3).
  - constructor.
  - exact P.
  - clear L. induction R as [|[k z] r X R IH]; cbn [map]; [constructor|]. constructor; [split; [reflexivity | exact X] | exact IH].
  - rewrite map_length. exact L.
  - apply ints_texts.
  - apply Forall_forall. intros x I. apply in_map_iff in I. destruct I as (kz & <- & _). apply int_path_safe.
  - apply ints_first, P.
  - exists (p_path p), s'. split; [exists p; auto | exact E3].
Qed.

(** ** How an integer is written *)
Lemma query_int_written n vs nm k z p x : In (nm, SInt k z) vs -> wf_value (SStruct n vs) = true -> good_path p -> query_sent (SStruct n vs) p x ->
  exists s, In (nm, s) (query_pairs x) /\ decimal z s.
Proof.
  intros J Wf G S. destruct (query_sent_written _ _ _ S) as (l & W). rewrite (query_sent_pairs _ _ _ _ W (query_written_ok _ _ Wf W) G S).
  change (struct_pairs scalar_text (fun n => n) vs = Some l) in W. exists (show_int z). split; [|apply decimal_exact; reflexivity].
  apply (struct_pairs_in _ _ _ _ _ _ _ W J). reflexivity.
Qed.
Lemma header_int_written n vs nm k z len hs : In (nm, SInt k z) vs -> header_sent (SStruct n vs) len hs ->
  exists s, In (utf8_encode nm, s) hs /\ decimal z s.
Proof.
  intros J S. destruct (header_sent_written _ _ _ S) as (l & W & ->).
  change (struct_pairs header_leaf utf8_encode vs = Some l) in W. exists (show_int z). split; [|apply decimal_exact; reflexivity].
  apply in_or_app. left. apply (struct_pairs_in _ _ _ _ _ _ _ W J). cbn [cell header_leaf scalar_text option_map]. rewrite (utf8_encode_ascii _ (int_text_ascii z)). reflexivity.
Qed.
Lemma int_chars z c : In c (show_int z) -> plain_char c.
Proof.
  pose proof (show_int_chars z) as C. rewrite forallb_forall in C. intros I. specialize (C c I). unfold is_digit in C.
  split; [lia|]. split; [|lia]. cbn [In]. intros X. repeat (destruct X as [<-|X]; [discriminate C|]). exact X.
Qed.
Lemma fill_enc ep : forall kzs, plain_entry ep -> map enc (fill ep (map (fun kz : ikind * Z => show_int (snd kz)) kzs)) = fill ep (map (fun kz => show_int (snd kz)) kzs).
Proof.
  induction ep as [|[c|] ep IH]; intros kzs P; [reflexivity | |].
  - cbn [fill map]. rewrite IH by (intros d I; apply P; right; exact I). destruct (P c (or_introl eq_refl)) as (_ & Q & _). rewrite (plain_enc c Q). reflexivity.
  - destruct kzs as [|[k z] r]; [reflexivity|]. cbn [fill map snd]. rewrite IH by (intros d I; apply P; right; exact I). rewrite (plain_enc _ (int_chars z)). reflexivity.
Qed.
Lemma path_ints_written ep kzs segs : plain_entry ep -> ep <> [] -> length kzs = var_count ep -> path_sent ep (STuple (map int_value kzs)) segs ->
  exists ss, segs = fill ep ss /\ Forall2 (fun kz s => decimal (snd kz) s) kzs ss.
Proof.
  intros P N L S. set (ss := map (fun kz : ikind * Z => show_int (snd kz)) kzs).
  assert (Sa : Forall path_safe ss). { apply Forall_forall. intros x I. apply in_map_iff in I. destruct I as (kz & <- & _). apply int_path_safe. }
  assert (Ls : length ss = var_count ep) by (unfold ss; rewrite map_length; exact L).
  exists ss. split.
  - rewrite (path_sent_fill ep (map int_value kzs) ss segs P Ls (ints_texts kzs) Sa S), (push_root _ (fill_safe ep ss P Sa) (ints_first ep kzs P)).
    assert (X : fill ep ss <> []). { unfold ss in *. destruct ep as [|[c|] ep]; [congruence | discriminate|]. destruct kzs as [|[k z] r]; [discriminate L | discriminate]. }
    destruct (fill ep ss) eqn:E; [congruence|]. rewrite <- E. apply fill_enc, P.
  - unfold ss. clear. induction kzs as [|kz r IH]; constructor; [apply decimal_exact; reflexivity | exact IH].
Qed.
End IntTrip.
