(** * Consequences of the exact descriptions of query and header decoding. *)
From Verif Require Import Base Utf8 Decimal DepUrl Serde ScalarSpec FieldSpec Msgpack SerQuery SerHeader SerRequest DeQuery DeHeader DepHttp
  UrlProofs FieldProofs QueryProofs HeaderProofs.
Open Scope N_scope.

Section FieldMore.
Context `{floatlib}.

(** ** One field of a filled struct *)
Lemma filled_field {X} (read : ty -> X -> res value) fs asg vs nm t : filled read fs asg vs -> In (nm, t) fs ->
  exists v, In (nm, v) vs /\
    ((exists x, In (nm, x) asg /\ read t x = Ok v) \/
     ((forall x, ~ In (nm, x) asg) /\ (exists t', t = TOption t') /\ v = SNone)).
Proof.
  intros [_ F] I. induction F as [|f v fs vs [E P] F IH]; [contradiction|]. destruct I as [->|I].
  - exists (snd v). cbn [fst snd] in *. split; [left; destruct v; cbn in *; congruence | exact P].
  - destruct (IH I) as (v' & I' & P'). exists v'. split; [right; exact I' | exact P'].
Qed.

Lemma de_query_shape n fs s v s' : de_query (TStruct n fs) s = Ok (v, s') -> exists vs, v = SStruct n vs.
Proof.
  cbn [de_query]. destruct (query_enter s) as [s1| | |]; cbn [bind]; try discriminate.
  destruct (visit_struct _ _ _ _ _ _) as [[vs s2]| | |]; cbn [bind]; try discriminate. intros [= <- _]. eauto.
Qed.
Lemma de_header_shape n fs s v s' : de_header (TStruct n fs) s = Ok (v, s') -> exists vs, v = SStruct n vs.
Proof.
  cbn [de_header]. destruct (header_enter s) as [s1| | |]; cbn [bind]; try discriminate.
  destruct (visit_struct _ _ _ _ _ _) as [[vs s2]| | |]; cbn [bind]; try discriminate. intros [= <- _]. eauto.
Qed.

Lemma query_refuse n fs l : NoDup (map fst fs) -> (forall vs, ~ filled query_read fs (walk (map fst fs) (flat l)) vs) ->
  exists e, de_query (TStruct n fs) (qde_new l) = Err e.
Proof.
  intros N F. pose proof (query_struct_safe n fs l) as S.
  destruct (de_query (TStruct n fs) (qde_new l)) as [[v s']|e| |] eqn:E; [|eauto | contradiction | contradiction].
  destruct (de_query_shape _ _ _ _ _ E) as [vs ->]. exfalso. apply (F vs). apply (de_query_struct n fs l vs N). eauto.
Qed.
Lemma header_refuse n fs hs : NoDup (map fst fs) -> names_ok hs = true ->
  (forall vs, ~ filled header_read fs (relevant (map fst fs) hs) vs) ->
  exists e, de_header (TStruct n fs) (hde_new hs) = Err e.
Proof.
  intros N O F. pose proof (header_struct_safe n fs hs O) as S.
  destruct (de_header (TStruct n fs) (hde_new hs)) as [[v s']|e| |] eqn:E; [|eauto | contradiction | contradiction].
  destruct (de_header_shape _ _ _ _ _ E) as [vs ->]. exfalso. apply (F vs). apply (de_header_struct n fs hs vs N O). eauto.
Qed.

(** ** Integers (C01) *)
Lemma query_int_field n fs l vs s' nm k : NoDup (map fst fs) -> In (nm, TInt k) fs ->
  de_query (TStruct n fs) (qde_new l) = Ok (SStruct n vs, s') ->
  exists x z, In (nm, x) (walk (map fst fs) (flat l)) /\ In (nm, SInt k z) vs /\ int_text k x z.
Proof.
  intros N I D. pose proof (proj1 (de_query_struct n fs l vs N) (ex_intro _ s' D)) as F.
  destruct (filled_field _ _ _ _ _ _ F I) as (v & Iv & [(x & Ix & R)|(_ & (t' & ?) & _)]); [|discriminate].
  cbn in R. destruct (parse_int k x) as [z|] eqn:P; [|discriminate]. injection R as <-.
  exists x, z. split; [exact Ix|]. split; [exact Iv | apply parse_int_spec, P].
Qed.
Lemma query_int_iff n nm k x z :
  (exists s', de_query (TStruct n [(nm, TInt k)]) (qde_new [(nm, x)]) = Ok (SStruct n [(nm, SInt k z)], s')) <-> int_text k x z.
Proof.
  rewrite (de_query_struct n [(nm, TInt k)] [(nm, x)] [(nm, SInt k z)]); [|repeat constructor; intros []].
  cbn [map fst flat walk]. unfold smem. cbn [existsb]. rewrite ustr_eqb_refl. cbn [orb].
  rewrite <- parse_int_spec. split.
  - intros [_ F]. inversion F as [|? ? ? ? [_ P] _]; subst. destruct P as [(y & [[= <-]|[]] & R)|(_ & (t & ?) & _)]; [|discriminate].
    cbn in R. destruct (parse_int k x); [injection R as ->; reflexivity | discriminate].
  - intros P. split; [repeat constructor; intros [] |]. apply Forall2_cons; [|constructor]. split; [reflexivity|]. left. exists x. split; [left; reflexivity|].
    cbn. rewrite P. reflexivity.
Qed.
Lemma header_int_field n fs hs vs s' nm k : NoDup (map fst fs) -> names_ok hs = true -> In (nm, TInt k) fs ->
  de_header (TStruct n fs) (hde_new hs) = Ok (SStruct n vs, s') ->
  exists h s z, In h hs /\ lowercase (fst h) = nm /\ utf8_decode (snd h) = Some s /\ In (nm, SInt k z) vs /\ int_text k s z.
Proof.
  intros N O I D. pose proof (proj1 (de_header_struct n fs hs vs N O) (ex_intro _ s' D)) as F.
  destruct (filled_field _ _ _ _ _ _ F I) as (v & Iv & [(x & Ix & R)|(_ & (t' & ?) & _)]); [|discriminate].
  cbn in R. destruct (utf8_decode x) as [s|] eqn:U; [|discriminate].
  destruct (parse_int k s) as [z|] eqn:P; [|discriminate]. injection R as <-.
  unfold relevant in Ix. apply filter_In in Ix. destruct Ix as [Ix _]. apply in_map_iff in Ix. destruct Ix as (h & [= E1 E2] & Ih).
  exists h, s, z. rewrite E2. split; [exact Ih|]. split; [exact E1|]. split; [exact U|]. split; [exact Iv | apply parse_int_spec, P].
Qed.

(** ** Refused types (C13-C15) *)
Lemma unreadable_query t x v : unreadable t -> query_read t x <> Ok v.
Proof.
  intros U. revert v. induction U; intros w; cbn; try discriminate. destruct (query_read t x) eqn:E; cbn; try discriminate.
  exfalso. eapply IHU. reflexivity.
Qed.
Lemma unreadable_header t x v : unreadable t -> header_read t x <> Ok v.
Proof.
  intros U. revert v. induction U; intros w; cbn; try discriminate. destruct (header_read t x) eqn:E; cbn; try discriminate.
  exfalso. eapply IHU. reflexivity.
Qed.
Lemma unreadable_not_option t t' : unreadable t -> t <> TOption t'.
Proof. intros []; discriminate. Qed.

Lemma query_unreadable n fs l nm t : NoDup (map fst fs) -> In (nm, t) fs -> unreadable t ->
  exists e, de_query (TStruct n fs) (qde_new l) = Err e.
Proof.
  intros N I U. apply query_refuse; [exact N|]. intros vs F.
  destruct (filled_field _ _ _ _ _ _ F I) as (v & _ & [(x & _ & R)|(_ & (t' & E) & _)]).
  - exact (unreadable_query _ _ _ U R).
  - exact (unreadable_not_option _ _ U E).
Qed.
Lemma header_unreadable n fs hs nm t : NoDup (map fst fs) -> names_ok hs = true -> In (nm, t) fs -> unreadable t \/ t = TUnit ->
  exists e, de_header (TStruct n fs) (hde_new hs) = Err e.
Proof.
  intros N O I U. apply header_refuse; [exact N | exact O|]. intros vs F.
  destruct (filled_field _ _ _ _ _ _ F I) as (v & _ & [(x & _ & R)|(_ & (t' & E) & _)]).
  - destruct U as [U | ->]; [exact (unreadable_header _ _ _ U R) | discriminate].
  - destruct U as [U | ->]; [exact (unreadable_not_option _ _ U E) | discriminate].
Qed.
Lemma query_unreadable_option n fs l nm t vs s' : NoDup (map fst fs) -> In (nm, TOption t) fs -> unreadable t ->
  de_query (TStruct n fs) (qde_new l) = Ok (SStruct n vs, s') ->
  In (nm, SNone) vs /\ forall x, ~ In (nm, x) (walk (map fst fs) (flat l)).
Proof.
  intros N I U D. pose proof (proj1 (de_query_struct n fs l vs N) (ex_intro _ s' D)) as F.
  destruct (filled_field _ _ _ _ _ _ F I) as (v & Iv & [(x & _ & R)|(A & _ & ->)]); [|auto].
  exfalso. cbn in R. destruct (query_read t x) eqn:E; cbn in R; try discriminate. exact (unreadable_query _ _ _ U E).
Qed.
Lemma header_unreadable_option n fs hs nm t vs s' : NoDup (map fst fs) -> names_ok hs = true -> In (nm, TOption t) fs -> unreadable t ->
  de_header (TStruct n fs) (hde_new hs) = Ok (SStruct n vs, s') ->
  In (nm, SNone) vs /\ forall h, In h hs -> lowercase (fst h) <> nm.
Proof.
  intros N O I U D. pose proof (proj1 (de_header_struct n fs hs vs N O) (ex_intro _ s' D)) as F.
  destruct (filled_field _ _ _ _ _ _ F I) as (v & Iv & [(x & _ & R)|(A & _ & ->)]).
  - exfalso. cbn in R. destruct (header_read t x) eqn:E; cbn in R; try discriminate. exact (unreadable_header _ _ _ U E).
  - split; [exact Iv|]. intros h Ih E. apply (A (snd h)). unfold relevant. apply filter_In. split.
    + apply in_map_iff. exists h. rewrite E. auto.
    + cbn [fst]. unfold smem. apply existsb_exists. exists nm. split; [|apply ustr_eqb_refl].
      apply (in_map fst) in I. exact I.
Qed.

Lemma boolish_cell t v : boolish t v -> cell scalar_text v = Some (Some (u "ture")) /\
  cell header_leaf v = Some (Some (u "ture")).
Proof. induction 1; cbn [cell]; auto. Qed.
Lemma boolish_query t v : boolish t v -> query_read t (u "ture") = Err Invalid.
Proof. induction 1; cbn [query_read]; [reflexivity | rewrite IHboolish; reflexivity | rewrite IHboolish; reflexivity]. Qed.
Lemma boolish_header t v : boolish t v -> header_read t (u "ture") = Err Invalid.
Proof. induction 1; cbn [header_read]; [reflexivity | rewrite IHboolish; reflexivity | rewrite IHboolish; reflexivity]. Qed.

Lemma struct_pairs_in {X} (leaf : value -> option X) nm : forall vs l n v x,
  struct_pairs leaf nm vs = Some l -> In (n, v) vs -> cell leaf v = Some (Some x) -> In (nm n, x) l.
Proof.
  induction vs as [|[n' v'] vs IH]; intros l n v x S I C; [contradiction|]. cbn [struct_pairs] in S.
  destruct I as [E|I].
  - injection E as -> ->. rewrite C in S. destruct (struct_pairs leaf nm vs); [|discriminate]. injection S as <-. left; reflexivity.
  - destruct (cell leaf v') as [[y|]|]; [| |discriminate].
    + destruct (struct_pairs leaf nm vs) as [l'|] eqn:S'; [|discriminate]. injection S as <-. right. eapply IH; eauto.
    + destruct (struct_pairs leaf nm vs) as [l'|] eqn:S'; [|discriminate]. injection S as <-. eapply IH; eauto.
Qed.
Lemma struct_pairs_names {X} (leaf : value -> option X) nm : forall vs l k x,
  struct_pairs leaf nm vs = Some l -> In (k, x) l -> exists n, In n (map fst vs) /\ k = nm n.
Proof.
  induction vs as [|[n' v'] vs IH]; intros l k x S I; cbn [struct_pairs] in S; [injection S as <-; contradiction|].
  destruct (cell leaf v') as [[y|]|]; [| |discriminate];
    (destruct (struct_pairs leaf nm vs) as [l'|] eqn:S'; [|discriminate]); injection S as <-.
  - destruct I as [[= <- _]|I]; [exists n'; split; [left; reflexivity | reflexivity]|].
    destruct (IH l' k x eq_refl I) as (m & Im & ->). exists m. split; [right; exact Im | reflexivity].
  - destruct (IH l' k x eq_refl I) as (m & Im & ->). exists m. split; [right; exact Im | reflexivity].
Qed.

Lemma smem_In k l : smem k l = true <-> In k l.
Proof.
  unfold smem. rewrite existsb_exists. split.
  - intros (x & I & E). apply ustr_eqb_eq in E. subst. exact I.
  - intros I. exists k. split; [exact I | apply ustr_eqb_refl].
Qed.

Lemma query_true_refused n n' fs vs l nm t v : NoDup (map fst fs) -> In (nm, t) fs -> In (nm, v) vs -> boolish t v ->
  incl (map fst vs) (map fst fs) -> query_written (SStruct n vs) = Some l ->
  exists e, de_query (TStruct n' fs) (qde_new l) = Err e.
Proof.
  intros N I Iv B In1 W. apply query_refuse; [exact N|]. intros ws F.
  change (struct_pairs scalar_text (fun n => n) vs = Some l) in W.
  assert (K : forall k x, In (k, x) l -> smem k (map fst fs) = true).
  { intros k x J. destruct (struct_pairs_names _ _ _ _ _ _ W J) as (m & Im & ->). apply smem_In, In1, Im. }
  rewrite (walk_all_known _ _ K) in F.
  pose proof (struct_pairs_in _ _ _ _ _ _ _ W Iv (proj1 (boolish_cell _ _ B))) as Il.
  destruct (filled_field _ _ _ _ _ _ F I) as (w & _ & [(x & Ix & R)|(A & _ & _)]).
  - destruct F as [ND _].
    assert (x = u "ture") as ->. { apply (In_assoc nm l x ND) in Ix. apply (In_assoc nm l _ ND) in Il. congruence. }
    rewrite (boolish_query _ _ B) in R. discriminate.
  - exact (A _ Il).
Qed.

Lemma utf8_decode_ascii s : all_ascii s = true -> utf8_encode s = s.
Proof. intros A. apply utf8_encode_ascii, A. Qed.

Lemma header_true_refused n n' fs vs l nm t v more : NoDup (map fst fs) -> In (nm, t) fs -> In (nm, v) vs -> boolish t v ->
  lower_name nm -> header_written (SStruct n vs) = Some l -> names_ok (l ++ more) = true ->
  exists e, de_header (TStruct n' fs) (hde_new (l ++ more)) = Err e.
Proof.
  intros N I Iv B [As Lo] W O. apply header_refuse; [exact N | exact O|]. intros ws F.
  change (struct_pairs header_leaf utf8_encode vs = Some l) in W.
  pose proof (struct_pairs_in _ _ _ _ _ _ _ W Iv (proj2 (boolish_cell _ _ B))) as Il.
  rewrite (utf8_encode_ascii nm As) in Il.
  assert (Ir : In (nm, u "ture") (relevant (map fst fs) (l ++ more))).
  { unfold relevant. apply filter_In. split.
    - apply in_map_iff. exists (nm, u "ture"). split; [cbn [fst snd]; rewrite Lo; reflexivity | apply in_or_app; left; exact Il].
    - cbn [fst]. apply smem_In. apply (in_map fst) in I. exact I. }
  destruct (filled_field _ _ _ _ _ _ F I) as (w & _ & [(x & Ix & R)|(A & _ & _)]).
  - destruct F as [ND _].
    assert (x = u "ture") as ->. { apply (In_assoc nm _ x ND) in Ix. apply (In_assoc nm _ _ ND) in Ir. congruence. }
    rewrite (boolish_header _ _ B) in R. discriminate.
  - exact (A _ Ir).
Qed.

(** MessagePack *)
Lemma struct_pairs_unwritable {X} (leaf : value -> option X) nm : forall vs n v,
  In (n, v) vs -> cell leaf v = None -> struct_pairs leaf nm vs = None.
Proof.
  induction vs as [|[n' v'] vs IH]; intros n v I C; [contradiction|]. cbn [struct_pairs]. destruct I as [[= -> ->]|I].
  - rewrite C. reflexivity.
  - rewrite (IH _ _ I C). destruct (cell leaf v') as [[?|]|]; reflexivity.
Qed.
Lemma query_msgpack_not_written n vs nm packed : In (nm, msgpack_value packed) vs ->
  ser_query (SStruct n vs) qser_new = Err Invalid /\ ser_query (msgpack_value packed) qser_new = Err Invalid.
Proof.
  intros I. split.
  - pose proof (ser_query_spec (SStruct n vs)) as S. cbn [query_written written] in S.
    rewrite (struct_pairs_unwritable _ _ _ _ _ I) in S; [exact S | reflexivity].
  - exact (ser_query_spec (msgpack_value packed)).
Qed.
Lemma header_msgpack_not_written n vs nm packed hs : In (nm, msgpack_value packed) vs ->
  ser_header (SStruct n vs) (hser_new hs) = Err Invalid /\ ser_header (msgpack_value packed) (hser_new hs) = Err Invalid.
Proof.
  intros I. split.
  - pose proof (ser_header_spec (SStruct n vs) hs) as S. cbn [header_written written] in S.
    rewrite (struct_pairs_unwritable _ _ _ _ _ I) in S; [exact S | reflexivity].
  - exact (ser_header_spec (msgpack_value packed) hs).
Qed.

(** ** Unknown query parameters (C16) *)
Lemma flat_app l1 l2 : flat (l1 ++ l2) = flat l1 ++ flat l2.
Proof. induction l1 as [|[k v] l1 IH]; [reflexivity|]. cbn [flat app]. rewrite IH. reflexivity. Qed.
Lemma walk_known_app names : forall l ts, (forall k v, In (k, v) l -> smem k names = true) ->
  walk names (flat l ++ ts) = l ++ walk names ts.
Proof.
  induction l as [|[k v] l IH]; intros ts K; [reflexivity|]. cbn [flat app walk].
  rewrite (K k v (or_introl eq_refl)). f_equal. apply IH. intros. eapply K. right. eassumption.
Qed.

Lemma de_query_same n fs l l' : walk (map fst fs) (flat l) = walk (map fst fs) (flat l') ->
  res_map fst (de_query (TStruct n fs) (qde_new l)) = res_map fst (de_query (TStruct n fs) (qde_new l')).
Proof.
  intros R. cbn [de_query]. unfold query_enter, qde_new. cbn [qd_in_map negb assert_invalid bind qd_pending qd_rest].
  pose proof (visit_struct_same query_read fs de_query query_next_field query_skip (fun s => qd_in_map s = true)
    (fun s => walk (map fst fs) (texts s)) (fun s => length (texts s)) (query_turn fs) query_read_safe
    (query_fuel (mkQde true None l)) (mkQde true None l) (query_fuel (mkQde true None l')) (mkQde true None l')) as V.
  specialize (V eq_refl). unfold query_fuel, texts in V |- *. cbn [qd_rest qd_pending app] in V |- *. rewrite !flat_length in V.
  specialize (V ltac:(lia) eq_refl ltac:(lia) R).
  destruct (visit_struct (2 * length l + 2) _ _ _ fs _) as [[? ?]| | |],
           (visit_struct (2 * length l' + 2) _ _ _ fs _) as [[? ?]| | |]; cbn in *; congruence.
Qed.

Lemma query_unknown_last n fs l k x : (forall k' v, In (k', v) l -> In k' (map fst fs)) -> ~ In k (map fst fs) ->
  res_map fst (de_query (TStruct n fs) (qde_new (l ++ [(k, x)]))) = res_map fst (de_query (TStruct n fs) (qde_new l)).
Proof.
  intros K U. apply de_query_same. rewrite flat_app.
  assert (K' : forall k' v, In (k', v) l -> smem k' (map fst fs) = true) by (intros; apply smem_In; eauto).
  rewrite (walk_known_app _ _ _ K'), (walk_all_known _ _ K'). cbn [flat walk].
  destruct (smem k (map fst fs)) eqn:E; [apply smem_In in E; contradiction|]. cbn [walk]. apply app_nil_r.
Qed.

(** An unknown parameter whose value is a known name takes the following key for that name's value. *)
Lemma query_unknown_shifts n fs l1 k nm k2 x2 l2 vs : NoDup (map fst fs) ->
  (forall k' v, In (k', v) l1 -> In k' (map fst fs)) -> ~ In k (map fst fs) -> In nm (map fst fs) ->
  (exists s', de_query (TStruct n fs) (qde_new (l1 ++ (k, nm) :: (k2, x2) :: l2)) = Ok (SStruct n vs, s')) <->
  filled query_read fs (l1 ++ (nm, k2) :: walk (map fst fs) (x2 :: flat l2)) vs.
Proof.
  intros N K U I. rewrite (de_query_struct n fs _ vs N), flat_app, walk_known_app by (intros; apply smem_In; eauto).
  cbn [flat]. rewrite (eq_refl : walk (map fst fs) (k :: nm :: k2 :: x2 :: flat l2) =
    if smem k (map fst fs) then (k, nm) :: walk (map fst fs) (k2 :: x2 :: flat l2) else
    if smem nm (map fst fs) then (nm, k2) :: walk (map fst fs) (x2 :: flat l2) else walk (map fst fs) (k2 :: x2 :: flat l2)).
  destruct (smem k (map fst fs)) eqn:E; [apply smem_In in E; contradiction|].
  apply smem_In in I. rewrite I. reflexivity.
Qed.

(** ** Unknown headers (C17) and header names (C47) *)
Lemma with_extra_relevant names hs hs' : with_extra names hs hs' -> relevant names hs' = relevant names hs.
Proof.
  unfold relevant. induction 1 as [|h hs hs' W IH|h hs hs' U W IH]; [reflexivity| |]; cbn [map filter fst].
  - rewrite IH. reflexivity.
  - destruct (smem (lowercase (fst h)) names) eqn:E; [apply smem_In in E; contradiction | exact IH].
Qed.

Lemma same_letter_lower c d : same_letter c d -> lower c = lower d.
Proof.
  unfold lower, same_letter. intros S.
  destruct (65 <=? c) eqn:E1, (c <=? 90) eqn:E2, (65 <=? d) eqn:E3, (d <=? 90) eqn:E4; cbn [andb]; lia.
Qed.
Lemma same_name_lower a b : Forall2 same_letter a b -> lowercase a = lowercase b.
Proof. induction 1; cbn; [reflexivity|]. f_equal; [apply same_letter_lower; assumption | assumption]. Qed.
Lemma same_header_lower a b : Forall2 same_header a b ->
  map (fun h : rheader => (lowercase (fst h), snd h)) a = map (fun h : rheader => (lowercase (fst h), snd h)) b.
Proof.
  induction 1 as [|x y a b [L V] F IH]; [reflexivity|]. cbn [map]. rewrite (same_name_lower _ _ L), V, IH. reflexivity.
Qed.
Lemma same_letter_scalar c d : same_letter c d -> is_scalar c = is_scalar d.
Proof. unfold same_letter, is_scalar. intros S. destruct S as [->|[[? ->]|[? ->]]]; [reflexivity | lia | lia]. Qed.
Lemma same_header_ok a b : Forall2 same_header a b -> names_ok a = names_ok b.
Proof.
  unfold names_ok. induction 1 as [|x y a b [L V] F IH]; [reflexivity|]. cbn [forallb]. rewrite IH. f_equal.
  clear - L. unfold str_ok. induction L; [reflexivity|]. cbn [forallb]. rewrite IHL. f_equal. apply same_letter_scalar. assumption.
Qed.

Lemma header_case hs hs' : Forall2 same_header hs hs' -> names_ok hs = true -> forall t,
  res_map fst (de_header t (hde_new hs)) = res_map fst (de_header t (hde_new hs')).
Proof.
  intros S O. pose proof (same_header_ok _ _ S) as O'. rewrite O in O'. pose proof (same_header_lower _ _ S) as Lw.
  assert (NB : res_map fst (next_bytes (hde_new hs)) = res_map fst (next_bytes (hde_new hs'))).
  { destruct S as [|x y a b [L V] F]; [reflexivity|]. destruct x as [k v], y as [k' v']. cbn [next_bytes hde_new hd_rest hd_value res_map fst].
    cbn [fst] in L. rewrite (same_name_lower _ _ L). reflexivity. }
  assert (SC : forall A (p : ustr -> option A) mk, res_map fst (header_scalar p mk (hde_new hs)) = res_map fst (header_scalar p mk (hde_new hs'))).
  { intros A p mk. unfold header_scalar. destruct (next_bytes (hde_new hs)) as [[b1 s1]| | |], (next_bytes (hde_new hs')) as [[b2 s2]| | |];
      cbn [res_map fst bind] in *; try discriminate NB; try congruence. injection NB as ->.
    destruct (utf8_decode b2) as [x|]; cbn [ok_or_invalid bind]; [|reflexivity]. destruct (p x); reflexivity. }
  assert (SS : res_map fst (header_str (hde_new hs)) = res_map fst (header_str (hde_new hs'))).
  { unfold header_str. destruct (next_bytes (hde_new hs)) as [[b1 s1]| | |], (next_bytes (hde_new hs')) as [[b2 s2]| | |];
      cbn [res_map fst bind] in *; try discriminate NB; try congruence. injection NB as ->.
    destruct (utf8_decode b2); reflexivity. }
  induction t as [| k | | | | | | t IHt | | n | n t IHt | t IHt | ts | n ts | t1 IH1 t2 IH2 | n fs | n vs | ];
    try reflexivity; try apply SC; cbn [de_header].
  - destruct (header_str (hde_new hs)) as [[? ?]| | |], (header_str (hde_new hs')) as [[? ?]| | |];
      cbn [res_map fst bind] in *; congruence.
  - destruct (next_bytes (hde_new hs)) as [[? ?]| | |], (next_bytes (hde_new hs')) as [[? ?]| | |];
      cbn [res_map fst bind] in *; congruence.
  - destruct (de_header t (hde_new hs)) as [[? ?]| | |], (de_header t (hde_new hs')) as [[? ?]| | |];
      cbn [res_map fst bind] in *; congruence.
  - destruct (header_str (hde_new hs)) as [[x ?]| | |], (header_str (hde_new hs')) as [[y ?]| | |];
      cbn [res_map fst bind] in *; try congruence. injection SS as ->. destruct (ustr_eqb y n); reflexivity.
  - destruct (de_header t (hde_new hs)) as [[? ?]| | |], (de_header t (hde_new hs')) as [[? ?]| | |];
      cbn [res_map fst bind] in *; congruence.
  - destruct (de_header_map t1 t2 hs) as [s1 E1], (de_header_map t1 t2 hs') as [s2 E2]. cbn [de_header] in E1, E2. rewrite E1, E2.
    assert (M : map (fun h : rheader => (utf8_encode (lowercase (fst h)), snd h)) hs =
                map (fun h : rheader => (utf8_encode (lowercase (fst h)), snd h)) hs').
    { clear - Lw. revert hs' Lw. induction hs as [|x a IH]; intros [|y b] L; try discriminate; [reflexivity|].
      cbn [map] in *. injection L as L1 L2 L3. rewrite L1, L2, (IH b L3). reflexivity. }
    match goal with |- res_map _ (bind ?X _) = res_map _ (bind ?Y _) =>
      assert (XY : X = Y) by (f_equal; exact M); rewrite XY; destruct Y; reflexivity end.
  - apply (de_header_same n fs hs hs' O (eq_sym O')). unfold relevant. f_equal. exact Lw.
Qed.

Lemma lowercase_no_upper s c : In c (lowercase s) -> ~ (65 <= c <= 90).
Proof.
  unfold lowercase. rewrite in_map_iff. intros (d & <- & _). unfold lower.
  destruct (65 <=? d) eqn:E1, (d <=? 90) eqn:E2; cbn [andb]; lia.
Qed.
Lemma upper_never n fs hs vs s' nm t c : NoDup (map fst fs) -> names_ok hs = true -> In (nm, t) fs -> In c nm -> 65 <= c <= 90 ->
  de_header (TStruct n fs) (hde_new hs) = Ok (SStruct n vs, s') -> In (nm, SNone) vs /\ exists t', t = TOption t'.
Proof.
  intros N O I Ic C D. pose proof (proj1 (de_header_struct n fs hs vs N O) (ex_intro _ s' D)) as F.
  destruct (filled_field _ _ _ _ _ _ F I) as (v & Iv & [(x & Ix & _)|(_ & T & ->)]); [|auto].
  exfalso. unfold relevant in Ix. apply filter_In in Ix. destruct Ix as [Ix _]. apply in_map_iff in Ix.
  destruct Ix as (h & [= E _] & _). subst nm. exact (lowercase_no_upper _ _ Ic C).
Qed.

(** ** Duplicates (C18) *)
Lemma query_twice n fs l1 l2 l3 k x y : NoDup (map fst fs) ->
  (forall k' v, In (k', v) (l1 ++ (k, x) :: l2 ++ (k, y) :: l3) -> In k' (map fst fs)) ->
  exists e, de_query (TStruct n fs) (qde_new (l1 ++ (k, x) :: l2 ++ (k, y) :: l3)) = Err e.
Proof.
  intros N K. apply query_refuse; [exact N|]. intros vs [ND _].
  rewrite walk_all_known in ND by (intros; apply smem_In; eauto).
  rewrite map_app in ND. cbn [map fst] in ND. apply NoDup_remove_2 in ND. apply ND.
  apply in_or_app. right. rewrite map_app. apply in_or_app. right. left. reflexivity.
Qed.
Lemma header_twice n fs hs1 hs2 hs3 a b : NoDup (map fst fs) ->
  names_ok (hs1 ++ a :: hs2 ++ b :: hs3) = true ->
  lowercase (fst a) = lowercase (fst b) -> In (lowercase (fst a)) (map fst fs) ->
  exists e, de_header (TStruct n fs) (hde_new (hs1 ++ a :: hs2 ++ b :: hs3)) = Err e.
Proof.
  intros N O E I. apply header_refuse; [exact N | exact O|]. intros vs [ND _].
  unfold relevant in ND. rewrite map_app in ND. cbn [map] in ND. rewrite map_app in ND. cbn [map] in ND.
  rewrite filter_app in ND. cbn [filter fst] in ND. apply smem_In in I. rewrite I in ND.
  rewrite filter_app in ND. cbn [filter fst] in ND. rewrite <- E, I in ND.
  rewrite map_app in ND. cbn [map fst] in ND. apply NoDup_remove_2 in ND. apply ND.
  apply in_or_app. right. rewrite map_app. apply in_or_app. right. left. reflexivity.
Qed.

(** ** Through the URL (C03, C07) and through HTTP (C08) *)
Lemma query_through_url `{urlenv} v l p : query_written v = Some l -> pairs_ok l = true -> good_path p ->
  exists s, ser_query v qser_new = Ok s /\ exists x, parse_url (url_text p (Some (qs_text s))) = Some x /\ query_pairs x = l /\ u_path x = Some p.
Proof.
  intros W O G. pose proof (ser_query_spec v) as S. rewrite W in S. destruct S as (s & E & T).
  exists s. split; [exact E|]. rewrite T. eexists. split; [apply parse_url_text; [exact G | apply pairs_text_chars, O]|].
  split; [|reflexivity]. unfold query_pairs. cbn. apply form_parse_pairs, O.
Qed.

Lemma map_strings l : map_pairs scalar_text (map (fun kv => (SStr (fst kv), SStr (snd kv))) l) = Some l.
Proof. induction l as [|[k v] l IH]; [reflexivity|]. cbn [map map_pairs cell scalar_text option_map fst snd]. rewrite IH. reflexivity. Qed.

Lemma header_trip_http `{httpenv} n fs vs len : NoDup (map fst fs) ->
  Forall (fun f => lower_name (fst f) /\ fst f <> u "content-length") fs ->
  Forall2 (fun f v => fst v = fst f /\ header_faithful (snd f) (snd v)) fs vs ->
  forall l, header_written (SStruct n vs) = Some l -> forallb safe_header (l ++ [content_length len]) = true ->
  exists s hs s', ser_header (SStruct n vs) (hser_new []) = Ok s /\ deliver (hs_out s ++ [content_length len]) = Some hs /\
    de_header (TStruct n fs) (hde_new hs) = Ok (SStruct n vs, s').
Proof.
  intros N L F l W S. destruct (header_trip n fs vs N L F) as (l' & W' & _ & D). rewrite W in W'. injection W' as <-.
  pose proof (ser_header_spec (SStruct n vs) []) as Sp. rewrite W in Sp. destruct Sp as (s & E & T). cbn [app] in T.
  destruct (D len) as [s' D']. exists s, (l ++ [content_length len]), s'. rewrite T.
  split; [exact E|]. split; [apply deliver_safe, S | exact D'].
Qed.
End FieldMore.
