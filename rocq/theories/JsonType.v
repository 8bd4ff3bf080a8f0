(** * Decoding a JSON tree gives exactly the values it means (C54). *)
From Verif Require JsonTrip.
From Verif Require Import Base Utf8 Decimal Serde Json JsonText JsonSpec JsonProofs JsonSound JsonDe JsonTypeSpec ScalarSpec ValueInd TypeSpec TypeProofs Problem ProblemSpec ProblemProofs ProblemExactSpec ProblemExact JsonField.
Open Scope N_scope.

Lemma once_weaken k x j l : at_most_once ((x, j) :: l) k -> at_most_once l k.
Proof. unfold at_most_once. cbn [filter fst]. destruct (ustr_eqb x k); cbn [length]; lia. Qed.
Lemma obj_loop_ok decs : forall l got,
  (forall k d, assoc k decs = Some d -> at_most_once l k /\ (assoc k got <> None -> assoc k l = None) /\ forall j, assoc k l = Some j -> exists v, d j = Ok v) ->
  exists g, obj_loop decs got l = Ok g.
Proof.
  induction l as [|[x j] l IH]; intros got C; [exists got; reflexivity|]. cbn [obj_loop]. destruct (assoc x decs) as [d|] eqn:D.
  - destruct (C x d D) as (O & G & V). cbn [assoc] in G, V. rewrite ustr_eqb_refl in G, V. destruct (assoc x got) as [w|] eqn:E; [assert (Q : Some j = None) by (apply G; discriminate); discriminate Q|].
    destruct (V j eq_refl) as (v & ->). cbn [bind]. apply IH. intros k d' Dk. destruct (C k d' Dk) as (O' & G' & V'). cbn [assoc] in G', V'. split; [exact (once_weaken _ _ _ _ O')|].
    rewrite assoc_app. destruct (ustr_eqb_spec k x) as [->|N].
    + apply once_cons_same in O. split; [intros _; exact O | intros j' Q; congruence].
    + split; [|exact V']. intros Q. apply G'. destruct (assoc k got); [discriminate|]. cbn in Q. apply ustr_eqb_neq in N. rewrite N in Q. exact Q.
  - apply IH. intros k d' Dk. destruct (C k d' Dk) as (O' & G' & V'). cbn [assoc] in G', V'. destruct (ustr_eqb_spec k x) as [->|N]; [congruence|].
    split; [exact (once_weaken _ _ _ _ O')|]. split; assumption.
Qed.

Lemma key_iff t : forall s v, from_key t s = Ok v <-> key_means t s v.
Proof.
  induction t; intros s v; cbn [from_key]; try (split; [discriminate | intros Q; inversion Q]; fail).
  - split.
    + destruct (parse_int k s) eqn:P; [|discriminate]. intros [= <-]. constructor. apply parse_int_spec, P.
    + intros Q. inversion Q as [| |k0 s0 z I| | | |]; subst. apply parse_int_spec in I. rewrite I. reflexivity.
  - split; [|intros Q; inversion Q; reflexivity]. destruct s as [|c [|]]; try discriminate. intros [= <-]. constructor.
  - split; [intros [= <-]; constructor | intros Q; inversion Q; reflexivity].
  - split; [intros [= <-]; constructor | intros Q; inversion Q; reflexivity].
  - split.
    + intros E. apply res_map_Ok in E. destruct E as (w & E & ->). constructor. apply IHt, E.
    + intros Q. inversion Q as [| | | |t0 s0 w K| |]; subst. apply IHt in K. rewrite K. reflexivity.
  - split.
    + intros E. apply res_map_Ok in E. destruct E as (w & E & ->). constructor. apply IHt, E.
    + intros Q. inversion Q as [| | | | |n0 t0 s0 w K|]; subst. apply IHt in K. rewrite K. reflexivity.
  - split.
    + destruct (assoc s vs) as [[]|] eqn:A; try discriminate. intros [= <-]. constructor. exact A.
    + intros Q. inversion Q as [| | | | | |n0 vs0 x A]; subst. rewrite A. reflexivity.
Qed.
Lemma put_insert m k v : put m k v = map_insert k v m.
Proof.
  induction m as [|[k' v'] m IH]; cbn [put map_insert]; [reflexivity|]. rewrite IH. destruct (same_value k k') as [->|N].
  - rewrite (proj2 (JsonTrip.value_eqb_eq k' k') eq_refl). reflexivity.
  - destruct (value_eqb k k') eqn:E; [elim N; exact (proj1 (JsonTrip.value_eqb_eq k k') E) | reflexivity].
Qed.

Section Proofs.
Context `{floatlib} `{jsonfloat}.
Definition exact (t : ty) : Prop := forall j v, from_json t j = Ok v <-> means t j v.

Lemma bytes_iff l b : all_bytes l = Ok b <-> Forall (fun x => x < 256) b /\ l = map (fun x => JInt (Z.of_N x)) b.
Proof.
  split.
  - revert b. induction l as [|j l IH]; intros b E; cbn [all_bytes] in E; [injection E as <-; auto|]. unfold byte_of in E. destruct j; try discriminate.
    destruct (in_range U8 z) eqn:R; [|discriminate]. cbn [bind] in E. destruct (all_bytes l) as [bs|e| |]; try discriminate. cbn [bind] in E. injection E as <-.
    destruct (IH bs eq_refl) as [F ->]. unfold in_range in R. cbn [imin imax] in R. split; [constructor; [lia | exact F]|]. cbn [map]. rewrite Z2N.id by lia. reflexivity.
  - intros [F ->]. induction F as [|x b L F IH]; [reflexivity|]. cbn [map all_bytes byte_of]. replace (in_range U8 (Z.of_N x)) with true by (unfold in_range; cbn [imin imax]; lia).
    cbn [bind]. rewrite IH. cbn [bind]. rewrite N2Z.id. reflexivity.
Qed.
Lemma all_iff t : exact t -> forall l vs, arr_all (from_json t) l = Ok vs <-> Forall2 (means t) l vs.
Proof.
  intros X. induction l as [|j l IH]; intros vs; cbn [arr_all].
  - split; [intros [= <-]; constructor | intros Q; inversion Q; reflexivity].
  - split.
    + destruct (from_json t j) as [v|e| |] eqn:E; try discriminate. cbn [bind]. destruct (arr_all _ l) as [ws|e| |] eqn:El; try discriminate. cbn [bind]. intros [= <-].
      constructor; [apply X, E | apply IH; reflexivity].
    + intros Q. inversion Q as [|j0 v l0 ws M F]; subst. apply X in M. rewrite M. cbn [bind]. apply IH in F. rewrite F. reflexivity.
Qed.
Lemma elements_iff ts : Forall exact ts -> forall l vs, arr_exact (map from_json ts) l = Ok vs <-> elements ts l vs.
Proof.
  induction 1 as [|t ts X F IH]; intros l vs; cbn [map].
  - rewrite arr_nil. split; [intros [-> ->]; constructor | intros Q; inversion Q; auto].
  - rewrite arr_cons. split.
    + intros (a & l' & v & vs' & -> & -> & E & E'). constructor; [apply X, E | apply IH, E'].
    + intros Q. inversion Q as [|t0 ts0 j l0 v ws M R]; subst. exists j, l0, v, ws. split; [reflexivity|]. split; [reflexivity|]. split; [apply X, M | apply IH, R].
Qed.
Lemma entries_iff k t : exact t -> forall l m m', obj_all (from_key k) (from_json t) m l = Ok m' <->
  exists kvs, Forall2 (fun x kv => key_means k (fst x) (fst kv) /\ means t (snd x) (snd kv)) l kvs /\ m' = fold_left (fun m kv => put m (fst kv) (snd kv)) kvs m.
Proof.
  intros X. induction l as [|[x j] l IH]; intros m m'; cbn [obj_all].
  - split; [intros [= <-]; exists []; split; [constructor | reflexivity] | intros (kvs & F & ->); inversion F; reflexivity].
  - split.
    + destruct (from_key k x) as [kx|e| |] eqn:Ek; try discriminate. cbn [bind]. destruct (from_json t j) as [v|e| |] eqn:Ev; try discriminate. cbn [bind]. intros E.
      apply IH in E. destruct E as (kvs & F & ->). exists ((kx, v) :: kvs). split; [constructor; [split; [apply key_iff, Ek | apply X, Ev] | exact F]|]. cbn [fold_left fst snd]. rewrite put_insert. reflexivity.
    + intros (kvs & F & ->). inversion F as [|? [kx v] ? kvs' [K M] F']; subst. cbn [fst snd] in K, M. apply key_iff in K. apply X in M. rewrite K. cbn [bind]. rewrite M. cbn [bind].
      apply IH. exists kvs'. split; [exact F'|]. cbn [fold_left fst snd]. rewrite put_insert. reflexivity.
Qed.

Lemma fields_ok fs l vs : fields fs l vs -> forall n t, In (n, t) fs -> at_most_once l n /\ forall j, assoc n l = Some j -> exists v, means t j v.
Proof.
  revert vs. induction fs as [|[n t] fs IH]; intros vs F m s I; [contradiction|].
  inversion F as [|n0 t0 fs0 l0 j v ws O A M F'|n0 t0 fs0 l0 ws A F']; subst; (destruct I as [[= <- <-]|I]; [|exact (IH _ F' m s I)]).
  - split; [exact O|]. intros j' E. exists v. congruence.
  - split; [|intros j E; congruence]. unfold at_most_once. apply once_none in A. rewrite A. cbn. lia.
Qed.
Lemma members_iff fs : nodup_names (map fst fs) = true -> Forall (fun f => exact (snd f)) fs ->
  forall j vs, json_struct (map (fun f => (fst f, from_json (snd f))) fs) fs j = Ok vs <-> members fs j vs.
Proof.
  intros ND X j vs. destruct j as [|b|z|x|s|l|l]; cbn [json_struct]; try (split; [discriminate | intros Q; inversion Q]).
  - rewrite !map_map. cbn [fst snd]. assert (X' : Forall exact (map snd fs)) by (apply Forall_map; exact X). pose proof (elements_iff _ X' l) as EI. rewrite map_map in EI. split.
    + destruct (arr_exact _ l) as [ws|e| |] eqn:E; try discriminate. cbn [bind]. intros [= <-]. constructor. apply EI. reflexivity.
    + intros Q. inversion Q as [|fs0 l0 ws E]; subst. apply EI in E. rewrite E. reflexivity.
  - assert (AS : forall n t, In (n, t) fs -> assoc n fs = Some t) by (intros n t; apply assoc_first, ND).
    assert (XS : forall n t, In (n, t) fs -> exact t) by (intros n t I; rewrite Forall_forall in X; exact (X (n, t) I)).
    assert (FI : forall g, obj_loop (map (fun f => (fst f, from_json (snd f))) fs) [] l = Ok g ->
      forall fs', (forall n t, In (n, t) fs' -> In (n, t) fs) -> forall ws, struct_fields fs' g = Ok ws <-> fields fs' l ws).
    { intros g L. induction fs' as [|[n t] fs' IH]; intros I ws; cbn [struct_fields].
      - split; [intros [= <-]; constructor | intros Q; inversion Q; reflexivity].
      - destruct (field_inv fs l g n t L (AS n t (I n t (or_introl eq_refl)))) as [O R]. pose proof (XS n t (I n t (or_introl eq_refl))) as Xt.
        specialize (IH (fun n t Q => I n t (or_intror Q))). split.
        + destruct (assoc n l) as [j|] eqn:A.
          * destruct R as (v & E & ->). cbn [bind]. destruct (struct_fields fs' g) as [ws'|e| |] eqn:S; try discriminate. cbn [bind]. intros [= <-].
            apply (fd_there n t fs' l j v ws' O A); [apply Xt, E | apply IH; reflexivity].
          * rewrite R. destruct (is_option t) eqn:Op; [|discriminate]. cbn [bind]. destruct (struct_fields fs' g) as [ws'|e| |] eqn:S; try discriminate. cbn [bind]. intros [= <-].
            destruct t; try discriminate Op. apply fd_absent; [exact A | apply IH; reflexivity].
        + intros Q. inversion Q as [|n0 t0 fs0 l0 j v ws' _ A M F'|n0 t0 fs0 l0 ws' A F']; subst; rewrite A in R.
          * destruct R as (v' & E & ->). apply Xt in M. cbn [bind]. apply IH in F'. rewrite F'. cbn [bind]. congruence.
          * rewrite R. cbn [is_option bind]. apply IH in F'. rewrite F'. reflexivity. }
    split.
    + destruct (obj_loop _ [] l) as [g|e| |] eqn:L; try discriminate. cbn [bind]. intros S. constructor. apply (FI g eq_refl fs (fun n t I => I)), S.
    + intros Q. inversion Q as [fs0 l0 ws F|]; subst. pose proof (fields_ok _ _ _ F) as FO.
      destruct (obj_loop_ok (map (fun f => (fst f, from_json (snd f))) fs) l []) as [g L].
      { intros k d A. rewrite decs_assoc in A. destruct (assoc k fs) as [t|] eqn:Ak; [|discriminate]. injection A as <-. apply assoc_In in Ak.
        destruct (FO k t Ak) as [O V]. split; [exact O|]. split; [intros C; elim C; reflexivity|]. intros j A. destruct (V j A) as [v M]. exists v. apply (XS k t Ak), M. }
      rewrite L. cbn [bind]. apply (FI g L fs (fun n t I => I)), F.
Qed.

Lemma wf_all ts : Forall (fun t => wf_ty t = true -> exact t) ts -> forallb wf_ty ts = true -> Forall exact ts.
Proof. intros F W. rewrite forallb_forall in W. rewrite Forall_forall in *. intros t I. exact (F t I (W t I)). Qed.
Lemma wf_fields (fs : list (ustr * ty)) : Forall (fun f => wf_ty (snd f) = true -> exact (snd f)) fs -> forallb (fun f => wf_ty (snd f)) fs = true -> Forall (fun f => exact (snd f)) fs.
Proof. intros F W. rewrite forallb_forall in W. rewrite Forall_forall in *. intros t I. exact (F t I (W t I)). Qed.

Lemma from_variant_eq t n x j : from_variant t n x j =
  match t with
  | VUnit => match j with JNull => Ok (SUnitVariant n x) | _ => Err Invalid end
  | VNewtype t => res_map (SNewtypeVariant n x) (from_json t j)
  | VTuple ts => match j with JArr l => vs <- arr_exact (map from_json ts) l ;; Ok (STupleVariant n x vs) | _ => Err Invalid end
  | VStruct fs => vs <- json_struct (map (fun f => (fst f, from_json (snd f))) fs) fs j ;; Ok (SStructVariant n x vs)
  end.
Proof. destruct t; reflexivity. Qed.
Ltac no := split; [discriminate | let Q := fresh in intros Q; inversion Q].
Theorem from_json_exact t : wf_ty t = true -> exact t.
Proof.
  induction t using ty_ind2 with (Q := fun t => wf_vty t = true -> forall n x j v, from_variant t n x j = Ok v <-> variant_means t n x j v);
    lazymatch goal with
    | |- _ -> exact _ => intros W j v; cbn [from_json]; cbn [wf_ty] in W; try discriminate W
    | |- _ => intros W m x j v; rewrite from_variant_eq; cbn [wf_vty] in W; try discriminate W
    end.
  - destruct j; try no. split; [intros [= <-]; constructor | intros Q; inversion Q; reflexivity].
  - destruct j; try no. split.
    + destruct (in_range k z) eqn:R; [|discriminate]. intros [= <-]. constructor. apply in_range_bounds, R.
    + intros Q. inversion Q as [|k0 z0 R| | | | | | | | | | | | | | | | | | | |]; subst. apply in_range_bounds in R. rewrite R. reflexivity.
  - destruct j; try no; [split; [intros [= <-]; constructor | intros Q; inversion Q; reflexivity]|]. split.
    + destruct (jparse32 _) eqn:P; [|discriminate]. intros [= <-]. constructor. exact P.
    + intros Q. inversion Q; subst. match goal with A : jparse32 _ = _ |- _ => rewrite A end. reflexivity.
  - destruct j; try no; [split; [intros [= <-]; constructor | intros Q; inversion Q; reflexivity]|]. split.
    + destruct (jparse64 _) eqn:P; [|discriminate]. intros [= <-]. constructor. exact P.
    + intros Q. inversion Q; subst. match goal with A : jparse64 _ = _ |- _ => rewrite A end. reflexivity.
  - destruct j as [| | | |[|c [|]]| |]; try no. split; [intros [= <-]; constructor | intros Q; inversion Q; reflexivity].
  - destruct j; try no. split; [intros [= <-]; constructor | intros Q; inversion Q; reflexivity].
  - destruct j; try no; [split; [intros [= <-]; constructor | intros Q; inversion Q; reflexivity]|]. split.
    + destruct (all_bytes l) as [b|e| |] eqn:E; try discriminate. intros [= <-]. apply bytes_iff in E. destruct E as [F ->]. constructor. exact F.
    + intros Q. inversion Q as [| | | | | | | | |b F| | | | | | | | | | | |]; subst. rewrite (proj2 (bytes_iff _ b) (conj F eq_refl)). reflexivity.
  - assert (S : forall j, j <> JNull -> res_map SSome (from_json t j) = Ok v <-> means (TOption t) j v).
    { intros j' N. split.
      - intros E. apply res_map_Ok in E. destruct E as (w & E & ->). constructor; [exact N | apply (IHt W), E].
      - intros Q. inversion Q as [| | | | | | | | | | |t0 j0 w _ M| | | | | | | | | |]; subst; [elim N; reflexivity|]. apply (IHt W) in M. rewrite M. reflexivity. }
    destruct j; try (apply S; discriminate). split; [intros [= <-]; constructor | intros Q; inversion Q; [reflexivity | congruence]].
  - destruct j; try no. split; [intros [= <-]; constructor | intros Q; inversion Q; reflexivity].
  - destruct j; try no. split; [intros [= <-]; constructor | intros Q; inversion Q; reflexivity].
  - split.
    + intros E. apply res_map_Ok in E. destruct E as (w & E & ->). constructor. apply (IHt W), E.
    + intros Q. inversion Q as [| | | | | | | | | | | | | |n0 t0 j0 w M| | | | | | |]; subst. apply (IHt W) in M. rewrite M. reflexivity.
  - destruct j; try no. pose proof (all_iff t (IHt W) l) as A. split.
    + destruct (arr_all _ l) as [vs|e| |] eqn:E; try discriminate. intros [= <-]. constructor. apply A. reflexivity.
    + intros Q. inversion Q as [| | | | | | | | | | | | | | |t0 l0 vs F| | | | | |]; subst. apply A in F. rewrite F. reflexivity.
  - destruct j; try no. pose proof (elements_iff ts (wf_all ts H1 W) l) as A. split.
    + destruct (arr_exact _ l) as [vs|e| |] eqn:E; try discriminate. intros [= <-]. constructor. apply A. reflexivity.
    + intros Q. inversion Q; subst. match goal with F : elements _ _ _ |- _ => apply A in F; rewrite F end. reflexivity.
  - destruct j; try no. pose proof (elements_iff ts (wf_all ts H1 W) l) as A. split.
    + destruct (arr_exact _ l) as [vs|e| |] eqn:E; try discriminate. intros [= <-]. constructor. apply A. reflexivity.
    + intros Q. inversion Q; subst. match goal with F : elements _ _ _ |- _ => apply A in F; rewrite F end. reflexivity.
  - apply andb_true_iff in W. destruct j; try no. pose proof (entries_iff t1 t2 (IHt2 (proj2 W)) l []) as A. split.
    + destruct (obj_all _ _ [] l) as [m|e| |] eqn:E; try discriminate. intros [= <-]. destruct (proj1 (A m) eq_refl) as (kvs & F & ->). constructor. exact F.
    + intros Q. inversion Q as [| | | | | | | | | | | | | | | | | |k0 v0 l0 kvs F| | |]; subst. rewrite (proj2 (A _) (ex_intro _ kvs (conj F eq_refl))). reflexivity.
  - apply andb_true_iff in W. destruct W as [Wn Wf]. pose proof (members_iff fs Wn (wf_fields fs H1 Wf) j) as A. split.
    + destruct (json_struct _ fs j) as [vs|e| |] eqn:E; try discriminate. intros [= <-]. constructor. apply A. reflexivity.
    + intros Q. inversion Q; subst. match goal with F : members _ _ _ |- _ => apply A in F; rewrite F end. reflexivity.
  - destruct j as [| | | |s|l|[|[x j] [|]]]; try no.
    + split.
      * destruct (assoc s vs) as [[]|] eqn:A; try discriminate. intros [= <-]. constructor. exact A.
      * intros Q. inversion Q; subst. match goal with A : assoc _ _ = _ |- _ => rewrite A end. reflexivity.
    + rewrite assoc_map. split.
      * destruct (assoc x vs) as [t|] eqn:A; [|discriminate]. cbn [option_map]. intros E. apply (me_variant n vs x t j v A).
        assert (I1 := assoc_In _ _ _ A). rewrite Forall_forall in H1. rewrite forallb_forall in W. apply (H1 _ I1 (W _ I1)), E.
      * intros Q. inversion Q as [| | | | | | | | | | | | | | | | | | | | |n0 vs0 x0 t j0 v0 A M]; subst. rewrite A. cbn [option_map].
        assert (I1 := assoc_In _ _ _ A). rewrite Forall_forall in H1. rewrite forallb_forall in W. apply (H1 _ I1 (W _ I1)), M.
  - destruct j; try no. split; [intros [= <-]; constructor | intros Q; inversion Q; reflexivity].
  - split.
    + intros E. apply res_map_Ok in E. destruct E as (w & E & ->). constructor. apply (IHt W), E.
    + intros Q. inversion Q; subst. match goal with M : means _ _ _ |- _ => apply (IHt W) in M; rewrite M end. reflexivity.
  - destruct j; try no. pose proof (elements_iff ts (wf_all ts H1 W) l) as A. split.
    + destruct (arr_exact _ l) as [vs|e| |] eqn:E; try discriminate. intros [= <-]. constructor. apply A. reflexivity.
    + intros Q. inversion Q; subst. match goal with F : elements _ _ _ |- _ => apply A in F; rewrite F end. reflexivity.
  - apply andb_true_iff in W. destruct W as [Wn Wf]. pose proof (members_iff fs Wn (wf_fields fs H1 Wf) j) as A. split.
    + destruct (json_struct _ fs j) as [vs|e| |] eqn:E; try discriminate. intros [= <-]. constructor. apply A. reflexivity.
    + intros Q. inversion Q; subst. match goal with F : members _ _ _ |- _ => apply A in F; rewrite F end. reflexivity.
Qed.

(** ** What is not so read is refused, with [Invalid] *)
Definition refuses {A} (r : res A) : Prop := (exists v, r = Ok v) \/ r = Err Invalid.
Lemma refuses_bind {A B} (r : res A) (f : A -> res B) : refuses r -> (forall a, r = Ok a -> refuses (f a)) -> refuses (bind r f).
Proof. intros [[v ->]| ->] F; [apply F; reflexivity | right; reflexivity]. Qed.
Lemma refuses_map {A B} (f : A -> B) r : refuses r -> refuses (res_map f r).
Proof. intros [[v ->]| ->]; [left; eexists; reflexivity | right; reflexivity]. Qed.
Ltac yes := first [left; eexists; reflexivity | right; reflexivity].
Lemma key_refuses t : forall s, refuses (from_key t s).
Proof.
  induction t; intros s; cbn [from_key]; try yes; try (apply refuses_map, IHt).
  - destruct (parse_int k s); yes.
  - destruct s as [|c [|]]; yes.
  - destruct (assoc s vs) as [[]|]; yes.
Qed.
Lemma loop_refuses decs : (forall k d j, assoc k decs = Some d -> refuses (d j)) -> forall l got, refuses (obj_loop decs got l).
Proof.
  intros D. induction l as [|[k j] l IH]; intros got; cbn [obj_loop]; [yes|]. destruct (assoc k decs) as [d|] eqn:E; [|apply IH]. destruct (assoc k got); [yes|].
  apply refuses_bind; [exact (D k d j E) | intros v _; apply IH].
Qed.
Lemma fields_refuses fs got : refuses (struct_fields fs got).
Proof.
  induction fs as [|[n t] fs IH]; cbn [struct_fields]; [yes|]. apply refuses_bind; [destruct (assoc n got); [yes|]; destruct (is_option t); yes|]. intros v _.
  apply refuses_bind; [exact IH | intros; yes].
Qed.
Lemma exact_refuses ds : Forall (fun d => forall j, refuses (d j)) ds -> forall l, refuses (arr_exact ds l).
Proof.
  induction 1 as [|d ds D F IH]; intros [|j l]; cbn [arr_exact]; try yes. apply refuses_bind; [apply D|]. intros v _. apply refuses_bind; [apply IH | intros; yes].
Qed.
Lemma struct_refuses fs : Forall (fun f => forall j, refuses (from_json (snd f) j)) fs ->
  forall j, refuses (json_struct (map (fun f => (fst f, from_json (snd f))) fs) fs j).
Proof.
  intros F [|b|z|x|s|l|l]; cbn [json_struct]; try yes.
  - apply refuses_bind; [|intros; yes]. apply exact_refuses. rewrite map_map. cbn [snd]. apply Forall_map. exact F.
  - apply refuses_bind; [|intros; apply fields_refuses]. apply loop_refuses. intros k d j A. rewrite decs_assoc in A. destruct (assoc k fs) as [t|] eqn:E; [|discriminate]. injection A as <-.
    apply assoc_In in E. rewrite Forall_forall in F. exact (F _ E j).
Qed.
Theorem from_json_refuses t : forall j, refuses (from_json t j).
Proof.
  induction t using ty_ind2 with (Q := fun t => forall n x j, refuses (from_variant t n x j)); intros; try rewrite from_variant_eq; cbn [from_json];
    try (destruct j; yes).
  - destruct j; try yes. destruct (in_range k z); yes.
  - destruct j; try yes. destruct (jparse32 _); yes.
  - destruct j; try yes. destruct (jparse64 _); yes.
  - destruct j as [| | | |[|c [|]]| |]; yes.
  - destruct j; try yes. apply refuses_bind; [|intros; yes]. induction l as [|j l IH]; cbn [all_bytes]; [yes|]. apply refuses_bind.
    + destruct j; cbn [byte_of]; try yes. destruct (in_range U8 z); yes.
    + intros. apply refuses_bind; [exact IH | intros; yes].
  - destruct j; try yes; apply refuses_map, IHt.
  - apply refuses_map, IHt.
  - destruct j; try yes. apply refuses_bind; [|intros; yes]. induction l as [|j l IH]; cbn [arr_all]; [yes|]. apply refuses_bind; [apply IHt|]. intros. apply refuses_bind; [exact IH | intros; yes].
  - destruct j; try yes. apply refuses_bind; [|intros; yes]. apply exact_refuses, Forall_map. exact H1.
  - destruct j; try yes. apply refuses_bind; [|intros; yes]. apply exact_refuses, Forall_map. exact H1.
  - destruct j; try yes. apply refuses_bind; [|intros; yes]. generalize (@nil (value * value)). induction l as [|[k j] l IH]; intros m; cbn [obj_all]; [yes|].
    apply refuses_bind; [apply key_refuses|]. intros. apply refuses_bind; [apply IHt2|]. intros. apply IH.
  - apply refuses_bind; [apply struct_refuses; exact H1 | intros; yes].
  - destruct j as [| | | |s|l|[|[x j] [|]]]; try yes.
    + destruct (assoc s vs) as [[]|]; yes.
    + rewrite assoc_map. destruct (assoc x vs) as [t|] eqn:A; [|yes]. cbn [option_map]. apply assoc_In in A. rewrite Forall_forall in H1. apply (H1 _ A).
  - apply refuses_map, IHt.
  - destruct j; try yes. apply refuses_bind; [|intros; yes]. apply exact_refuses, Forall_map. exact H1.
  - apply refuses_bind; [apply struct_refuses; exact H1 | intros; yes].
Qed.
Theorem from_str_exact t : wf_ty t = true -> forall s v, from_json_str t s = Ok v <-> exists j, json_document s j /\ means t j v.
Proof.
  intros W s v. unfold from_json_str. split.
  - intros E. destruct (parse_json s) as [j|e| |] eqn:P; try discriminate. exists j. split; [apply parse_json_iff, P | apply (from_json_exact t W), E].
  - intros (j & D & M). apply parse_json_iff in D. rewrite D. apply (from_json_exact t W), M.
Qed.
Theorem from_str_refuses t s : refuses (from_json_str t s).
Proof. apply refuses_bind; [apply parse_json_refuses | intros; apply from_json_refuses]. Qed.
Theorem from_slice_exact t : wf_ty t = true -> forall b v, from_json_slice t b = Ok v <-> exists s j, utf8_decode b = Some s /\ json_document s j /\ means t j v.
Proof.
  intros W b v. unfold from_json_slice. destruct (utf8_decode b) as [s|]; [|split; [discriminate | intros (s & _ & Q & _); discriminate]]. rewrite (from_str_exact t W). split.
  - intros (j & D & M). exists s, j. auto.
  - intros (s' & j & [= <-] & D & M). exists j. auto.
Qed.
Theorem from_slice_refuses t b : refuses (from_json_slice t b).
Proof. unfold from_json_slice. destruct (utf8_decode b); [apply from_str_refuses | yes]. Qed.
Theorem problem_refuses url_norm b : refuses (problem_read url_norm b).
Proof.
  unfold problem_read. destruct (utf8_decode b) as [s|]; [|yes]. apply refuses_bind; [apply parse_json_refuses|]. intros j _. unfold problem_of_json. apply refuses_bind.
  - unfold tagged. destruct j as [|b'|z|x|s'|[|[|b'|z|x|s'|l'|l'] l]|l]; try yes. apply refuses_bind; [|intros [t r] _; yes].
    generalize (@None ustr), (@nil (ustr * json)). induction l as [|[k j] l IH]; intros t r; cbn [take_tag]; [destruct t; yes|].
    destruct (ustr_eqb k (u "type")); [|apply IH]. destruct t; [yes|]. destruct j; try yes. apply IH.
  - intros [t c] _.
    assert (R : forall fs j, refuses (read_fields fs j)) by (intros fs j'; apply struct_refuses; rewrite Forall_forall; intros; apply from_json_refuses).
    destruct (ustr_eqb t about_tag).
    + apply refuses_bind; [apply R|]. intros vs _. destruct vs as [|[n1 []] [|[n2 []] []]]; yes.
    + destruct (ustr_eqb t trackable_tag); [|yes]. apply refuses_bind; [apply R|]. intros vs _.
      destruct vs as [|[n1 []] [|[n2 []] [|[n3 v3] [|[n4 v4] [|[n5 v5] []]]]]]; try yes.
      apply refuses_bind; [|intros; yes]. destruct (opt_str v4) as [x|]; [|yes]. destruct (url_norm x); yes.
Qed.
End Proofs.
