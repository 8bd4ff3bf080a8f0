(** * Proofs about reading queries. *)
From Verif Require Import Base Utf8 Decimal DepUrl Serde ScalarSpec FieldSpec FieldProofs SerPath SerQuery
  DePath DeQuery UrlProofs.
Open Scope N_scope.

Section QueryProofs.
Context `{floatlib}.

Lemma query_read_safe t x : safe (query_read t x).
Proof.
  induction t; cbn [query_read]; try exact I; try apply safe_ok_or; try (destruct (ustr_eqb x []); exact I);
    destruct (query_read t x); try contradiction; exact I.
Qed.

Lemma scalar_read {A} (parse : ustr -> option A) mk s x s' : next_str s = Ok (x, s') ->
  query_scalar parse mk s = (v <- ok_or_invalid (option_map mk (parse x)) ;; Ok (v, s')).
Proof. intros N. unfold query_scalar. rewrite N. cbn [bind]. destruct (parse x); reflexivity. Qed.

Lemma dq t : forall s x s', qd_in_map s = true -> next_str s = Ok (x, s') ->
  de_query t s = (v <- query_read t x ;; Ok (v, s')).
Proof.
  induction t; intros s x s' M N; cbn [de_query query_read]; try reflexivity.
  - rewrite (scalar_read _ _ _ _ _ N). cbn [read_scalar]. unfold parse_bool.
    destruct (ustr_eqb x (u "true")); [reflexivity|]. destruct (ustr_eqb x (u "false")); reflexivity.
  - apply (scalar_read _ _ _ _ _ N).
  - apply (scalar_read _ _ _ _ _ N).
  - apply (scalar_read _ _ _ _ _ N).
  - rewrite N. reflexivity.
  - rewrite N. reflexivity.
  - rewrite (IHt s x s' M N). destruct (query_read t x); reflexivity.
  - unfold query_unit. rewrite N. cbn [bind]. destruct (ustr_eqb x []); reflexivity.
  - unfold query_unit. rewrite N. cbn [bind]. destruct (ustr_eqb x []); reflexivity.
  - rewrite (IHt s x s' M N). destruct (query_read t x); reflexivity.
  - unfold query_enter. rewrite M. reflexivity.
  - unfold query_enter. rewrite M. reflexivity.
Qed.

(** ** Structs *)
Definition texts (s : qde) : list ustr := match qd_pending s with Some v => [v] | None => [] end ++ flat (qd_rest s).

Lemma flat_length l : length (flat l) = (2 * length l)%nat.
Proof. induction l as [|[k v] l IH]; cbn; lia. Qed.

Lemma walk_known names : forall ts k x, In (k, x) (walk names ts) -> smem k names = true.
Proof.
  assert (G : forall n ts, (length ts <= n)%nat -> forall k x, In (k, x) (walk names ts) -> smem k names = true).
  { induction n as [|n IH]; intros ts L k x I; destruct ts as [|a [|b ts]]; cbn in L, I; try contradiction; try lia.
    destruct (smem a names) eqn:A.
    - destruct I as [[= -> ->]|I]; [exact A | apply (IH ts ltac:(lia) _ _ I)].
    - apply (IH (b :: ts) ltac:(cbn; lia) _ _ I). }
  intros ts. apply (G (length ts)). lia.
Qed.

Lemma query_turn fs s : qd_in_map s = true ->
  turn query_read fs de_query query_next_field query_skip (fun s => qd_in_map s = true)
    (fun s => walk (map fst fs) (texts s)) (fun s => length (texts s)) s.
Proof.
  intros M. unfold turn, texts, query_next_field, query_end.
  destruct s as [im pend rest]. cbn [qd_in_map qd_pending qd_rest] in *. subst im.
  destruct rest as [|[k v] rest].
  - left. eexists. split; [reflexivity|]. destruct pend; reflexivity.
  - right. destruct pend as [p|].
    + cbn [next_str qd_pending qd_rest qd_in_map bind flat app walk].
      rewrite assoc_smem. destruct (assoc p fs) as [t|] eqn:E.
      * right. exists p, t, k, (mkQde true None ((k, v) :: rest)), (mkQde true (Some v) rest).
        repeat split; [exact E | cbn; lia | apply dq; reflexivity].
      * left. exists p, (mkQde true None ((k, v) :: rest)), (mkQde true None ((k, v) :: rest)).
        repeat split; [exact E | cbn; lia].
    + cbn [next_str qd_pending qd_rest qd_in_map bind flat app walk].
      rewrite assoc_smem. destruct (assoc k fs) as [t|] eqn:E.
      * right. exists k, t, v, (mkQde true (Some v) rest), (mkQde true None rest).
        repeat split; [exact E | cbn; lia | apply dq; reflexivity].
      * left. exists k, (mkQde true (Some v) rest), (mkQde true (Some v) rest).
        repeat split; [exact E | cbn; lia].
Qed.

(** Exactly when a query is decoded to a struct, and to which. *)
Theorem de_query_struct n fs l vs : NoDup (map fst fs) ->
  (exists s', de_query (TStruct n fs) (qde_new l) = Ok (SStruct n vs, s')) <->
  filled query_read fs (walk (map fst fs) (flat l)) vs.
Proof.
  intros ND. cbn [de_query]. unfold query_enter, qde_new. cbn [qd_in_map negb assert_invalid bind qd_pending qd_rest].
  set (s := mkQde true None l).
  change (walk (map fst fs) (flat l)) with ((fun s => walk (map fst fs) (texts s)) s).
  rewrite <- (visit_struct_filled query_read fs de_query query_next_field query_skip (fun s => qd_in_map s = true)
    (fun s => walk (map fst fs) (texts s)) (fun s => length (texts s)) (query_turn fs) query_read_safe
    (query_fuel s) s vs eq_refl).
  - destruct (visit_struct (query_fuel s) query_next_field query_skip _ fs s) as [[vs' s2]| | |]; cbn [bind];
      split; intros [s' E]; try discriminate; injection E as -> _; eauto.
  - unfold texts, query_fuel, s. cbn [qd_pending qd_rest app]. rewrite flat_length. lia.
  - intros k x. apply walk_known.
  - exact ND.
Qed.

Theorem query_struct_safe n fs l : safe (de_query (TStruct n fs) (qde_new l)).
Proof.
  cbn [de_query]. unfold query_enter, qde_new. cbn [qd_in_map negb assert_invalid bind qd_pending qd_rest].
  set (s := mkQde true None l). apply safe_bind; [|intros [? ?] _; exact I].
  apply (visit_struct_safe query_read fs de_query query_next_field query_skip (fun s => qd_in_map s = true)
    (fun s => walk (map fst fs) (texts s)) (fun s => length (texts s)) (query_turn fs) query_read_safe
    (query_fuel s) s eq_refl).
  unfold texts, query_fuel, s. cbn [qd_pending qd_rest app]. rewrite flat_length. lia.
Qed.

(** ** Maps *)
Fixpoint map_of {X} (rk rv : X -> res value) (m : list (value * value)) (l : list (X * X)) : res (list (value * value)) :=
  match l with
  | [] => Ok m
  | (a, b) :: r => k <- rk a ;; v <- rv b ;; map_of rk rv (map_insert k v m) r
  end.

Lemma visit_map_query kt vt : forall l fuel m, (length l < fuel)%nat ->
  exists s', visit_map fuel query_next_key (de_query kt) (de_query vt) m (mkQde true None l) =
    (r <- map_of (query_read kt) (query_read vt) m l ;; Ok (r, s')).
Proof.
  induction l as [|[a b] l IH]; intros [|f] m L; cbn in L; try lia; cbn [visit_map map_of].
  - unfold query_next_key. cbn. eauto.
  - unfold query_next_key. cbn [query_end qd_rest].
    rewrite (dq kt (mkQde true None ((a, b) :: l)) a (mkQde true (Some b) l) eq_refl eq_refl).
    destruct (query_read kt a) as [k| | |]; cbn [bind]; try (exists (mkQde true None []); reflexivity).
    rewrite (dq vt (mkQde true (Some b) l) b (mkQde true None l) eq_refl eq_refl).
    destruct (query_read vt b) as [v| | |]; cbn [bind]; try (exists (mkQde true None []); reflexivity).
    apply IH. lia.
Qed.

Theorem de_query_map kt vt l : exists s', de_query (TMap kt vt) (qde_new l) =
  (m <- map_of (query_read kt) (query_read vt) [] l ;; Ok (SMap m, s')).
Proof.
  cbn [de_query]. unfold query_enter, qde_new. cbn [qd_in_map negb assert_invalid bind qd_pending qd_rest].
  destruct (visit_map_query kt vt l (query_fuel (mkQde true None l)) []) as [s' E].
  { unfold query_fuel. cbn. lia. }
  exists s'. rewrite E. destruct (map_of _ _ _ _); reflexivity.
Qed.

Lemma map_of_safe {X} (rk rv : X -> res value) : (forall x, safe (rk x)) -> (forall x, safe (rv x)) ->
  forall l m, safe (map_of rk rv m l).
Proof.
  intros Sk Sv. induction l as [|[a b] l IH]; intros m; cbn [map_of]; [exact I|].
  apply safe_bind; [apply Sk|]. intros k _. apply safe_bind; [apply Sv|]. intros v _. apply IH.
Qed.

(** The decoder of a whole query never panics, whatever the type and the query. *)
Theorem de_query_safe l : forall t, safe (de_query t (qde_new l)).
Proof.
  assert (NS : safe (next_str (qde_new l))) by (destruct l as [|[? ?] ?]; exact I).
  assert (SC : forall A (p : ustr -> option A) mk, safe (query_scalar p mk (qde_new l))).
  { intros. unfold query_scalar. apply safe_bind; [exact NS|]. intros [x s'] _.
    apply safe_bind; [apply safe_ok_or | intros; exact I]. }
  assert (SU : forall v, safe (query_unit v (qde_new l))).
  { intros. unfold query_unit. apply safe_bind; [exact NS|]. intros [x s'] _.
    apply safe_bind; [apply safe_assert | intros; exact I]. }
  induction t; cbn [de_query]; try exact I; try apply SC; try apply SU;
    try (apply safe_bind; [assumption | intros [? ?] _; exact I]).
  - destruct (de_query_map t1 t2 l) as [s' E]. cbn [de_query] in E. rewrite E. apply safe_bind; [|intros; exact I].
    apply map_of_safe; intros; apply query_read_safe.
  - apply (query_struct_safe name fs l).
Qed.

(** ** Round trip *)

(** Field values of a query that survive: scalars that survive, and options of them. *)
Definition query_faithful (t : ty) (v : value) : Prop :=
  match t, v with
  | TOption t, SNone => readable t = true
  | TOption t, SSome v => faithful t v
  | t, v => faithful t v
  end.

Lemma int_text_ascii z : all_ascii (show_int z) = true.
Proof.
  pose proof (show_int_chars z) as C. revert C. apply forallb_impl. intros c; cbv beta. unfold is_digit, is_ascii. lia.
Qed.

Lemma faithful_cell t : forall v, faithful t v ->
  exists x, scalar_text v = Some x /\ cell scalar_text v = Some (Some x) /\ str_ok x = true /\
    read_scalar t x = Some v /\ query_read t x = Ok v.
Proof.
  induction t; intros v F; destruct v; cbn [faithful] in F; try contradiction.
  - subst b. exists (u "false"). repeat split.
  - destruct F as [-> F]. exists (show_int z). cbn. rewrite (parse_show_int _ _ F). repeat split.
    apply ascii_str_ok, int_text_ascii.
  - eexists. cbn. rewrite F. repeat split. apply ascii_str_ok, fshow_ascii.
  - eexists. cbn. rewrite F. repeat split. apply ascii_str_ok, fshow_ascii.
  - exists s. cbn. auto.
  - destruct F as [-> F]. destruct (IHt v F) as (x & E1 & E2 & E3 & E4 & E5). exists x.
    cbn. rewrite E4, E5. repeat split; assumption.
Qed.

Lemma faithful_query_cell t v : query_faithful t v ->
  (exists x, cell scalar_text v = Some (Some x) /\ str_ok x = true /\ query_read t x = Ok v) \/
  (cell scalar_text v = Some None /\ v = SNone /\ exists t', t = TOption t').
Proof.
  intros F.
  assert (D : (exists t', t = TOption t') \/ faithful t v).
  { destruct t; try (right; exact F). left; eauto. }
  destruct D as [[t' ->]|D].
  - destruct v; cbn in F; try (destruct t'; contradiction).
    + right. eauto.
    + left. destruct (faithful_cell t' v F) as (x & _ & E2 & E3 & _ & E5). exists x. cbn. rewrite E5. auto.
  - left. destruct (faithful_cell t v D) as (x & _ & E2 & E3 & _ & E5). exists x. auto.
Qed.

Lemma walk_all_known names : forall l, (forall k v, In (k, v) l -> smem k names = true) -> walk names (flat l) = l.
Proof.
  induction l as [|[k v] l IH]; intros K; [reflexivity|]. cbn [flat walk].
  rewrite (K k v) by (left; reflexivity). f_equal. apply IH. intros k' v' J. apply (K k' v'). right; exact J.
Qed.

(** Writing a struct whose fields survive: generic in queries and headers. *)
Definition field_ok {X} (leaf : value -> option X) (read : ty -> X -> res value) (f : ustr * ty) (v : ustr * value) : Prop :=
  fst v = fst f /\
  ((exists x, cell leaf (snd v) = Some (Some x) /\ read (snd f) x = Ok (snd v)) \/
   (cell leaf (snd v) = Some None /\ snd v = SNone /\ exists t', snd f = TOption t')).

Lemma struct_pairs_trip {X} (leaf : value -> option X) (read : ty -> X -> res value) (P : X -> Prop) : forall fs vs,
  NoDup (map fst fs) ->
  Forall2 (fun f v => field_ok leaf read f v /\ forall x, cell leaf (snd v) = Some (Some x) -> P x) fs vs ->
  exists l : list (ustr * X), (forall Y (nm : ustr -> X), nm = Y -> struct_pairs leaf nm vs = Some (map (fun p => (nm (fst p), snd p)) l)) /\
    (forall k x, In (k, x) l -> In k (map fst fs) /\ P x) /\
    filled read fs l vs.
Proof.
  induction fs as [|[n t] fs IH]; intros vs ND F; inversion F as [|? [n' v] ? vs' [[E C] Px] F']; subst.
  - exists []. split; [reflexivity|]. split; [contradiction|]. split; constructor.
  - cbn in E. subst n'. cbn [map fst] in ND. inversion ND as [|? ? Nn ND']; subst.
    destruct (IH vs' ND' F') as (l & S & K & NDl & Fl).
    assert (Fresh : forall x, ~ In (n, x) l) by (intros x J; apply K in J; destruct J; contradiction).
    destruct C as [(x & Cx & R) | (Cx & V & T)]; cbn in Cx, Px |- *.
    + exists ((n, x) :: l). split; [|split].
      * intros Y nm <-. rewrite Cx, (S _ nm eq_refl). reflexivity.
      * intros k y [[= <- <-]|J]; [split; [left; reflexivity | apply Px, Cx] | destruct (K k y J); split; [right|]; assumption].
      * split.
        -- cbn. constructor; [|exact NDl]. intros J. apply in_map_iff in J. destruct J as ([k y] & E & J). cbn in E. subst.
           apply (Fresh y J).
        -- constructor.
           ++ cbn in *. split; [reflexivity|]. left. exists x. split; [left; reflexivity | exact R].
           ++ assert (G : forall gs ws, (forall f, In f gs -> fst f <> n) ->
                Forall2 (fun f v => fst v = fst f /\
                  ((exists x, In (fst f, x) l /\ read (snd f) x = Ok (snd v)) \/
                   ((forall x, ~ In (fst f, x) l) /\ (exists t, snd f = TOption t) /\ snd v = SNone))) gs ws ->
                Forall2 (fun f v => fst v = fst f /\
                  ((exists y, In (fst f, y) ((n, x) :: l) /\ read (snd f) y = Ok (snd v)) \/
                   ((forall y, ~ In (fst f, y) ((n, x) :: l)) /\ (exists t, snd f = TOption t) /\ snd v = SNone))) gs ws).
              { intros gs ws Ng FF. induction FF as [|f w gs ws (E & C) FF IHF]; constructor.
                - split; [exact E|]. destruct C as [(y & J & Ry) | (A & TT)].
                  + left. exists y. split; [right; exact J | exact Ry].
                  + right. split; [|exact TT]. intros y [Ey|J]; [injection Ey as En _; apply (Ng f); [left; reflexivity | congruence] | apply (A y J)].
                - apply IHF. intros g J. apply Ng. right; exact J. }
              apply G; [|exact Fl]. intros f J Ef. subst n. apply Nn. apply in_map, J.
    + exists l. split; [|split].
      * intros Y nm <-. rewrite Cx, (S _ nm eq_refl). reflexivity.
      * intros k y J. destruct (K k y J). split; [right|]; assumption.
      * split; [exact NDl|]. constructor; [|exact Fl]. cbn in *. split; [reflexivity|]. right. auto.
Qed.

Theorem query_trip n fs vs : NoDup (map fst fs) -> Forall (fun f => str_ok (fst f) = true) fs ->
  Forall2 (fun f v => fst v = fst f /\ query_faithful (snd f) (snd v)) fs vs ->
  exists l, query_written (SStruct n vs) = Some l /\ pairs_ok l = true /\
    exists s', de_query (TStruct n fs) (qde_new l) = Ok (SStruct n vs, s').
Proof.
  intros ND Ok F.
  destruct (struct_pairs_trip scalar_text query_read (fun x => str_ok x = true) fs vs ND) as (l & S & K & Fl).
  { clear - F. induction F as [|f v fs vs [E Q] F IH]; constructor; [|exact IH].
    destruct (faithful_query_cell _ _ Q) as [(x & C & Sx & R) | (C & V & T)].
    - split; [split; [exact E | left; eauto]|]. intros x' C'. congruence.
    - split; [split; [exact E | right; eauto]|]. intros x' C'. congruence. }
  exists l. unfold query_written. cbn [written]. rewrite (S _ (fun n => n) eq_refl).
  assert (Em : map (fun p : ustr * ustr => (fst p, snd p)) l = l).
  { clear. induction l as [|[a b] l IH]; [reflexivity|]. cbn. rewrite IH. reflexivity. }
  rewrite Em. split; [reflexivity|]. split.
  - unfold pairs_ok. apply forallb_forall. intros [k x] J. destruct (K k x J) as [J1 J2]. cbn [fst snd]. rewrite J2, andb_true_r.
    rewrite Forall_forall in Ok. apply in_map_iff in J1. destruct J1 as (f & <- & J1). apply Ok, J1.
  - apply de_query_struct; [exact ND|]. rewrite walk_all_known; [exact Fl|].
    intros k v J. apply smem_In. apply (K k v J).
Qed.
End QueryProofs.
