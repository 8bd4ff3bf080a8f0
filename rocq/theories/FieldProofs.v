(** * Proofs about writing and reading flat structs, shared by queries and headers. *)
From Verif Require Import Base Utf8 Decimal DepUrl Serde ScalarSpec FieldSpec SerPath SerQuery SerHeader
  DePath DeQuery DeHeader UrlProofs.
Open Scope N_scope.

Lemma assoc_In {A} k (l : list (ustr * A)) a : assoc k l = Some a -> In (k, a) l.
Proof.
  induction l as [|[k' b] l IH]; cbn; [discriminate|]. destruct (ustr_eqb_spec k k') as [->|].
  - intros [= ->]. left; reflexivity.
  - intros E. right. apply IH, E.
Qed.
Lemma assoc_None {A} k (l : list (ustr * A)) : assoc k l = None <-> forall a, ~ In (k, a) l.
Proof.
  induction l as [|[k' b] l IH]; cbn; [split; auto|]. destruct (ustr_eqb_spec k k') as [->|N].
  - split; [discriminate|]. intros E. exfalso. apply (E b). left; reflexivity.
  - rewrite IH. split; intros E a; [intros [[= -> ->]|I]; [congruence | apply (E a I)] | intros I; apply (E a); right; exact I].
Qed.
Lemma In_assoc {A} k (l : list (ustr * A)) a : NoDup (map fst l) -> In (k, a) l -> assoc k l = Some a.
Proof.
  induction l as [|[k' b] l IH]; cbn; [contradiction|]. intros D I. inversion D as [|? ? N D']; subst.
  destruct I as [[= -> ->]|I]; [rewrite ustr_eqb_refl; reflexivity|].
  destruct (ustr_eqb_spec k k') as [->|]; [|apply IH; assumption].
  exfalso. apply N. apply (in_map fst) in I. exact I.
Qed.
Lemma assoc_map {A B} (g : A -> B) k (l : list (ustr * A)) :
  assoc k (map (fun f => (fst f, g (snd f))) l) = option_map g (assoc k l).
Proof.
  induction l as [|[k' b] l IH]; cbn; [reflexivity|]. destruct (ustr_eqb k k'); [reflexivity | apply IH].
Qed.
Lemma assoc_app {A} k (l1 l2 : list (ustr * A)) :
  assoc k (l1 ++ l2) = match assoc k l1 with Some a => Some a | None => assoc k l2 end.
Proof.
  induction l1 as [|[k' b] l IH]; cbn; [reflexivity|]. destruct (ustr_eqb k k'); [reflexivity | apply IH].
Qed.
Lemma assoc_smem {A} k (l : list (ustr * A)) : smem k (map fst l) = match assoc k l with Some _ => true | None => false end.
Proof.
  induction l as [|[k' b] l IH]; cbn; [reflexivity|]. destruct (ustr_eqb k k'); [reflexivity | apply IH].
Qed.
Lemma nodup_names_NoDup l : nodup_names l = true <-> NoDup l.
Proof.
  induction l as [|x l IH]; cbn; [split; [constructor | reflexivity]|].
  rewrite andb_true_iff, IH, negb_true_iff. split.
  - intros [E D]. constructor; [|exact D]. intros I. apply smem_In in I. congruence.
  - intros D. inversion D as [|? ? N D']; subst. split; [|exact D'].
    destruct (smem x l) eqn:E; [|reflexivity]. apply smem_In in E. contradiction.
Qed.

(** ** Writing *)
Section Writing.
Context `{floatlib}.

Lemma q_cell v : forall st,
  qs_first st = false ->
  ser_query v st =
  match cell scalar_text v with
  | Some (Some t) => Ok (q_append t st)
  | Some None => match qs_key st with Some _ => Ok (mkQser false None (qs_text st)) | None => Err Invalid end
  | None => Err Invalid
  end.
Proof.
  induction v; intros st F; cbn [ser_query cell scalar_text option_map]; try reflexivity.
  - destruct b; reflexivity.
  - rewrite F. reflexivity.
  - apply IHv, F.
  - apply IHv, F.
  - apply IHv, F.
  - unfold q_enter. rewrite F. reflexivity.
  - unfold q_enter. rewrite F. reflexivity.
  - unfold q_enter. rewrite F. reflexivity.
Qed.

Lemma q_fields fs : forall acc,
  match struct_pairs scalar_text (fun n => n) fs with
  | Some l => exists k, ser_query_fields fs (mkQser false None (pairs_text acc)) = Ok (mkQser false k (pairs_text (acc ++ l)))
  | None => ser_query_fields fs (mkQser false None (pairs_text acc)) = Err Invalid
  end.
Proof.
  assert (G : forall fs acc k0,
    match struct_pairs scalar_text (fun n => n) fs with
    | Some l => exists k, ser_query_fields fs (mkQser false k0 (pairs_text acc)) = Ok (mkQser false k (pairs_text (acc ++ l)))
    | None => ser_query_fields fs (mkQser false k0 (pairs_text acc)) = Err Invalid
    end); [|intros acc; apply G].
  clear fs. induction fs as [|[n v] fs IH]; intros acc k0; cbn [struct_pairs ser_query_fields].
  - exists k0. rewrite app_nil_r. reflexivity.
  - rewrite q_cell by reflexivity. cbn [qs_first qs_key qs_text].
    destruct (cell scalar_text v) as [[t|]|]; cbn [bind].
    + unfold q_append. cbn [qs_first qs_key qs_text]. rewrite append_pairs_text.
      specialize (IH (acc ++ [(n, t)]) None). destruct (struct_pairs scalar_text (fun n => n) fs) as [l|]; [|exact IH].
      rewrite <- app_assoc in IH. exact IH.
    + specialize (IH acc None). destruct (struct_pairs scalar_text (fun n => n) fs) as [l|]; exact IH.
    + destruct (struct_pairs scalar_text (fun n => n) fs); reflexivity.
Qed.

Lemma q_entries kvs : forall acc,
  match map_pairs scalar_text kvs with
  | Some l => ser_query_entries kvs (mkQser false None (pairs_text acc)) = Ok (mkQser false None (pairs_text (acc ++ l)))
  | None => ser_query_entries kvs (mkQser false None (pairs_text acc)) = Err Invalid
  end.
Proof.
  induction kvs as [|[k v] kvs IH]; intros acc; cbn [map_pairs ser_query_entries].
  - rewrite app_nil_r. reflexivity.
  - rewrite q_cell by reflexivity. cbn [qs_first qs_key qs_text].
    destruct (cell scalar_text k) as [[kt|]|]; cbn [bind]; try reflexivity.
    rewrite q_cell by reflexivity. unfold q_append at 1. cbn [qs_first qs_key qs_text].
    destruct (cell scalar_text v) as [[t|]|]; cbn [bind]; try reflexivity.
    + unfold q_append. cbn [qs_first qs_key qs_text]. rewrite append_pairs_text.
      specialize (IH (acc ++ [(kt, t)])). destruct (map_pairs scalar_text kvs) as [l|]; [|exact IH].
      rewrite <- app_assoc in IH. exact IH.
    + unfold q_append. cbn [qs_first qs_key qs_text].
      specialize (IH acc). destruct (map_pairs scalar_text kvs) as [l|]; exact IH.
Qed.

(** Exactly what the query serializer does with any value. *)
Theorem ser_query_spec v :
  match query_written v with
  | Some l => exists s, ser_query v qser_new = Ok s /\ qs_text s = pairs_text l
  | None => ser_query v qser_new = Err Invalid
  end.
Proof.
  unfold query_written, qser_new.
  induction v; cbn [written ser_query scalar_text qs_key qs_first qs_text q_append]; try reflexivity;
    try (eexists; split; reflexivity); try exact IHv.
  - destruct b; eexists; split; reflexivity.
  - unfold q_enter. cbn [qs_first qs_key qs_text assert_invalid bind].
    pose proof (q_entries kvs []) as Q. change (pairs_text []) with (@nil N) in Q.
    destruct (map_pairs scalar_text kvs) as [l|]; [eexists; split; [exact Q | reflexivity] | exact Q].
  - unfold q_enter. cbn [qs_first qs_key qs_text assert_invalid bind].
    pose proof (q_fields fs []) as Q. change (pairs_text []) with (@nil N) in Q.
    destruct (struct_pairs scalar_text (fun n => n) fs) as [l|];
      [destruct Q as [k Q]; eexists; split; [exact Q | reflexivity] | exact Q].
  - unfold q_enter. cbn [qs_first qs_key qs_text assert_invalid bind].
    pose proof (q_fields fs []) as Q. change (pairs_text []) with (@nil N) in Q.
    destruct (struct_pairs scalar_text (fun n => n) fs) as [l|];
      [destruct Q as [k Q]; eexists; split; [exact Q | reflexivity] | exact Q].
Qed.

Lemma h_cell v : forall st,
  hs_first st = false ->
  ser_header v st =
  match cell header_leaf v with
  | Some (Some t) => Ok (h_append t st)
  | Some None => match hs_key st with Some _ => Ok (mkHser false None (hs_out st)) | None => Err Invalid end
  | None => Err Invalid
  end.
Proof.
  induction v; intros st F; cbn [ser_header cell header_leaf scalar_text option_map]; try reflexivity.
  - destruct b; reflexivity.
  - rewrite F. reflexivity.
  - apply IHv, F.
  - apply IHv, F.
  - apply IHv, F.
  - unfold h_enter. rewrite F. reflexivity.
  - unfold h_enter. rewrite F. reflexivity.
  - unfold h_enter. rewrite F. reflexivity.
Qed.

Lemma h_fields : forall fs acc k0,
  match struct_pairs header_leaf utf8_encode fs with
  | Some l => exists k, ser_header_fields fs (mkHser false k0 acc) = Ok (mkHser false k (acc ++ l))
  | None => ser_header_fields fs (mkHser false k0 acc) = Err Invalid
  end.
Proof.
  induction fs as [|[n v] fs IH]; intros acc k0; cbn [struct_pairs ser_header_fields].
  - exists k0. rewrite app_nil_r. reflexivity.
  - rewrite h_cell by reflexivity. cbn [hs_first hs_key hs_out].
    destruct (cell header_leaf v) as [[t|]|]; cbn [bind].
    + unfold h_append. cbn [hs_first hs_key hs_out].
      specialize (IH (acc ++ [(utf8_encode n, t)]) None). destruct (struct_pairs header_leaf utf8_encode fs) as [l|]; [|exact IH].
      rewrite <- app_assoc in IH. exact IH.
    + specialize (IH acc None). destruct (struct_pairs header_leaf utf8_encode fs) as [l|]; exact IH.
    + destruct (struct_pairs header_leaf utf8_encode fs); reflexivity.
Qed.

Lemma h_entries kvs : forall acc,
  match map_pairs header_leaf kvs with
  | Some l => ser_header_entries kvs (mkHser false None acc) = Ok (mkHser false None (acc ++ l))
  | None => ser_header_entries kvs (mkHser false None acc) = Err Invalid
  end.
Proof.
  induction kvs as [|[k v] kvs IH]; intros acc; cbn [map_pairs ser_header_entries].
  - rewrite app_nil_r. reflexivity.
  - rewrite h_cell by reflexivity. cbn [hs_first hs_key hs_out].
    destruct (cell header_leaf k) as [[kt|]|]; cbn [bind]; try reflexivity.
    rewrite h_cell by reflexivity. unfold h_append at 1. cbn [hs_first hs_key hs_out].
    destruct (cell header_leaf v) as [[t|]|]; cbn [bind]; try reflexivity.
    + unfold h_append. cbn [hs_first hs_key hs_out].
      specialize (IH (acc ++ [(kt, t)])). destruct (map_pairs header_leaf kvs) as [l|]; [|exact IH].
      rewrite <- app_assoc in IH. exact IH.
    + unfold h_append. cbn [hs_first hs_key hs_out].
      specialize (IH acc). destruct (map_pairs header_leaf kvs) as [l|]; exact IH.
Qed.

(** Exactly what the header serializer does with any value. *)
Theorem ser_header_spec v hs :
  match header_written v with
  | Some l => exists s, ser_header v (hser_new hs) = Ok s /\ hs_out s = hs ++ l
  | None => ser_header v (hser_new hs) = Err Invalid
  end.
Proof.
  unfold header_written, hser_new.
  induction v; cbn [written ser_header header_leaf scalar_text option_map hs_key hs_first hs_out]; try reflexivity;
    try (eexists; split; [reflexivity | cbn; symmetry; apply app_nil_r]); try exact IHv.
  - destruct b; (eexists; split; [reflexivity | cbn; symmetry; apply app_nil_r]).
  - unfold h_enter. cbn [hs_first hs_key hs_out assert_invalid bind].
    pose proof (h_entries kvs hs) as Q.
    destruct (map_pairs header_leaf kvs) as [l|]; [eexists; split; [exact Q | reflexivity] | exact Q].
  - unfold h_enter. cbn [hs_first hs_key hs_out assert_invalid bind].
    pose proof (h_fields fs hs None) as Q.
    destruct (struct_pairs header_leaf utf8_encode fs) as [l|];
      [destruct Q as [k Q]; eexists; split; [exact Q | reflexivity] | exact Q].
  - unfold h_enter. cbn [hs_first hs_key hs_out assert_invalid bind].
    pose proof (h_fields fs hs None) as Q.
    destruct (struct_pairs header_leaf utf8_encode fs) as [l|];
      [destruct Q as [k Q]; eexists; split; [exact Q | reflexivity] | exact Q].
Qed.
End Writing.

(** ** Reading a struct, generically *)
Section Reading.
  Context {X St : Type} (read : ty -> X -> res value).
  Variables (fs : list (ustr * ty)) (de : ty -> St -> res (value * St))
    (next_key : St -> res (option ustr * St)) (skip : ustr -> St -> res St)
    (inv : St -> Prop) (asg : St -> list (ustr * X)) (size : St -> nat).

  (** One turn of the key loop reads the next assignment, skips something irrelevant, or ends. *)
  Definition turn (s : St) : Prop :=
    (exists s', next_key s = Ok (None, s') /\ asg s = []) \/
    (exists k s1 s2, next_key s = Ok (Some k, s1) /\ assoc k fs = None /\ skip k s1 = Ok s2 /\
       inv s2 /\ asg s = asg s2 /\ (size s2 < size s)%nat) \/
    (exists k t x s1 s2, next_key s = Ok (Some k, s1) /\ assoc k fs = Some t /\
       asg s = (k, x) :: asg s2 /\ inv s2 /\ (size s2 < size s)%nat /\
       de t s1 = (v <- read t x ;; Ok (v, s2))).

  Fixpoint assign (got : list (ustr * value)) (a : list (ustr * X)) : res (list (ustr * value)) :=
    match a with
    | [] => Ok got
    | (k, x) :: r =>
        match assoc k fs with
        | None => assign got r
        | Some t =>
            match assoc k got with
            | Some _ => Err Invalid
            | None => v <- read t x ;; assign (got ++ [(k, v)]) r
            end
        end
    end.

  Hypothesis turns : forall s, inv s -> turn s.
  Hypothesis read_safe : forall t x, safe (read t x).

  Let decs := map (fun f => (fst f, de (snd f))) fs.

  Lemma struct_loop_assign : forall fuel s got, inv s -> (size s < fuel)%nat ->
    match assign got (asg s) with
    | Ok got' => exists s', struct_loop fuel next_key skip decs got s = Ok (got', s')
    | r => exists k, r = Err k /\ struct_loop fuel next_key skip decs got s = Err k
    end.
  Proof.
    induction fuel as [|f IH]; intros s got I L; [lia|]. cbn [struct_loop].
    destruct (turns s I) as [(s' & N & A) | [(k & s1 & s2 & N & K & S & I2 & A & L2) | (k & t & x & s1 & s2 & N & K & A & I2 & L2 & D)]].
    - rewrite N, A. cbn [bind assign]. eauto.
    - rewrite N. cbn [bind]. unfold decs. rewrite assoc_map, K. cbn [option_map]. rewrite S. cbn [bind].
      rewrite A. apply IH; [exact I2 | lia].
    - rewrite N, A. cbn [bind assign]. unfold decs. rewrite assoc_map, K. cbn [option_map].
      destruct (assoc k got); [eauto|]. rewrite D. pose proof (read_safe t x) as Sf.
      destruct (read t x) as [v|e| |]; cbn [bind] in *; try contradiction; [apply IH; [exact I2 | lia] | eauto].
  Qed.

  Definition readable_asg (a : list (ustr * X)) (l : list (ustr * value)) : Prop :=
    Forall2 (fun p q => fst q = fst p /\ exists t, assoc (fst p) fs = Some t /\ read t (snd p) = Ok (snd q)) a l.

  Lemma assign_ok : forall a got got',
    (forall k x, In (k, x) a -> smem k (map fst fs) = true) ->
    assign got a = Ok got' <->
    exists l, got' = got ++ l /\ readable_asg a l /\ NoDup (map fst a) /\ (forall k x, In (k, x) a -> assoc k got = None).
  Proof.
    induction a as [|[k x] a IH]; intros got got' Kn; cbn [assign].
    - split.
      + intros [= <-]. exists []. rewrite app_nil_r. repeat split; try constructor. contradiction.
      + intros (l & -> & R & _). inversion R; subst. rewrite app_nil_r. reflexivity.
    - assert (Kk : smem k (map fst fs) = true) by (apply (Kn k x); left; reflexivity).
      assert (Kn' : forall k x, In (k, x) a -> smem k (map fst fs) = true) by (intros k0 x0 J; apply (Kn k0 x0); right; exact J).
      rewrite assoc_smem in Kk. destruct (assoc k fs) as [t|] eqn:T; [|discriminate].
      destruct (assoc k got) as [w|] eqn:G.
      + split; [discriminate|]. intros (l & _ & _ & _ & F). rewrite (F k x) in G by (left; reflexivity). discriminate.
      + destruct (read t x) as [v| | |] eqn:R; cbn [bind];
          try (split; [discriminate|]; intros (l & _ & Fa & _); inversion Fa as [|? ? ? ? (_ & t' & T' & R')]; subst;
               cbn in T', R'; assert (t' = t) by congruence; subst; congruence).
        rewrite IH by exact Kn'. split.
        * intros (l & -> & Fa & ND & F). exists ((k, v) :: l). rewrite <- app_assoc. split; [reflexivity|].
          split; [constructor; [split; [reflexivity | exists t; auto] | exact Fa]|]. split.
          -- cbn [map fst]. constructor; [|exact ND]. intros J. apply in_map_iff in J. destruct J as ([k' x'] & E & J).
             cbn in E. subst k'. specialize (F k x' J). rewrite assoc_app, G in F. cbn in F. rewrite ustr_eqb_refl in F. discriminate.
          -- intros k' x' [[= <- <-]|J]; [exact G|]. specialize (F k' x' J). rewrite assoc_app in F.
             destruct (assoc k' got); [discriminate | reflexivity].
        * intros (l & -> & Fa & ND & F). inversion Fa as [|? [k' v'] ? l' (E & t' & T' & R') Fa']; subst. cbn in E, T', R'. subst k'.
          assert (t' = t) by congruence. subst t'. assert (v' = v) by congruence. subst v'.
          exists l'. rewrite <- app_assoc. split; [reflexivity|]. split; [exact Fa'|].
          cbn [map fst] in ND. inversion ND as [|? ? Nk ND']; subst. split; [exact ND'|].
          intros k' x' J. rewrite assoc_app, (F k' x') by (right; exact J). cbn.
          destruct (ustr_eqb_spec k' k) as [->|]; [|reflexivity]. exfalso. apply Nk. apply (in_map fst) in J. exact J.
  Qed.

  Lemma struct_fields_ok : forall gs got vs,
    struct_fields gs got = Ok vs <->
    Forall2 (fun f v => fst v = fst f /\ (assoc (fst f) got = Some (snd v) \/
       (assoc (fst f) got = None /\ (exists t, snd f = TOption t) /\ snd v = SNone))) gs vs.
  Proof.
    induction gs as [|[n t] gs IH]; intros got vs; cbn [struct_fields].
    - split; [intros [= <-]; constructor | intros Fa; inversion Fa; reflexivity].
    - assert (O : is_option t = true <-> exists t', t = TOption t').
      { destruct t; cbn; split; try discriminate; try (intros [? ?]; discriminate); eauto. }
      split.
      + intros E. destruct (assoc n got) as [v|] eqn:G; cbn [bind] in E.
        * apply bind_ok in E. destruct E as (vs' & E & E'). injection E' as <-. constructor; [|apply IH, E].
          cbn. split; [reflexivity | left; exact G].
        * destruct (is_option t) eqn:T; cbn [bind] in E; [|discriminate].
          apply bind_ok in E. destruct E as (vs' & E & E'). injection E' as <-. constructor; [|apply IH, E].
          cbn. split; [reflexivity | right]. split; [exact G | split; [apply O; reflexivity | reflexivity]].
      + intros Fa. inversion Fa as [|? [n' v] ? vs' (E & C) Fa']; subst. cbn in E, C. subst n'. apply IH in Fa'.
        destruct C as [G | (G & T & ->)]; rewrite G; cbn [bind].
        * rewrite Fa'. reflexivity.
        * apply O in T. rewrite T. cbn [bind]. rewrite Fa'. reflexivity.
  Qed.

  Lemma struct_fields_safe : forall gs got, safe (struct_fields gs got).
  Proof.
    induction gs as [|[n t] gs IH]; intros got; cbn [struct_fields]; [exact I|].
    apply safe_bind; [destruct (assoc n got); [exact I | destruct (is_option t); exact I]|].
    intros v _. apply safe_bind; [apply IH | intros; exact I].
  Qed.

  Theorem visit_struct_filled fuel s vs :
    inv s -> (size s < fuel)%nat -> (forall k x, In (k, x) (asg s) -> smem k (map fst fs) = true) ->
    NoDup (map fst fs) ->
    (exists s', visit_struct fuel next_key skip decs fs s = Ok (vs, s')) <-> filled read fs (asg s) vs.
  Proof.
    intros I L Kn ND. unfold visit_struct.
    pose proof (struct_loop_assign fuel s [] I L) as SL.
    assert (Key : (exists got, assign [] (asg s) = Ok got /\ struct_fields fs got = Ok vs) <-> filled read fs (asg s) vs).
    { split.
      - intros (got & A & SF). apply assign_ok in A; [|exact Kn]. destruct A as (l & -> & Fa & NDa & _). cbn [app] in SF.
        apply struct_fields_ok in SF. split; [exact NDa|].
        assert (NDl : map fst l = map fst (asg s)).
        { clear - Fa. induction Fa as [|p q a l (E & _) Fa IH]; [reflexivity|]. cbn. rewrite E, IH. reflexivity. }
        assert (P1 : forall k v, In (k, v) l -> exists x t, In (k, x) (asg s) /\ assoc k fs = Some t /\ read t x = Ok v).
        { clear - Fa. induction Fa as [|[k x] [k' v'] a l (E & t & T & R) Fa IH]; [contradiction|]. cbn in *. subst k'.
          intros k0 v0 [[= <- <-]|J]; [exists x, t; auto|]. destruct (IH _ _ J) as (x0 & t0 & J0 & R0). exists x0, t0. auto. }
        assert (S2 : forall gs, (forall f, In f gs -> In f fs) -> forall ws,
          Forall2 (fun f v => fst v = fst f /\ (assoc (fst f) l = Some (snd v) \/
            (assoc (fst f) l = None /\ (exists t, snd f = TOption t) /\ snd v = SNone))) gs ws ->
          Forall2 (fun f v => fst v = fst f /\
             ((exists x, In (fst f, x) (asg s) /\ read (snd f) x = Ok (snd v)) \/
              ((forall x, ~ In (fst f, x) (asg s)) /\ (exists t, snd f = TOption t) /\ snd v = SNone))) gs ws).
        { intros gs Sub ws F2. induction F2 as [|[n t] [n' v] gs ws (E & C) F2 IH]; constructor.
          - cbn in *. split; [exact E|]. destruct C as [C | (C & T & V)].
            + left. apply assoc_In in C. destruct (P1 _ _ C) as (x & t' & J & T' & R). exists x. split; [exact J|].
              assert (Tt : assoc n fs = Some t) by (apply In_assoc; [exact ND | apply (Sub (n, t)); left; reflexivity]). congruence.
            + right. split; [|auto]. intros x J. rewrite assoc_None in C.
              apply (in_map fst) in J. rewrite <- NDl in J. apply in_map_iff in J. destruct J as ([k v'] & E' & J). cbn in E'.
              subst k. apply (C v' J).
          - apply IH. intros f J. apply Sub. right; exact J. }
        apply S2; [auto | exact SF].
      - intros [NDa F2].
        (* build the assigned values *)
        assert (B : exists l, readable_asg (asg s) l).
        { assert (G : forall a, (forall k x, In (k, x) a -> In (k, x) (asg s)) -> exists l, readable_asg a l).
          { induction a as [|[k x] a IH]; intros Sub; [exists []; constructor|].
            destruct (IH ltac:(intros k0 x0 J; apply Sub; right; exact J)) as [l Fa].
            assert (J : In (k, x) (asg s)) by (apply Sub; left; reflexivity).
            pose proof (Kn k x J) as Kk. rewrite assoc_smem in Kk. destruct (assoc k fs) as [t|] eqn:T; [|discriminate].
            assert (Q : exists v, read t x = Ok v).
            { apply assoc_In in T. clear - T F2 J NDa. induction F2 as [|[n t0] [n' v] gs ws (E & C) F2 IH]; [contradiction|].
              destruct T as [[= -> ->]|T]; [|apply IH, T]. cbn in *. destruct C as [(x' & J' & R) | (C & _)]; [|exfalso; apply (C x J)].
              assert (x' = x).
              { pose proof (In_assoc k (asg s) x NDa J). pose proof (In_assoc k (asg s) x' NDa J'). congruence. }
              subst. exists v. exact R. }
            destruct Q as [v R]. exists ((k, v) :: l). constructor; [split; [reflexivity | exists t; auto] | exact Fa]. }
          apply G. auto. }
        destruct B as [l Fa]. exists l. split.
        + apply assign_ok; [exact Kn|]. exists l. split; [reflexivity|]. split; [exact Fa|]. split; [exact NDa|]. reflexivity.
        + apply struct_fields_ok.
          assert (NDl : map fst l = map fst (asg s)).
          { clear - Fa. induction Fa as [|p q a l (E & _) Fa IH]; [reflexivity|]. cbn. rewrite E, IH. reflexivity. }
          assert (P2 : forall k x, In (k, x) (asg s) -> exists v t, In (k, v) l /\ assoc k fs = Some t /\ read t x = Ok v).
          { clear - Fa. induction Fa as [|[k x] [k' v'] a l (E & t & T & R) Fa IH]; [contradiction|]. cbn in *. subst k'.
            intros k0 x0 [[= <- <-]|J]; [exists v', t; auto|]. destruct (IH _ _ J) as (v0 & t0 & J0 & R0). exists v0, t0. auto. }
          assert (S2 : forall gs, (forall f, In f gs -> In f fs) -> forall ws,
            Forall2 (fun f v => fst v = fst f /\
              ((exists x, In (fst f, x) (asg s) /\ read (snd f) x = Ok (snd v)) \/
              ((forall x, ~ In (fst f, x) (asg s)) /\ (exists t, snd f = TOption t) /\ snd v = SNone))) gs ws ->
            Forall2 (fun f v => fst v = fst f /\ (assoc (fst f) l = Some (snd v) \/
              (assoc (fst f) l = None /\ (exists t, snd f = TOption t) /\ snd v = SNone))) gs ws).
          { intros gs Sub ws FF. induction FF as [|[n t] [n' v] gs ws (E & C) FF IH]; constructor.
            - cbn in *. split; [exact E|]. destruct C as [(x & J & R) | (C & T & V)].
              + left. destruct (P2 _ _ J) as (v' & t' & J' & T' & R').
                assert (Tt : assoc n fs = Some t) by (apply In_assoc; [exact ND | apply (Sub (n, t)); left; reflexivity]).
                assert (t' = t) by congruence. subst t'. assert (v' = v) by congruence. subst v'.
                apply In_assoc; [rewrite NDl; exact NDa | exact J'].
              + right. split; [|auto]. apply assoc_None. intros v' J. apply (in_map fst) in J. rewrite NDl in J.
                apply in_map_iff in J. destruct J as ([k x] & E' & J). cbn in E'. subst k. apply (C x J).
            - apply IH. intros f J. apply Sub. right; exact J. }
          apply S2; [auto | exact F2]. }
    rewrite <- Key. split.
    - intros (s' & E). destruct (assign [] (asg s)) as [got| | |].
      + destruct SL as (s2 & SL). rewrite SL in E. cbn [bind] in E. exists got. split; [reflexivity|].
        apply bind_ok in E. destruct E as (vs' & E & E'). congruence.
      + destruct SL as (e & _ & SL). rewrite SL in E. discriminate.
      + destruct SL as (e & SL & _). discriminate.
      + destruct SL as (e & SL & _). discriminate.
    - intros (got & A & SF). rewrite A in SL. destruct SL as (s2 & SL). rewrite SL. cbn [bind]. rewrite SF. cbn [bind]. eauto.
  Qed.

  Theorem visit_struct_safe fuel s : inv s -> (size s < fuel)%nat -> safe (visit_struct fuel next_key skip decs fs s).
  Proof.
    intros I L. unfold visit_struct. pose proof (struct_loop_assign fuel s [] I L) as SL.
    destruct (assign [] (asg s)) as [got| | |].
    - destruct SL as (s2 & SL). rewrite SL. cbn [bind]. apply safe_bind; [apply struct_fields_safe | intros; exact Logic.I].
    - destruct SL as (e & _ & SL). rewrite SL. exact Logic.I.
    - destruct SL as (e & SL & _). discriminate.
    - destruct SL as (e & SL & _). discriminate.
  Qed.

  (** The outcome depends only on the assignments. *)
  Theorem visit_struct_same fuel s fuel' s' : inv s -> (size s < fuel)%nat -> inv s' -> (size s' < fuel')%nat ->
    asg s = asg s' ->
    res_map fst (visit_struct fuel next_key skip decs fs s) = res_map fst (visit_struct fuel' next_key skip decs fs s').
  Proof.
    intros I L I' L' A. unfold visit_struct. pose proof (struct_loop_assign fuel s [] I L) as SL.
    pose proof (struct_loop_assign fuel' s' [] I' L') as SL'. rewrite <- A in SL'.
    destruct (assign [] (asg s)) as [got|e| |].
    - destruct SL as (s2 & SL). destruct SL' as (s2' & SL'). rewrite SL, SL'. cbn [bind].
      destruct (struct_fields fs got); reflexivity.
    - destruct SL as (e1 & E1 & SL). destruct SL' as (e2 & E2 & SL'). rewrite SL, SL'. cbn. congruence.
    - destruct SL as (e1 & E1 & _). discriminate.
    - destruct SL as (e1 & E1 & _). discriminate.
  Qed.
End Reading.
