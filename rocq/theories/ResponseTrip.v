(** * Reading responses, and responses travelling from the server to the client. *)
From Verif Require Import Base Utf8 Decimal DepUrl Serde Json Status Procedure ScalarSpec PathSpec FieldSpec SerPath SerHeader SerRequest SerResponse
  DePath DeHeader DeRequest DeResponse DepHttp FieldProofs HeaderProofs FieldMore MapSpec MapTrip RequestArrives RequestTrip ResponseSpec ValueInd ResponseProofs.
Open Scope N_scope.

Lemma Forall2_in {A B} (P Q : A -> B -> Prop) l m : (forall a b, In a l -> P a b -> Q a b) -> Forall2 P l m -> Forall2 Q l m.
Proof. intros S F. induction F; constructor; [apply S; [left; reflexivity | assumption]|]. apply IHF. intros. apply S; [right; assumption | assumption]. Qed.

(** ** Reading a struct from a machine that names each of its parts once *)
Section Chain.
  Context {St : Type}.
  Variables (next : St -> res (option ustr * St)) (skip : ustr -> St -> res St) (val : ty -> St -> res (value * St)).
  Hypothesis val_stays : forall t s v s', val t s = Ok (v, s') -> s' = s.
  Hypothesis skip_stays : forall k s s', skip k s = Ok s' -> s' = s.

  (** From state [s] the machine names the parts [l], each read in the given state, and ends in [e]. *)
  Inductive emits (e : St) : St -> list (ustr * St) -> Prop :=
  | ENil s : next s = Ok (None, e) -> emits e s []
  | ECons s k q l : next s = Ok (Some k, q) -> emits e q l -> emits e s ((k, q) :: l).

  Variable fs : list (ustr * ty).
  Notation decs := (map (fun f => (fst f, val (snd f))) fs).

  Fixpoint collects (l : list (ustr * St)) (news : list (ustr * value)) : Prop :=
    match l with
    | [] => news = []
    | (k, q) :: l => match assoc k fs with
        | None => skip k q = Ok q /\ collects l news
        | Some t => exists v r, news = (k, v) :: r /\ val t q = Ok (v, q) /\ collects l r
        end
    end.

  Lemma loop_collects e s l : emits e s l -> forall fuel got g p, (length l < fuel)%nat -> NoDup (map fst l) ->
    (forall k, In k (map fst l) -> assoc k got = None) ->
    struct_loop fuel next skip decs got s = Ok (g, p) <-> p = e /\ exists news, g = got ++ news /\ collects l news.
  Proof.
    induction 1 as [s N|s k q l N E IH]; intros [|fuel] got g p L ND G; try (exfalso; cbn in L; lia); cbn [struct_loop]; rewrite N; cbn [bind].
    - split.
      + intros [= <- <-]. split; [reflexivity|]. exists []. rewrite app_nil_r. split; reflexivity.
      + intros (Ep & news & Eg & C). cbn [collects] in C. subst. rewrite app_nil_r. reflexivity.
    - cbn [length] in L. cbn [map fst] in ND. inversion ND as [|? ? N1 N2]; subst. rewrite (assoc_map val k fs). cbn [collects].
      destruct (assoc k fs) as [t|]; cbn [option_map].
      + rewrite (G k (or_introl eq_refl)).
        assert (G' : forall v k', In k' (map fst l) -> assoc k' (got ++ [(k, v)]) = None).
        { intros v k' I. rewrite assoc_app, (G k' (or_intror I)). apply assoc_other. congruence. }
        split.
        * intros D. destruct (val t q) as [[v q']| | |] eqn:V; cbn [bind] in D; try discriminate. pose proof (val_stays _ _ _ _ V). subst q'.
          apply IH in D; [|lia|exact N2|apply G']. destruct D as (-> & news & -> & C). split; [reflexivity|].
          exists ((k, v) :: news). rewrite <- app_assoc. split; [reflexivity|]. exists v, news. auto.
        * intros (-> & news & -> & v & r & -> & V & C). rewrite V. cbn [bind]. apply IH; [lia|exact N2|apply G'|].
          split; [reflexivity|]. exists r. rewrite <- app_assoc. auto.
      + split.
        * intros D. destruct (skip k q) as [q'| | |] eqn:V; cbn [bind] in D; try discriminate. pose proof (skip_stays _ _ _ V). subst q'.
          apply IH in D; [|lia|exact N2|intros k' I; apply G; right; exact I]. destruct D as (-> & news & -> & C). split; [reflexivity|]. eauto.
        * intros (-> & news & -> & V & C). rewrite V. cbn [bind]. apply IH; [lia|exact N2|intros k' I; apply G; right; exact I|]. eauto.
  Qed.

  Lemma collects_assoc l : NoDup (map fst l) -> forall news, collects l news -> forall k,
    match assoc k l, assoc k fs with
    | Some q, Some t => exists v, assoc k news = Some v /\ val t q = Ok (v, q)
    | Some q, None => assoc k news = None /\ skip k q = Ok q
    | None, _ => assoc k news = None
    end.
  Proof.
    induction l as [|[k0 q] l IH]; intros ND news C k; cbn [collects] in C; [subst; exact eq_refl|].
    cbn [map fst] in ND. inversion ND as [|? ? N1 N2]; subst. cbn [assoc].
    assert (K0 : assoc k0 l = None). { destruct (assoc k0 l) eqn:A; [|reflexivity]. elim N1. apply assoc_In_map. congruence. }
    destruct (ustr_eqb_spec k k0) as [->|N].
    - destruct (assoc k0 fs) as [t|] eqn:A.
      + destruct C as (v & r & -> & V & C). exists v. cbn [assoc]. rewrite ustr_eqb_refl. auto.
      + destruct C as [S C]. split; [|exact S]. specialize (IH N2 _ C k0). rewrite K0 in IH. exact IH.
    - destruct (assoc k0 fs) as [t|] eqn:A.
      + destruct C as (v & r & -> & V & C). cbn [assoc]. apply ustr_eqb_neq in N. rewrite N. apply IH; assumption.
      + destruct C as [S C]. apply IH; assumption.
  Qed.
  Lemma collects_exists l : (forall k q, In (k, q) l -> match assoc k fs with Some t => exists v, val t q = Ok (v, q) | None => skip k q = Ok q end) ->
    exists news, collects l news.
  Proof.
    induction l as [|[k q] l IH]; intros A; cbn [collects]; [exists []; reflexivity|].
    destruct IH as [news C]; [intros; apply A; right; assumption|]. specialize (A k q (or_introl eq_refl)). destruct (assoc k fs).
    - destruct A as [v V]. exists ((k, v) :: news). eauto.
    - eauto.
  Qed.

  Definition part_of (l : list (ustr * St)) (k : ustr) (t : ty) (v : value) : Prop :=
    match assoc k l with Some q => val t q = Ok (v, q) | None => is_option t = true /\ v = SNone end.

  Theorem chain_struct fuel e s l vs p : emits e s l -> (length l < fuel)%nat -> NoDup (map fst l) -> NoDup (map fst fs) ->
    visit_struct fuel next skip decs fs s = Ok (vs, p) <->
    p = e /\ (forall k q, In (k, q) l -> ~ In k (map fst fs) -> skip k q = Ok q) /\
    Forall2 (fun f v => fst v = fst f /\ part_of l (fst f) (snd f) (snd v)) fs vs.
  Proof.
    intros E L N1 N2. unfold visit_struct.
    assert (X : forall r : res (list (ustr * value) * St), ('(got, s) <- r ;; vs <- struct_fields fs got ;; Ok (vs, s)) = Ok (vs, p) <->
       exists got, r = Ok (got, p) /\ struct_fields fs got = Ok vs).
    { intros [[got q]| | |]; cbn [bind]; try (split; [discriminate | intros (? & ? & _); discriminate]).
      split.
      - destruct (struct_fields fs got) eqn:F; cbn [bind]; try discriminate. intros [= -> ->]. exists got. auto.
      - intros (g & [= -> ->] & ->). reflexivity. }
    rewrite X. clear X. split.
    - intros (g & D & F). apply (loop_collects e s l E) in D; [|exact L|exact N1|reflexivity].
      destruct D as (-> & news & Eg & C). cbn [app] in Eg. subst g. pose proof (collects_assoc l N1 news C) as A. split; [reflexivity|]. split.
      + intros k q I Nk. specialize (A k). rewrite (In_assoc k l q N1 I) in A.
        rewrite assoc_In_map in Nk. destruct (assoc k fs); [elim Nk; discriminate | apply A].
      + apply struct_fields_ok in F. assert (Sub : forall f, In f fs -> assoc (fst f) fs = Some (snd f)).
        { intros f I. apply In_assoc; [exact N2|]. destruct f; exact I. }
        revert F. apply Forall2_in. intros f v I [N R].
        split; [exact N|]. specialize (A (fst f)). rewrite (Sub f I) in A. unfold part_of.
        destruct (assoc (fst f) l) as [q|]; [destruct A as (w & A & V); rewrite A in R; congruence|]. rewrite A in R. exact R.
    - intros (-> & Sk & F).
      assert (V : forall k t, assoc k fs = Some t -> exists v, part_of l k t v).
      { intros k t A. apply assoc_In in A. clear - F A. induction F as [|f v fs1 vs [N R] F IH]; [contradiction|].
        destruct A as [->|A]; [eauto | auto]. }
      destruct (collects_exists l) as [news C].
      { intros k q I. destruct (assoc k fs) as [t|] eqn:A.
        - destruct (V k t A) as [v P]. unfold part_of in P. rewrite (In_assoc k l q N1 I) in P. eauto.
        - apply Sk; [exact I|]. rewrite assoc_In_map. congruence. }
      exists news. split.
      + apply (loop_collects e s l E); [exact L|exact N1|reflexivity|]. split; [reflexivity|]. exists news. auto.
      + pose proof (collects_assoc l N1 news C) as A. apply struct_fields_ok.
        assert (Sub : forall f, In f fs -> assoc (fst f) fs = Some (snd f)).
        { intros f I. apply In_assoc; [exact N2|]. destruct f; exact I. }
        revert F. apply Forall2_in. intros f v I [N R].
        split; [exact N|]. specialize (A (fst f)). rewrite (Sub f I) in A. unfold part_of in R.
        destruct (assoc (fst f) l) as [q|]; [destruct A as (w & A & W); rewrite A; congruence|]. rewrite A. exact R.
  Qed.

  Lemma loop_safe e s l : emits e s l -> (forall k q, In (k, q) l -> safe (skip k q) /\ forall t, safe (val t q)) ->
    forall fuel got, (length l < fuel)%nat -> safe (struct_loop fuel next skip decs got s).
  Proof.
    induction 1 as [s N|s k q l N E IH]; intros S [|fuel] got L; try (exfalso; cbn in L; lia); cbn [struct_loop]; rewrite N; cbn [bind]; [exact I|].
    cbn [length] in L. destruct (S k q (or_introl eq_refl)) as [S1 S2].
    assert (IH' : forall got', safe (struct_loop fuel next skip decs got' q)).
    { intros got'. apply IH; [|lia]. intros k' q' I. apply S. right. exact I. }
    rewrite (assoc_map val k fs). destruct (assoc k fs) as [t|]; cbn [option_map].
    - destruct (assoc k got); [exact I|]. apply safe_bind; [apply S2|]. intros [v q'] V. apply val_stays in V. subst q'. apply IH'.
    - apply safe_bind; [exact S1|]. intros q' V. apply skip_stays in V. subst q'. apply IH'.
  Qed.
  Lemma struct_fields_safe got : forall gs, safe (struct_fields gs got).
  Proof.
    induction gs as [|[n t] gs IH]; [exact I|]. cbn [struct_fields]. apply safe_bind; [destruct (assoc n got); [exact I|]; destruct (is_option t); exact I|].
    intros v _. apply safe_bind; [exact IH | intros; exact I].
  Qed.
  Lemma chain_safe e s l fuel : emits e s l -> (forall k q, In (k, q) l -> safe (skip k q) /\ forall t, safe (val t q)) -> (length l < fuel)%nat ->
    safe (visit_struct fuel next skip decs fs s).
  Proof.
    intros E S L. unfold visit_struct. apply safe_bind; [eapply loop_safe; eassumption|]. intros [got p] _.
    apply safe_bind; [apply struct_fields_safe | intros; exact I].
  Qed.
End Chain.

Section Read.
Context `{floatlib}.
Variables (code : N) (hs : list rheader).

Lemma resp_value_stays t s v s' : resp_value code hs t s = Ok (v, s') -> s' = s.
Proof.
  destruct s; cbn [resp_value]; [discriminate| |].
  - destruct (de_u16 code t); cbn; congruence.
  - destruct (de_header t (hde_new hs)) as [[? ?]| | |]; cbn; congruence.
Qed.
Lemma resp_skip_stays k s s' : resp_skip hs k s = Ok s' -> s' = s.
Proof.
  destruct s; cbn [resp_skip]; [discriminate|congruence|]. destruct (next_bytes (hde_new hs)) as [[? ?]| | |]; cbn; congruence.
Qed.
Lemma emits_init : emits resp_next_field SHeader SInit [(u "status", SStatus); (u "header", SHeader)].
Proof. apply ECons with (s := SInit); [reflexivity|]. apply ECons; [reflexivity|]. apply ENil. reflexivity. Qed.
Lemma emits_status : emits resp_next_field SHeader SStatus [(u "header", SHeader)].
Proof. apply ECons; [reflexivity|]. apply ENil. reflexivity. Qed.
Lemma skip_header : forall k, resp_skip hs k SHeader = Ok SHeader <-> hs <> [].
Proof. intros k. cbn. destruct hs as [|[? ?] ?]; cbn; split; congruence. Qed.
Lemma value_header_iff t v : resp_value code hs t SHeader = Ok (v, SHeader) <-> exists s', de_header t (hde_new hs) = Ok (v, s').
Proof.
  cbn [resp_value]. destruct (de_header t (hde_new hs)) as [[w s]| | |]; cbn [bind]; split; try discriminate; try (intros [? ?]; discriminate).
  - intros [= ->]. eauto.
  - intros [? [= -> _]]. reflexivity.
Qed.
Lemma value_status_iff t v : resp_value code hs t SStatus = Ok (v, SStatus) <-> de_u16 code t = Ok v.
Proof. cbn [resp_value]. destruct (de_u16 code t); cbn [bind]; split; congruence. Qed.

(** What a struct field of a response is read from. *)
Definition resp_part (with_status : bool) (k : ustr) (t : ty) (v : value) : Prop :=
  if with_status && ustr_eqb k (u "status") then de_u16 code t = Ok v
  else if ustr_eqb k (u "header") then exists s', de_header t (hde_new hs) = Ok (v, s')
  else is_option t = true /\ v = SNone.

Lemma part_init k t v : part_of (resp_value code hs) [(u "status", SStatus); (u "header", SHeader)] k t v <-> resp_part true k t v.
Proof.
  unfold part_of, resp_part. cbn [assoc andb]. destruct (ustr_eqb k (u "status")); [apply value_status_iff|].
  destruct (ustr_eqb k (u "header")); [apply value_header_iff | reflexivity].
Qed.
Lemma part_status k t v : part_of (resp_value code hs) [(u "header", SHeader)] k t v <-> resp_part false k t v.
Proof.
  unfold part_of, resp_part. cbn [assoc andb]. destruct (ustr_eqb k (u "header")); [apply value_header_iff | reflexivity].
Qed.

Lemma Forall2_iff {A B} (P Q : A -> B -> Prop) l m : (forall a b, P a b <-> Q a b) -> Forall2 P l m <-> Forall2 Q l m.
Proof. intros E. split; induction 1; constructor; auto; apply E; assumption. Qed.

Lemma read_struct ws fs vs p : NoDup (map fst fs) ->
  visit_struct 4 resp_next_field (resp_skip hs) (map (fun f => (fst f, resp_value code hs (snd f))) fs) fs (if ws : bool then SInit else SStatus) = Ok (vs, p) <->
  p = SHeader /\ (~ In (u "header") (map fst fs) -> hs <> []) /\
  Forall2 (fun f v => fst v = fst f /\ resp_part ws (fst f) (snd f) (snd v)) fs vs.
Proof.
  intros ND. destruct ws.
  - rewrite (chain_struct _ _ _ resp_value_stays resp_skip_stays fs 4 _ _ _ vs p emits_init);
      [|cbn; lia|apply nodup_names_NoDup; reflexivity|exact ND].
    rewrite (Forall2_iff _ (fun f v => fst v = fst f /\ resp_part true (fst f) (snd f) (snd v))) by (intros; rewrite part_init; reflexivity).
    assert (X : (forall k q, In (k, q) [(u "status", SStatus); (u "header", SHeader)] -> ~ In k (map fst fs) -> resp_skip hs k q = Ok q) <->
      (~ In (u "header") (map fst fs) -> hs <> [])); [|rewrite X; reflexivity].
    split.
    + intros A Nh. apply (skip_header (u "header")), A; [right; left; reflexivity | exact Nh].
    + intros A k q [[= <- <-]|[[= <- <-]|[]]] Nk; [reflexivity|]. apply skip_header, A, Nk.
  - rewrite (chain_struct _ _ _ resp_value_stays resp_skip_stays fs 4 _ _ _ vs p emits_status);
      [|cbn; lia|apply nodup_names_NoDup; reflexivity|exact ND].
    rewrite (Forall2_iff _ (fun f v => fst v = fst f /\ resp_part false (fst f) (snd f) (snd v))) by (intros; rewrite part_status; reflexivity).
    assert (X : (forall k q, In (k, q) [(u "header", SHeader)] -> ~ In k (map fst fs) -> resp_skip hs k q = Ok q) <->
      (~ In (u "header") (map fst fs) -> hs <> [])); [|rewrite X; reflexivity].
    split.
    + intros A Nh. apply (skip_header (u "header")), A; [left; reflexivity | exact Nh].
    + intros A k q [[= <- <-]|[]] Nk. apply skip_header, A, Nk.
Qed.

(** What the client decodes from any response, for a struct and for the variants of an enum. *)
Theorem de_response_struct n fs vs : NoDup (map fst fs) ->
  de_response code hs (TStruct n fs) = Ok (SStruct n vs) <->
  (~ In (u "header") (map fst fs) -> hs <> []) /\
  Forall2 (fun f v => fst v = fst f /\ resp_part true (fst f) (snd f) (snd v)) fs vs.
Proof.
  intros ND. unfold de_response. cbn [de_response_from]. pose proof (fun vs p => read_struct true fs vs p ND) as R. cbv iota in R. split.
  - intros E. destruct (visit_struct _ _ _ _ _ _) as [[ws p]| | |]; cbn [bind] in E; try discriminate. injection E as ->.
    specialize (R vs p). destruct R as [R _]. specialize (R eq_refl). clear - R. rename R into E. apply E.
  - intros D. assert (V := proj2 (R vs SHeader) (conj eq_refl D)). rewrite V. reflexivity.
Qed.

Lemma from_enum n vs p : de_response_from code hs (TEnum n vs) p =
  (name <- status_code_to_str code ;;
   match assoc name (map (fun f => (fst f, de_variant code hs (snd f) n (fst f))) vs) with None => Err Invalid | Some d => d SStatus end).
Proof. reflexivity. Qed.
Lemma variant_newtype t n x p : de_variant code hs (VNewtype t) n x p = ('(v, p) <- de_response_from code hs t p ;; Ok (SNewtypeVariant n x v, p)).
Proof. reflexivity. Qed.

Theorem de_response_enum n variants w : de_response code hs (TEnum n variants) = Ok w <->
  exists x t, status_code_to_str code = Ok x /\ assoc x variants = Some t /\
    match t with
    | VUnit => w = SUnitVariant n x
    | VNewtype t => exists v p, de_response_from code hs t SStatus = Ok (v, p) /\ w = SNewtypeVariant n x v
    | VTuple _ => False
    | VStruct fs => exists vs p, visit_struct 4 resp_next_field (resp_skip hs) (map (fun f => (fst f, resp_value code hs (snd f))) fs) fs SStatus = Ok (vs, p) /\
        w = SStructVariant n x vs
    end.
Proof.
  unfold de_response. rewrite from_enum. destruct (status_code_to_str code) as [x| | |]; cbn [bind];
    try (split; [discriminate | intros (? & ? & ? & _); discriminate]).
  assert (A : assoc x (map (fun f => (fst f, de_variant code hs (snd f) n (fst f))) variants) = option_map (fun t => de_variant code hs t n x) (assoc x variants)).
  { induction variants as [|[y t] r IH]; [reflexivity|]. cbn [map assoc fst snd]. destruct (ustr_eqb_spec x y) as [->|]; [reflexivity | exact IH]. }
  rewrite A. clear A. destruct (assoc x variants) as [t|] eqn:Ax; cbn [option_map];
    [|split; [discriminate | intros (? & ? & [= <-] & ? & _); congruence]].
  assert (X : forall P : vty -> Prop, (exists x0 t0, Ok x = Ok x0 /\ assoc x0 variants = Some t0 /\ P t0) <-> P t).
  { intros P. split; [intros (? & ? & [= <-] & B & Pt); congruence | intros Pt; exists x, t; auto]. }
  split.
  - intros E. exists x, t. split; [reflexivity|]. split; [exact Ax|]. destruct t as [|t|ts|fs]; [|rewrite variant_newtype in E| |]; cbn [de_variant bind] in E.
    + injection E as <-. reflexivity.
    + destruct (de_response_from code hs t SStatus) as [[v p]| | |]; cbn [bind] in E; try discriminate. injection E as <-. eauto.
    + discriminate.
    + destruct (visit_struct _ _ _ _ _ _) as [[ws p]| | |] eqn:V; cbn [bind] in E; try discriminate. injection E as <-. eauto.
  - intros (x' & t' & [= <-] & B & P). rewrite Ax in B. injection B as <-. destruct t as [|t|ts|fs]; [|rewrite variant_newtype| |]; cbn [de_variant bind].
    + subst. reflexivity.
    + destruct P as (v & p & -> & ->). reflexivity.
    + contradiction.
    + destruct P as (vs & p & -> & ->). reflexivity.
Qed.

Theorem de_struct_variant n variants vs fs x : status_code_to_str code = Ok x -> assoc x variants = Some (VStruct fs) -> NoDup (map fst fs) ->
  de_response code hs (TEnum n variants) = Ok (SStructVariant n x vs) <->
  (~ In (u "header") (map fst fs) -> hs <> []) /\ Forall2 (fun f v => fst v = fst f /\ resp_part false (fst f) (snd f) (snd v)) fs vs.
Proof.
  intros X A ND. rewrite de_response_enum. pose proof (fun vs p => read_struct false fs vs p ND) as R. cbv iota in R. split.
  - intros (y & t & Y & B & P). rewrite X in Y. injection Y as <-. rewrite A in B. injection B as <-. destruct P as (ws & p & V & [= <-]).
    apply R in V. apply V.
  - intros D. exists x, (VStruct fs). split; [exact X|]. split; [exact A|]. exists vs, SHeader. split; [|reflexivity]. apply R. auto.
Qed.

(** Decoding a response never panics nor loops, whatever arrives. *)
Theorem de_response_safe : names_ok hs = true -> forall t, safe (de_response code hs t).
Proof.
  intros NO.
  assert (V16 : forall t, safe (de_u16 code t)). { destruct t; try exact I. cbn. destruct (in_range k (Z.of_N code)); exact I. }
  assert (SV : forall q, q <> SInit -> forall t, safe (resp_value code hs t q)).
  { intros [| |] Nq t; [congruence| |]; cbn [resp_value].
    - apply safe_bind; [apply V16 | intros; exact I].
    - apply safe_bind; [apply de_header_safe, NO | intros [? ?] _; exact I]. }
  assert (SS : forall q k, q <> SInit -> safe (resp_skip hs k q)).
  { intros [| |] k Nq; [congruence|exact I|]. cbn. destruct hs as [|[? ?] ?]; exact I. }
  assert (ST : forall q fs, safe (visit_struct 4 resp_next_field (resp_skip hs) (map (fun f => (fst f, resp_value code hs (snd f))) fs) fs q)).
  { intros q fs. destruct q.
    - eapply (chain_safe _ _ _ resp_value_stays resp_skip_stays fs _ _ _ _ emits_init); [|cbn; lia].
      intros k q [[= <- <-]|[[= <- <-]|[]]]; (split; [apply SS; discriminate | intros; apply SV; discriminate]).
    - eapply (chain_safe _ _ _ resp_value_stays resp_skip_stays fs _ _ _ _ emits_status); [|cbn; lia].
      intros k q [[= <- <-]|[]]; (split; [apply SS; discriminate | intros; apply SV; discriminate]).
    - eapply (chain_safe _ _ _ resp_value_stays resp_skip_stays fs SHeader SHeader []); [apply ENil; reflexivity| |cbn; lia]. intros k q []. }
  assert (SK : forall t k, safe (de_str_key t k)).
  { intros t k. destruct t; try exact I. cbn [de_str_key]. destruct (assoc k vs) as [[| | |]|]; exact I. }
  assert (SM : forall k v q, safe (visit_map 4 (resp_next_key k) (fun _ => Err Invalid) (resp_value code hs v) [] q)).
  { intros k v q.
    assert (M1 : forall f m, safe (visit_map (S f) (resp_next_key k) (fun _ => Err Invalid) (resp_value code hs v) m SHeader)) by (intros; exact I).
    assert (M2 : forall f m, safe (visit_map (S (S f)) (resp_next_key k) (fun _ => Err Invalid) (resp_value code hs v) m SStatus)).
    { intros f m. cbn [visit_map]. unfold resp_next_key at 1. cbn [resp_next_field bind]. apply safe_bind.
      - apply safe_bind; [apply SK | intros; exact I].
      - intros [o s] E. destruct (de_str_key k (u "header")) as [w| | |]; cbn [bind] in E; try discriminate. injection E as <- <-.
        apply safe_bind; [apply SV; discriminate|]. intros [y s] E. apply resp_value_stays in E. subst s. apply (M1 f). }
    assert (M3 : forall f m, safe (visit_map (S (S (S f))) (resp_next_key k) (fun _ => Err Invalid) (resp_value code hs v) m SInit)).
    { intros f m. cbn [visit_map]. unfold resp_next_key at 1. cbn [resp_next_field bind]. apply safe_bind.
      - apply safe_bind; [apply SK | intros; exact I].
      - intros [o s] E. destruct (de_str_key k (u "status")) as [w| | |]; cbn [bind] in E; try discriminate. injection E as <- <-.
        apply safe_bind; [apply SV; discriminate|]. intros [y s] E. apply resp_value_stays in E. subst s. apply (M2 f). }
    destruct q; [apply M3 | apply M2 | apply M1]. }
  assert (SC : forall c, (exists x, status_code_to_str c = Ok x) \/ status_code_to_str c = Err Invalid).
  { intros c. unfold status_code_to_str. generalize code_table. induction l as [|[d y] l IH]; cbn; [auto|]. destruct (c =? d); eauto. }
  intros t. unfold de_response. apply safe_bind; [|intros [? ?] _; exact I]. generalize SInit.
  apply (ty_ind2 (fun t => forall q, safe (de_response_from code hs t q)) (fun t => forall e x q, safe (de_variant code hs t e x q)));
    intros; try exact I.
  - cbn [de_response_from]. apply safe_bind; [auto | intros [? ?] _; exact I].
  - cbn [de_response_from]. apply safe_bind; [apply SM | intros [? ?] _; exact I].
  - cbn [de_response_from de_variant]. apply safe_bind; [apply ST | intros [? ?] _; exact I].
  - rewrite from_enum. destruct (SC code) as [[x E]|E]; rewrite E; cbn [bind]; [|exact I].
    match goal with F : Forall _ ?vs |- _ => induction F as [|[y vt] l P F IH]; [exact I|] end. cbn [map assoc fst snd]. destruct (ustr_eqb x y); [apply P | exact IH].
  - apply safe_bind; [auto | intros [? ?] _; exact I].
  - cbn [de_response_from de_variant]. apply safe_bind; [apply ST | intros [? ?] _; exact I].
Qed.
End Read.

(** ** Responses arrive (C19, C21) *)
Section Arrive.
Context `{floatlib} `{httpenv}.

(** The header field of a response type, if it has one. *)
Definition head_ty (o : option (ty * value)) : list (ustr * ty) := field _ (u "header") (option_map fst o).
Definition head_val (o : option (ty * value)) : list (ustr * value) := field _ (u "header") (option_map snd o).

Lemma head_written o l : header_fits o l -> exists vs ls, head_val o = map (pair (u "header")) vs /\ Forall2 (fun h l => header_written h = Some l) vs ls /\ concat ls = l.
Proof.
  destruct o as [[t v]|]; intros F.
  - destruct F as [_ W]. exists [v], [l]. split; [reflexivity|]. split; [constructor; [exact W | constructor]|]. apply app_nil_r.
  - exists [], []. cbn in F. subst l. repeat split. constructor.
Qed.
Lemma head_read ws code o l len : header_fits o l ->
  (~ In (u "header") (map fst (head_ty o)) -> l ++ [content_length len] <> []) /\
  Forall2 (fun f v => fst v = fst f /\ resp_part code (l ++ [content_length len]) ws (fst f) (snd f) (snd v)) (head_ty o) (head_val o).
Proof.
  intros Hf. split; [intros _ E; destruct l; discriminate|]. destruct o as [[t v]|]; [|constructor].
  destruct Hf as [Hh W]. destruct (header_whole_trip t v Hh) as (l' & W' & _ & D).
  rewrite W in W'. injection W' as <-. destruct (D len) as [s' D']. constructor; [|constructor]. split; [reflexivity|].
  unfold resp_part. change (ustr_eqb (fst (u "header", t)) (u "status")) with false. rewrite andb_false_r.
  change (ustr_eqb (fst (u "header", t)) (u "header")) with true. exists s'. exact D'.
Qed.

Lemma content_length_safe len : safe_header (content_length len) = true.
Proof.
  unfold safe_header, content_length. cbn [fst snd]. destruct (show_N_digits len) as (Ne & _ & D). change (negb false && forallb token_char (u "Content-Length")) with true.
  cbn [andb]. apply andb_true_iff. split.
  - revert D. apply forallb_impl. intros c. cbv beta. unfold is_digit, value_byte. lia.
  - apply negb_true_iff. unfold edge_blank. destruct (show_N len) as [|c t]; [reflexivity|]. rewrite forallb_forall in D.
    assert (B : forall c, is_digit c = true -> blank c = false) by (intros d; unfold is_digit, blank; lia).
    rewrite (B c) by (apply D; left; reflexivity). cbn [orb]. apply B, D. destruct (exists_last (l := c :: t)) as (l' & a & ->); [discriminate|].
    rewrite last_last. apply in_or_app. right. left. reflexivity.
Qed.
Lemma safe_app_len l len : forallb safe_header l = true -> forallb safe_header (l ++ [content_length len]) = true.
Proof. intros S. rewrite !forallb_forall in *. intros h I. apply in_app_or in I. destruct I as [I|[<-|[]]]; [apply S, I | apply content_length_safe]. Qed.
Lemma encode_answers v st l len : answers (core v) st l -> encode_response v len = Ok (mkRespb st (l ++ [content_length len])).
Proof. intros A. apply encode_response_iff. eauto. Qed.

Definition arrives (t : ty) (v : value) (len : N) : Prop :=
  exists r hs, encode_response v len = Ok r /\ deliver (pb_headers r) = Some hs /\ de_response (code_of (pb_status r)) hs t = Ok v.

Theorem unit_variant_arrives n variants x st len : status_from_str x = Ok st -> assoc x variants = Some VUnit ->
  arrives (TEnum n variants) (SUnitVariant n x) len.
Proof.
  intros S A. exists (mkRespb st [content_length len]), [content_length len]. split; [|split].
  - apply (encode_answers (SUnitVariant n x) st [] len). constructor. exact S.
  - apply deliver_safe. cbn [pb_headers forallb]. rewrite andb_true_r. apply content_length_safe.
  - cbn [pb_status]. apply de_response_enum. exists x, VUnit. split; [apply names_and_codes, S|]. auto.
Qed.

Theorem struct_variant_arrives n variants x st o l len : status_from_str x = Ok st -> assoc x variants = Some (VStruct (head_ty o)) ->
  header_fits o l -> forallb safe_header l = true ->
  arrives (TEnum n variants) (SStructVariant n x (head_val o)) len.
Proof.
  intros S A Hf Sh. exists (mkRespb st (l ++ [content_length len])), (l ++ [content_length len]). split; [|split].
  - apply encode_answers. destruct (head_written o l Hf) as (vs & ls & -> & F & <-). constructor; assumption.
  - apply deliver_safe. cbn [pb_headers]. apply safe_app_len, Sh.
  - cbn [pb_status]. apply de_struct_variant with (fs := head_ty o); [apply names_and_codes, S|exact A| |apply head_read, Hf].
    destruct o; repeat constructor. intros [].
Qed.

Theorem struct_arrives n k z st o l len : in_range k z = true -> (0 <= z)%Z -> code_of st = Z.to_N z ->
  header_fits o l -> forallb safe_header l = true ->
  arrives (TStruct n ((u "status", TInt k) :: head_ty o)) (SStruct n ((u "status", SInt k z) :: head_val o)) len.
Proof.
  intros R P C Hf Sh. exists (mkRespb st (l ++ [content_length len])), (l ++ [content_length len]).
  assert (Z1 : (0 <= z <= 65535)%Z).
  { pose proof (code_is_known st) as Kn. rewrite C in Kn. unfold known_code in Kn. lia. }
  split; [|split].
  - apply encode_answers. destruct (head_written o l Hf) as (vs & ls & -> & F & <-). cbn [core]. apply (AStruct n (SInt k z) z st vs ls); [|exact C|exact F].
    cbn [status_number]. destruct ((0 <=? z) && (z <=? 65535))%Z eqn:E; [reflexivity | lia].
  - apply deliver_safe. cbn [pb_headers]. apply safe_app_len, Sh.
  - cbn [pb_status]. rewrite C. apply de_response_struct.
    { apply nodup_names_NoDup. destruct o; reflexivity. }
    destruct (head_read true (Z.to_N z) o l len Hf) as [H1 H2]. split.
    + intros _ E. destruct l; discriminate.
    + constructor; [|exact H2]. split; [reflexivity|]. unfold resp_part. cbn [fst snd andb]. rewrite ustr_eqb_refl.
      unfold de_u16. rewrite Z2N.id by lia. rewrite R. reflexivity.
Qed.

(** The name of the variant a value is. *)
Definition variant_of (v : value) : option ustr :=
  match v with
  | SUnitVariant _ x | SNewtypeVariant _ x _ | STupleVariant _ x _ | SStructVariant _ x _ => Some x
  | _ => None
  end.

(** An enum is always decoded as the variant named after the status. *)
Theorem decoded_variant code hs n variants w : de_response code hs (TEnum n variants) = Ok w ->
  exists x, variant_of w = Some x /\ status_code_to_str code = Ok x.
Proof.
  intros D. apply de_response_enum in D. destruct D as (x & t & X & _ & M). exists x. split; [|exact X].
  destruct t.
  - subst. reflexivity.
  - destruct M as (v & p & _ & ->). reflexivity.
  - contradiction.
  - destruct M as (vs & p & _ & ->). reflexivity.
Qed.

(** A newtype variant is sent with the status of its content. *)
Theorem newtype_status e x v len r : encode_response (SNewtypeVariant e x v) len = Ok r ->
  exists hs, answers (core v) (pb_status r) hs /\ pb_headers r = hs ++ [content_length len].
Proof. intros E. apply encode_response_iff in E. destruct E as (st & hs & A & ->). exists hs. auto. Qed.

Theorem newtype_becomes e x v len r hs n variants w y : encode_response (SNewtypeVariant e x v) len = Ok r ->
  de_response (code_of (pb_status r)) hs (TEnum n variants) = Ok w -> variant_of w = Some y -> status_from_str y = Ok (pb_status r).
Proof.
  intros _ D V. apply decoded_variant in D. destruct D as (x' & V' & X). rewrite V in V'. injection V' as <-. apply names_and_codes, X.
Qed.

(** A newtype variant around a struct loses the status field: it never arrives unchanged. *)
Theorem newtype_struct_changes e x n' fs fs' len r hs variants : encode_response (SNewtypeVariant e x (SStruct n' fs')) len = Ok r ->
  assoc x variants = Some (VNewtype (TStruct n' fs)) -> NoDup (map fst fs) ->
  de_response (code_of (pb_status r)) hs (TEnum e variants) <> Ok (SNewtypeVariant e x (SStruct n' fs')).
Proof.
  intros E A ND D. apply encode_response_iff in E. destruct E as (st & l & An & ->). cbn [core] in An.
  inversion An as [| |? v z ? hv ls Z C F]; subst.
  apply de_response_enum in D. destruct D as (y & t & Y & B & M). destruct t; try contradiction; try discriminate; try (destruct M as (? & ? & _ & M); discriminate).
  destruct M as (w & p & D & Ew). injection Ew as <- <-. rewrite A in B. injection B as <-. cbn [de_response_from] in D.
  pose proof (fun vs p => read_struct (code_of st) hs false fs vs p ND) as R. cbv iota in R. cbn [pb_status] in D.
  destruct (visit_struct _ _ _ _ _ _) as [[ws q]| | |]; cbn [bind] in D; try discriminate. injection D as -> ->.
  pose proof (proj1 (R _ _) eq_refl) as R1. destruct R1 as (_ & _ & F2). inversion F2 as [|f ? ? ? [Nf Pf] F3]; subst.
  cbn [fst snd] in Nf, Pf. rewrite <- Nf in Pf. unfold resp_part in Pf. cbn [andb] in Pf.
  change (ustr_eqb (u "status") (u "header")) with false in Pf. destruct Pf as [_ ->]. discriminate Z.
Qed.
End Arrive.
