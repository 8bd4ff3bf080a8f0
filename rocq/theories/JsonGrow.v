(** * What is written for a type is read by the types it is readable as (C83). *)
From Verif Require Import Base Utf8 Decimal Serde Json JsonText JsonSpec JsonProofs JsonDe JsonTrip JsonTypeSpec JsonType ScalarSpec FieldProofs ValueInd TypeSpec TypeProofs JsonGrowSpec.
Open Scope N_scope.

Section Grow.
Context `{FL : floatlib} `{JF : jsonfloat}.

(** What is to be shown of two types. *)
Definition passes (t t' : ty) : Prop := forall v j, has_ty t v = true -> json_faithful v -> to_json v = Ok j -> exists v', means t' j v' /\ has_ty t' v' = true /\ kept v v'.

Lemma takes_null_value t : forall v, takes_null t = false -> has_ty t v = true -> json_null v = false.
Proof.
  induction t; intros v N T; cbn [takes_null] in N; try discriminate; destruct v; cbn [has_ty] in T; try discriminate; try reflexivity.
  apply andb_prop in T. exact (IHt _ N (proj2 T)).
Qed.

Lemma same_passes t : wf_ty t = true -> passes t t.
Proof. intros W v j T F E. exists v. split; [|split; [exact T | constructor]]. apply (from_json_exact t W). exact (proj1 (json_trip t v j T F E)). Qed.

Lemma seq_passes t t' : passes t t' -> forall vs js, forallb (has_ty t) vs = true -> Forall json_faithful vs -> jlist vs = Ok js ->
  exists vs', Forall2 (means t') js vs' /\ forallb (has_ty t') vs' = true /\ Forall2 kept vs vs'.
Proof.
  intros P vs js T F J. apply jlist_ok in J. induction J as [|v j vs js E J IH]; [exists []; repeat split; constructor|].
  cbn [forallb] in T. apply andb_prop in T. destruct T as [T1 T2]. inversion F; subst.
  destruct (P v j T1 H1 E) as (v' & M & Y & K). destruct (IH T2 H2) as (vs' & Ms & Ys & Ks). exists (v' :: vs'). split; [|split]; try (constructor; assumption). cbn [forallb]. rewrite Y. exact Ys.
Qed.
Lemma tuple_passes ts ts' : Forall2 passes ts ts' -> forall vs js, all2b (fun f v => f v) (map has_ty ts) vs = true -> Forall json_faithful vs -> jlist vs = Ok js ->
  exists vs', elements ts' js vs' /\ all2b (fun f v => f v) (map has_ty ts') vs' = true /\ Forall2 kept vs vs'.
Proof.
  intros P vs js T F J. apply jlist_ok in J. apply all2b_Forall2 in T. rewrite Forall2_map_l in T. revert ts ts' P T F.
  induction J as [|v j vs js E J IH]; intros ts ts' P T F; inversion T as [|t ? ts1 ? Tv T']; subst; inversion P as [|? t' ? ts1' Pt P']; subst.
  - exists []. repeat split; constructor.
  - inversion F; subst. destruct (Pt v j Tv H1 E) as (v' & M & Y & K). destruct (IH _ _ P' T' H2) as (vs' & Ms & Ys & Ks). exists (v' :: vs'). split; [|split]; try (constructor; assumption). cbn [map all2b]. rewrite Y. exact Ys.
Qed.
Lemma tuple_seq_passes t' ts : Forall (fun t => passes t t') ts -> forall vs js, all2b (fun f v => f v) (map has_ty ts) vs = true -> Forall json_faithful vs -> jlist vs = Ok js ->
  exists vs', Forall2 (means t') js vs' /\ forallb (has_ty t') vs' = true /\ Forall2 kept vs vs'.
Proof.
  intros P vs js T F J. apply jlist_ok in J. apply all2b_Forall2 in T. rewrite Forall2_map_l in T. revert ts P T F.
  induction J as [|v j vs js E J IH]; intros ts P T F; inversion T as [|t ? ts1 ? Tv T']; subst.
  - exists []. repeat split; constructor.
  - inversion P as [|? ? Pt P']; subst. inversion F; subst. destruct (Pt v j Tv H1 E) as (v' & M & Y & K). destruct (IH _ P' T' H2) as (vs' & Ms & Ys & Ks). exists (v' :: vs'). split; [|split]; try (constructor; assumption). cbn [forallb]. rewrite Y. exact Ys.
Qed.

(** Maps. *)
Lemma put_all (kvs : list (value * value)) : forall m, NoDup (map fst (m ++ kvs)) -> fold_left (fun m kv => put m (fst kv) (snd kv)) kvs m = m ++ kvs.
Proof.
  induction kvs as [|[k v] kvs IH]; intros m N; cbn [fold_left]; [symmetry; apply app_nil_r|]. cbn [fst snd]. rewrite put_insert, map_insert_new.
  - rewrite IH; rewrite <- app_assoc; [reflexivity | exact N].
  - rewrite map_app in N. cbn [map fst] in N. apply NoDup_remove_2 in N. intros I. apply N. apply in_or_app. left. exact I.
Qed.
Lemma map_passes k t t' : passes t t' -> forall kvs js, forallb (fun kv => has_ty k (fst kv) && has_ty t (snd kv)) kvs = true -> Forall (fun kv => json_faithful (snd kv)) kvs -> jentries kvs = Ok js ->
  exists kvs', Forall2 (fun m kv => key_means k (fst m) (fst kv) /\ means t' (snd m) (snd kv)) js kvs' /\
    forallb (fun kv => has_ty k (fst kv) && has_ty t' (snd kv)) kvs' = true /\ Forall2 (fun a b => fst b = fst a /\ kept (snd a) (snd b)) kvs kvs'.
Proof.
  intros P kvs js T F J. apply jentries_ok in J. induction J as [|[a v] [s j] kvs js [Ek E] J IH]; [exists []; repeat split; constructor|].
  cbn [forallb fst snd] in *. apply andb_prop in T. destruct T as [T1 T2]. apply andb_prop in T1. destruct T1 as [Tk Tv]. inversion F; subst. cbn [snd] in *.
  destruct (P v j Tv H1 E) as (v' & M & Y & K). destruct (IH T2 H2) as (kvs' & Ms & Ys & Ks). exists ((a, v') :: kvs').
  split; [|split; [cbn [forallb fst snd]; rewrite Tk, Y; exact Ys|]]; constructor; try assumption.
  - cbn [fst snd]. split; [apply key_iff, key_trip; assumption | exact M].
  - split; [reflexivity | exact K].
Qed.

(** Structs. *)
Lemma fields_look fs vs js : Forall2 (fun f v => ustr_eqb (fst f) (fst v) && has_ty (snd f) (snd v) = true) fs vs -> Forall (fun f => json_faithful (snd f)) vs ->
  Forall2 (fun f kj => fst kj = fst f /\ to_json (snd f) = Ok (snd kj)) vs js ->
  map fst vs = map fst fs /\ map fst js = map fst fs /\
  forall k t, In (k, t) fs -> exists v j, In (k, v) vs /\ In (k, j) js /\ has_ty t v = true /\ json_faithful v /\ to_json v = Ok j.
Proof.
  intros T F J. revert fs T F. induction J as [|[k v] [k1 j] vs js [E1 E] J IH]; intros fs T F; inversion T as [|[n t] ? fs' ? Et T']; subst.
  - repeat split. intros k t [].
  - cbn [fst snd] in *. subst k1. apply andb_prop in Et. destruct Et as [En Et]. apply ustr_eqb_eq in En. subst n. inversion F; subst. cbn [snd] in *.
    destruct (IH _ T' H2) as (A & B & D). cbn [map fst]. rewrite A, B. split; [reflexivity|]. split; [reflexivity|].
    intros k' t' [Q|I].
    + injection Q as <- <-. exists v, j. split; [left; reflexivity|]. split; [left; reflexivity|]. auto.
    + destruct (D k' t' I) as (v' & j' & I1 & I2 & R). exists v', j'. split; [right; exact I1|]. split; [right; exact I2 | exact R].
Qed.
Lemma once_nodup (l : list (ustr * json)) k : NoDup (map fst l) -> at_most_once l k.
Proof.
  unfold at_most_once. induction l as [|[n j] l IH]; intros N; cbn [filter length]; [lia|]. inversion N as [|? ? Nk N']; subst. cbn [fst]. specialize (IH N').
  destruct (ustr_eqb n k) eqn:E; [|exact IH]. apply ustr_eqb_eq in E. subst n. cbn [length].
  replace (filter (fun m : ustr * json => ustr_eqb (fst m) k) l) with (@nil (ustr * json)); [cbn; lia|]. clear -Nk. induction l as [|[n j] l IH]; [reflexivity|]. cbn [filter map fst In] in *.
  destruct (ustr_eqb n k) eqn:E; [apply ustr_eqb_eq in E; subst; tauto | apply IH; tauto].
Qed.
Lemma assoc_none {A} (l : list (ustr * A)) k : ~ In k (map fst l) -> assoc k l = None.
Proof. induction l as [|[n a] l IH]; intros N; cbn [assoc]; [reflexivity|]. cbn [map fst In] in N. destruct (ustr_eqb k n) eqn:E; [apply ustr_eqb_eq in E; subst; tauto | apply IH; tauto]. Qed.

Lemma struct_passes fs fs' vs js : 
  all2b (fun f v => ustr_eqb (fst f) (fst v) && snd f (snd v)) (map (fun f => (fst f, has_ty (snd f))) fs) vs && nodup_names (map fst fs) = true ->
  Forall (fun f => json_faithful (snd f)) vs -> jfields vs = Ok js ->
  (forall k t', In (k, t') fs' -> (exists t, In (k, t) fs /\ passes t t') \/ (~ In k (map fst fs) /\ exists t, t' = TOption t)) ->
  exists vs', fields fs' js vs' /\ all2b (fun f v => ustr_eqb (fst f) (fst v) && snd f (snd v)) (map (fun f => (fst f, has_ty (snd f))) fs') vs' = true /\ kept_fields vs vs'.
Proof.
  intros T F J H. apply andb_prop in T. destruct T as [T N]. apply nodup_names_NoDup in N. apply all2b_Forall2 in T. rewrite Forall2_map_l in T. cbn [fst snd] in T. apply jfields_ok in J.
  destruct (fields_look fs vs js T F J) as (Nv & Nj & L).
  assert (G : exists vs', fields fs' js vs' /\ all2b (fun f v => ustr_eqb (fst f) (fst v) && snd f (snd v)) (map (fun f => (fst f, has_ty (snd f))) fs') vs' = true /\ forall k v', In (k, v') vs' -> (exists v, In (k, v) vs /\ kept v v') \/ (~ In k (map fst vs) /\ v' = SNone)).
  { induction fs' as [|[k t'] fs' IH]; [exists []; split; [constructor | split; [reflexivity | intros k v' []]]|].
    destruct IH as (vs' & Fi & Ys & Ke); [intros k0 t0 I; apply H; right; exact I|].
    destruct (H k t' (or_introl eq_refl)) as [(t & I & P)|(O & t0 & ->)].
    - destruct (L k t I) as (v & j & Iv & Ij & Tv & Fv & E). destruct (P v j Tv Fv E) as (v' & M & Y & K). exists ((k, v') :: vs'). split; [|split].
      + apply fd_there with j; [apply once_nodup; rewrite Nj; exact N| |exact M | exact Fi]. apply (assoc_full js) with (kv := (k, j)); [rewrite Nj; exact N | exact Ij].
      + cbn [map all2b fst snd]. rewrite ustr_eqb_refl, Y. exact Ys.
      + intros k1 v1 [Q|I1]; [|exact (Ke _ _ I1)]. injection Q as <- <-. left. exists v. auto.
    - exists ((k, SNone) :: vs'). split; [|split].
      + apply fd_absent; [|exact Fi]. apply assoc_none. rewrite Nj. exact O.
      + cbn [map all2b fst snd has_ty]. rewrite ustr_eqb_refl. exact Ys.
      + intros k1 v1 [Q|I1]; [|exact (Ke _ _ I1)]. injection Q as <- <-. right. rewrite Nv. auto. }
  destruct G as (vs' & Fi & Ys & Ke). exists vs'. split; [exact Fi | split; [exact Ys | constructor; exact Ke]].
Qed.

(** Enums. *)
Definition variant_passes (t t' : vty) : Prop := forall n n' x v j, vhas_ty t v = true -> json_faithful v -> to_json v = Ok j ->
  match v with SUnitVariant m y | SNewtypeVariant m y _ | STupleVariant m y _ | SStructVariant m y _ => m = n /\ y = x | _ => False end ->
  exists v', kept v v' /\ vhas_ty t' v' = true /\ match v' with SUnitVariant m y | SNewtypeVariant m y _ | STupleVariant m y _ | SStructVariant m y _ => m = n' /\ y = x | _ => False end /\
    ((t' = VUnit /\ j = JStr x /\ v' = SUnitVariant n' x) \/ exists j', j = JObj [(x, j')] /\ variant_means t' n' x j' v').

Lemma in_bounds k z : in_range k z = true -> (fst (int_bounds k) <= z <= snd (int_bounds k))%Z.
Proof. intros R. apply in_range_bounds. exact R. Qed.



Lemma enum_passes n n' vs vs' : (forall x t, assoc x vs = Some t -> exists t', assoc x vs' = Some t' /\ variant_passes t t') -> passes (TEnum n vs) (TEnum n' vs').
Proof.
  intros H v j T F E.
  assert (G : forall x, match v with SUnitVariant m y | SNewtypeVariant m y _ | STupleVariant m y _ | SStructVariant m y _ => m = n /\ y = x | _ => False end ->
      match assoc x (map (fun f => (fst f, vhas_ty (snd f))) vs) with Some f => f v | None => false end = true -> exists v', means (TEnum n' vs') j v' /\ has_ty (TEnum n' vs') v' = true /\ kept v v').
  { intros x Hv A. rewrite assoc_map in A. destruct (assoc x vs) as [vt|] eqn:Ax; cbn [option_map] in A; [|discriminate].
    destruct (H x vt Ax) as (vt' & Ax' & P). destruct (P n n' x v j A F E Hv) as (v' & K & Y & Hv' & Q). exists v'. split; [|split; [|exact K]].
    - destruct Q as [(-> & -> & ->)|(j' & -> & M)]; [apply me_unit_variant; exact Ax' | exact (me_variant n' vs' x vt' j' v' Ax' M)].
    - destruct v'; try contradiction; destruct Hv' as [-> ->]; cbn [has_ty]; rewrite ustr_eqb_refl, assoc_map, Ax'; exact Y. }
  destruct v; cbn [has_ty] in T; try discriminate; apply andb_true_iff in T; destruct T as [E1 T]; apply ustr_eqb_eq in E1; subst; apply (G variant (conj eq_refl eq_refl) T).
Qed.

Theorem readable_passes t t' : readable_as t t' -> wf_ty t' = true -> passes t t'
with variant_readable_passes t t' : readable_variant t t' -> wf_vty t' = true -> variant_passes t t'.
Proof.
  - intros R. destruct R as [t|k k' L U| |t t' N R|t t' R|m t t' R|m t t' R|n n'|t t' R|ts ts' R|n n' ts ts' R|ts t' R|k t t' R|n n' fs fs' R|n n' vs vs' R]; intros W.
    + exact (same_passes t W).
    + intros v j T F E. destruct v; cbn [has_ty] in T; try discriminate. apply andb_prop in T. destruct T as [E1 T]. apply ikind_eqb_eq in E1. subst. injection E as <-.
      exists (SInt k' z). apply in_bounds in T. split; [|split; [|constructor]]; [constructor; lia|]. cbn [has_ty]. apply andb_true_iff. split; [apply ikind_eqb_eq; reflexivity | apply in_range_bounds; lia].
    + intros v j T F E. destruct v; cbn [has_ty] in T; try discriminate. injection E as <-. exists (SStr [c]). split; [constructor|]. split; [|apply KeChar]. cbn [has_ty str_ok forallb]. unfold str_ok. cbn [forallb]. rewrite T. reflexivity.
    + intros v j T F E. destruct (readable_passes _ _ R W v j T F E) as (v' & M & Y & K). exists (SSome v'). split; [|split; [exact Y | apply KeOptional; exact K]]. apply me_some; [|exact M].
      intros ->. pose proof (proj2 (proj2 (json_trip t v _ T F E)) eq_refl) as Q. rewrite (takes_null_value t v N T) in Q. discriminate.
    + intros v j T F E. destruct v; cbn [has_ty] in T; try discriminate; [injection E as <-; exists SNone; split; [constructor | split; [reflexivity | constructor]]|]. destruct F as [Nn F]. cbn [to_json] in E.
      destruct (readable_passes _ _ R W v j T F E) as (v' & M & Y & K). exists (SSome v'). split; [|split; [exact Y | apply KeOption; exact K]]. apply me_some; [|exact M].
      intros ->. pose proof (proj2 (proj2 (json_trip t v _ T F E)) eq_refl) as Q. congruence.
    + intros v j T F E. destruct (readable_passes _ _ R W v j T F E) as (v' & M & Y & K). exists (SNewtypeStruct m v'). split; [constructor; exact M|]. split; [|apply KeWrap; exact K]. cbn [has_ty]. rewrite ustr_eqb_refl. exact Y.
    + intros v j T F E. destruct v; cbn [has_ty] in T; try discriminate. apply andb_prop in T. destruct T as [E1 T]. apply ustr_eqb_eq in E1. subst.
      destruct (readable_passes _ _ R W v j T F E) as (v' & M & Y & K). exists v'. split; [exact M | split; [exact Y | apply KeUnwrap; exact K]].
    + intros v j T F E. destruct v; cbn [has_ty] in T; try discriminate. injection E as <-. exists (SUnitStruct n'). split; [constructor | split; [apply ustr_eqb_refl | apply KeUnitStruct]].
    + intros v j T F E. destruct v; cbn [has_ty] in T; try discriminate. change (to_json (SSeq vs)) with (js <- jlist vs ;; Ok (JArr js)) in E.
      destruct (jlist vs) as [js| | |] eqn:J; try discriminate. injection E as <-. cbn [json_faithful] in F. apply (fold_forall json_faithful) in F.
      destruct (seq_passes t t' (readable_passes _ _ R W) vs js T F J) as (vs' & M & Y & K). exists (SSeq vs'). split; [|split; [exact Y|]]; constructor; assumption.
    + intros v j T F E. destruct v; cbn [has_ty] in T; try discriminate. change (to_json (STuple vs)) with (js <- jlist vs ;; Ok (JArr js)) in E.
      destruct (jlist vs) as [js| | |] eqn:J; try discriminate. injection E as <-. cbn [json_faithful] in F. apply (fold_forall json_faithful) in F.
      assert (P : Forall2 passes ts ts').
      { clear T. cbn [wf_ty] in W. induction R as [|t t' ts ts' Rt R IH]; constructor; cbn [forallb] in W; apply andb_prop in W; [exact (readable_passes _ _ Rt (proj1 W)) | exact (IH (proj2 W))]. }
      destruct (tuple_passes ts ts' P vs js T F J) as (vs' & M & Y & K). exists (STuple vs'). split; [|split; [exact Y|]]; constructor; assumption.
    + intros v j T F E. destruct v; cbn [has_ty] in T; try discriminate. apply andb_prop in T. destruct T as [E1 T]. apply ustr_eqb_eq in E1. subst.
      change (to_json (STupleStruct name vs)) with (js <- jlist vs ;; Ok (JArr js)) in E.
      destruct (jlist vs) as [js| | |] eqn:J; try discriminate. injection E as <-. cbn [json_faithful] in F. apply (fold_forall json_faithful) in F.
      assert (P : Forall2 passes ts ts').
      { clear T. cbn [wf_ty] in W. induction R as [|t t' ts ts' Rt R IH]; constructor; cbn [forallb] in W; apply andb_prop in W; [exact (readable_passes _ _ Rt (proj1 W)) | exact (IH (proj2 W))]. }
      destruct (tuple_passes ts ts' P vs js T F J) as (vs' & M & Y & K). exists (STupleStruct n' vs'). split; [|split; [cbn [has_ty]; rewrite ustr_eqb_refl; exact Y|]]; constructor; assumption.
    + intros v j T F E. destruct v; cbn [has_ty] in T; try discriminate. change (to_json (STuple vs)) with (js <- jlist vs ;; Ok (JArr js)) in E.
      destruct (jlist vs) as [js| | |] eqn:J; try discriminate. injection E as <-. cbn [json_faithful] in F. apply (fold_forall json_faithful) in F.
      assert (P : Forall (fun t => passes t t') ts).
      { clear T. cbn [wf_ty] in W. induction R as [|t ts Rt R IH]; constructor; [exact (readable_passes _ _ Rt W) | exact IH]. }
      destruct (tuple_seq_passes t' ts P vs js T F J) as (vs' & M & Y & K). exists (SSeq vs'). split; [constructor; exact M | split; [exact Y | apply KeTupleSeq; exact K]].
    + intros v j T F E. cbn [wf_ty] in W. apply andb_prop in W. destruct W as [_ W]. destruct v; cbn [has_ty] in T; try discriminate. apply andb_true_iff in T. destruct T as [T Nd]. apply nodup_vals_NoDup in Nd.
      change (to_json (SMap kvs)) with (js <- jentries kvs ;; Ok (JObj js)) in E. destruct (jentries kvs) as [js| | |] eqn:J; try discriminate. injection E as <-.
      cbn [json_faithful] in F. apply (fold_forall (fun kv : value * value => json_faithful (snd kv))) in F.
      destruct (map_passes k t t' (readable_passes _ _ R W) kvs js T F J) as (kvs' & M & Y & K). exists (SMap kvs').
      assert (Q : map fst kvs' = map fst kvs) by (clear -K; induction K as [|a b l l' [E _] _ IH]; [reflexivity|]; cbn [map]; congruence).
      split; [|split; [|constructor; exact K]]; [|cbn [has_ty]; rewrite Y; apply nodup_vals_NoDup; rewrite Q; exact Nd].
      replace kvs' with (fold_left (fun m kv => put m (fst kv) (snd kv)) kvs' []) at 1; [constructor; exact M|]. apply put_all. cbn [app]. rewrite Q. exact Nd.
    + intros v j T F E. destruct v as [| | | | | | | | | | | | | | | | | | |m vs|]; cbn [has_ty] in T; try discriminate. rewrite <- andb_assoc in T. apply andb_true_iff in T. destruct T as [E1 T]. apply ustr_eqb_eq in E1. subst.
      change (to_json (SStruct m vs)) with (js <- jfields vs ;; Ok (JObj js)) in E. destruct (jfields vs) as [js| | |] eqn:J; try discriminate. injection E as <-.
      cbn [json_faithful] in F. apply (fold_forall (fun kv : ustr * value => json_faithful (snd kv))) in F.
      cbn [wf_ty] in W. apply andb_prop in W. destruct W as [Wn W]. rewrite forallb_forall in W.
      destruct R as [fs fs' N R]. destruct (struct_passes fs fs' vs js T F J) as (vs' & M & Y & K).
      * intros k t' I. destruct (R k t' I) as [(t & It & Rt)|A]; [left; exists t; split; [exact It | exact (readable_passes _ _ Rt (W _ I))] | right; exact A].
      * exists (SStruct n' vs'). split; [constructor; constructor; exact M|]. split; [|constructor; exact K]. cbn [has_ty]. rewrite ustr_eqb_refl, Y. exact Wn.
    + apply enum_passes. intros x t A. cbn [wf_ty] in W. rewrite forallb_forall in W. destruct (R x t A) as (t' & A' & Rt). exists t'. split; [exact A'|].
      exact (variant_readable_passes _ _ Rt (W _ (assoc_In _ _ _ A'))).
  - intros R. destruct R as [|t t' R|ts ts' R|fs fs' R]; intros W n n' x v j T F E Hv.
    + destruct v; cbn [vhas_ty] in T; try discriminate. destruct Hv as [-> ->]. injection E as <-. exists (SUnitVariant n' x). split; [constructor|]. split; [reflexivity|]. split; [auto|]. left. auto.
    + destruct v; cbn [vhas_ty] in T; try discriminate. destruct Hv as [-> ->]. cbn [to_json] in E. destruct (to_json v) as [j'| | |] eqn:J; try discriminate. injection E as <-.
      destruct (readable_passes _ _ R W v j' T F J) as (v' & M & Y & K). exists (SNewtypeVariant n' x v'). split; [constructor; exact K|]. split; [exact Y|]. split; [auto|]. right. exists j'. split; [reflexivity | constructor; exact M].
    + destruct v; cbn [vhas_ty] in T; try discriminate. destruct Hv as [-> ->]. change (to_json (STupleVariant n x vs)) with (js <- jlist vs ;; Ok (JObj [(x, JArr js)])) in E.
      destruct (jlist vs) as [js| | |] eqn:J; try discriminate. injection E as <-. cbn [json_faithful] in F. apply (fold_forall json_faithful) in F.
      assert (P : Forall2 passes ts ts').
      { clear T. cbn [wf_vty] in W. induction R as [|t t' ts ts' Rt R IH]; constructor; cbn [forallb] in W; apply andb_prop in W; [exact (readable_passes _ _ Rt (proj1 W)) | exact (IH (proj2 W))]. }
      destruct (tuple_passes ts ts' P vs js T F J) as (vs' & M & Y & K). exists (STupleVariant n' x vs'). split; [constructor; exact K|]. split; [exact Y|]. split; [auto|]. right. exists (JArr js). split; [reflexivity | constructor; exact M].
    + destruct v as [| | | | | | | | | | | | | | | | | | | |m y vs]; cbn [vhas_ty] in T; try discriminate. destruct Hv as [-> ->]. change (to_json (SStructVariant n x vs)) with (js <- jfields vs ;; Ok (JObj [(x, JObj js)])) in E.
      destruct (jfields vs) as [js| | |] eqn:J; try discriminate. injection E as <-. cbn [json_faithful] in F. apply (fold_forall (fun kv : ustr * value => json_faithful (snd kv))) in F.
      cbn [wf_vty] in W. apply andb_prop in W. destruct W as [Wn W]. rewrite forallb_forall in W.
      destruct R as [fs fs' N R]. destruct (struct_passes fs fs' vs js T F J) as (vs' & M & Y & K).
      * intros k t' I. destruct (R k t' I) as [(t & It & Rt)|A]; [left; exists t; split; [exact It | exact (readable_passes _ _ Rt (W _ I))] | right; exact A].
      * exists (SStructVariant n' x vs'). split; [constructor; exact K|]. split; [cbn [vhas_ty]; rewrite Y; exact Wn|]. split; [auto|]. right. exists (JObj js). split; [reflexivity | constructor; constructor; exact M].
Qed.

(** ** Refusals *)
Lemma shown_json v : shown v = true -> to_json v <> Ok JNull.
Proof.
  induction v using value_ind2; cbn [shown]; intros Sh; try discriminate; cbn [to_json]; try discriminate; try (apply IHv; exact Sh).
  all: try (intros Q; apply bind_Ok in Q; destruct Q as (a & _ & Q); discriminate Q).
Qed.
Lemma fields_at fs l vs k t : fields fs l vs -> In (k, t) fs -> (exists j v, at_most_once l k /\ assoc k l = Some j /\ means t j v) \/ (assoc k l = None /\ exists t0, t = TOption t0).
Proof.
  intros Fi. induction Fi as [l|n t1 fs l j v vs O A M Fi IH|n t1 fs l vs A Fi IH]; [intros []| |]; intros [Q|I]; try exact (IH I); injection Q as <- <-.
  - left. exists j, v. auto.
  - right. split; [exact A | exists t1; reflexivity].
Qed.
Lemma once_assoc (l : list (ustr * json)) k j : at_most_once l k -> In (k, j) l -> assoc k l = Some j.
Proof.
  unfold at_most_once. induction l as [|[n i] l IH]; intros O []; cbn [filter fst] in O; cbn [assoc].
  - injection H as <- <-. rewrite ustr_eqb_refl. reflexivity.
  - destruct (ustr_eqb n k) eqn:E; cbn [length] in O.
    + exfalso. assert (L : In (k, j) (filter (fun m : ustr * json => ustr_eqb (fst m) k) l)) by (apply filter_In; split; [exact H | apply ustr_eqb_refl]).
      destruct (filter (fun m : ustr * json => ustr_eqb (fst m) k) l); [contradiction | cbn [length] in O; lia].
    + destruct (ustr_eqb k n) eqn:E2; [apply ustr_eqb_eq in E2; subst; rewrite ustr_eqb_refl in E; discriminate | exact (IH O H)].
Qed.
Lemma assoc_none_in {A} (l : list (ustr * A)) k a : assoc k l = None -> ~ In (k, a) l.
Proof. induction l as [|[n b] l IH]; cbn [assoc]; [intros _ []|]. destruct (ustr_eqb k n) eqn:E; [discriminate|]. intros Q [X|I]; [injection X as -> _; rewrite ustr_eqb_refl in E; discriminate | exact (IH Q I)]. Qed.
Lemma fields_names vs js : jfields vs = Ok js -> map fst js = map fst vs.
Proof. intros J. apply jfields_ok in J. induction J as [|a b l l' [E _] _ IH]; [reflexivity|]. cbn [map]. congruence. Qed.
Lemma fields_in vs js k v : jfields vs = Ok js -> In (k, v) vs -> exists j, In (k, j) js /\ to_json v = Ok j.
Proof.
  intros J. apply jfields_ok in J. induction J as [|[n w] [m j] l l' [E1 E] _ IH]; [intros []|]. cbn [fst snd] in *. subst m. intros [Q|I].
  - injection Q as <- <-. exists j. split; [left; reflexivity | exact E].
  - destruct (IH I) as (i & I1 & Ei). exists i. split; [right; exact I1 | exact Ei].
Qed.
Lemma no_field fs vs js ws k t : jfields vs = Ok js -> In (k, t) fs -> ~ In k (map fst vs) -> (forall t0, t <> TOption t0) -> ~ fields fs js ws.
Proof.
  intros J I N O Fi. destruct (fields_at fs js ws k t Fi I) as [(j & v & _ & A & _)|(_ & t0 & E)]; [|exact (O t0 E)].
  apply N. rewrite <- (fields_names _ _ J). apply in_map_iff. exists (k, j). split; [reflexivity | exact (assoc_In _ _ _ A)].
Qed.
Lemma bad_field fs vs js ws k v t : jfields vs = Ok js -> In (k, v) vs -> In (k, t) fs -> (forall j w, to_json v = Ok j -> ~ means t j w) -> ~ fields fs js ws.
Proof.
  intros J Iv It Bad Fi. destruct (fields_in vs js k v J Iv) as (j & Ij & E). destruct (fields_at fs js ws k t Fi It) as [(i & w & O & A & M)|(A & _)].
  - rewrite (once_assoc js k j O Ij) in A. injection A as <-. exact (Bad j w E M).
  - exact (assoc_none_in js k j A Ij).
Qed.
Lemma null_means t v : takes_null t = false -> ~ means t JNull v.
Proof.
  intros N M. remember JNull as j eqn:Ej. revert N Ej. induction M; cbn [takes_null]; intros N Ej; try discriminate; auto.
  match goal with H : members _ _ _ |- _ => subst; inversion H end.
Qed.

Theorem too_new_refused v t : too_new v t -> forall j w, to_json v = Ok j -> ~ means t j w.
Proof.
  induction 1 as [v x n vs Vx A|k z k' B|t N|n vs n' fs k t I O Q|n vs n' fs k v t Iv It L IH|v t Sh L IH|v t L IH|n v t L IH|n v t L IH|v vs t I L IH|i v vs t ts I1 I2 L IH|k v kvs tk t I L IH|n x v n' vs t A L IH
    |n x vs n' ws fs k v t A Iv It L IH|n x vs n' ws fs k t A I O Q]; intros j w E M.
  - destruct v; cbn [variant_of] in Vx; try discriminate; injection Vx as ->; cbn [to_json] in E.
    + injection E as <-. inversion M; subst. congruence.
    + apply bind_Ok in E. destruct E as (a & _ & E). injection E as <-. inversion M; subst. congruence.
    + apply bind_Ok in E. destruct E as (a & _ & E). injection E as <-. inversion M; subst. congruence.
    + apply bind_Ok in E. destruct E as (a & _ & E). injection E as <-. inversion M; subst. congruence.
  - injection E as <-. inversion M; subst. contradiction.
  - injection E as <-. exact (null_means t w N M).
  - change (to_json (SStruct n vs)) with (js <- jfields vs ;; Ok (JObj js)) in E. apply bind_Ok in E. destruct E as (js & J & E). injection E as <-.
    inversion M as [| | | | | | | | | | | | | | | | | | |? ? ? ws Mb| |]; subst. inversion Mb as [? ? ? Fi|]; subst. exact (no_field fs vs js ws k t J I O Q Fi).
  - change (to_json (SStruct n vs)) with (js <- jfields vs ;; Ok (JObj js)) in E. apply bind_Ok in E. destruct E as (js & J & E). injection E as <-.
    inversion M as [| | | | | | | | | | | | | | | | | | |? ? ? ws Mb| |]; subst. inversion Mb as [? ? ? Fi|]; subst. exact (bad_field fs vs js ws k v t J Iv It IH Fi).
  - inversion M; subst; [exact (shown_json v Sh E)|]. eapply IH; eassumption.
  - cbn [to_json] in E. eapply IH; eassumption.
  - inversion M; subst. eapply IH; eassumption.
  - cbn [to_json] in E. eapply IH; eassumption.
  - change (to_json (SSeq vs)) with (js <- jlist vs ;; Ok (JArr js)) in E. apply bind_Ok in E. destruct E as (js & J & E). injection E as <-. apply jlist_ok in J.
    inversion M as [| | | | | | | | | | | | | | |? ? ws Ms| | | | | |]; subst. clear M. revert ws Ms. induction J as [|a b vs js Ea J IHJ]; intros ws Ms; [contradiction|].
    inversion Ms as [|? ? ? ? Q1 Q2]; subst. destruct I as [->|I]; [eapply IH; eassumption | exact (IHJ I _ Q2)].
  - change (to_json (STuple vs)) with (js <- jlist vs ;; Ok (JArr js)) in E. apply bind_Ok in E. destruct E as (js & J & E). injection E as <-. apply jlist_ok in J.
    inversion M as [| | | | | | | | | | | | | | | |? ? ws Ms| | | | |]; subst. clear M. revert i ts ws I1 I2 Ms. induction J as [|a b vs js Ea J IHJ]; intros i ts ws I1 I2 Ms; [destruct i; discriminate|].
    inversion Ms as [|? ? ? ? ? ? Q1 Q2]; subst. destruct i as [|i]; cbn [nth_error] in I1, I2; [injection I1 as ->; injection I2 as ->; eapply IH; eassumption | exact (IHJ i _ _ I1 I2 Q2)].
  - change (to_json (SMap kvs)) with (js <- jentries kvs ;; Ok (JObj js)) in E. apply bind_Ok in E. destruct E as (js & J & E). injection E as <-. apply jentries_ok in J.
    inversion M as [| | | | | | | | | | | | | | | | | |? ? ? ws Ms| | |]; subst. clear M. revert ws Ms. induction J as [|a b vs js [_ Ea] J IHJ]; intros ws Ms; [contradiction|].
    inversion Ms as [|? ? ? ? [_ Q1] Q2]; subst. destruct I as [->|I]; [eapply IH; [exact Ea | exact Q1] | exact (IHJ I _ Q2)].
  - cbn [to_json] in E. apply bind_Ok in E. destruct E as (a & Ea & E). injection E as <-. inversion M as [| | | | | | | | | | | | | | | | | | | | |? ? ? ? ? ? Ax Mv]; subst. rewrite A in Ax. injection Ax as <-. inversion Mv; subst. eapply IH; eassumption.
  - change (to_json (SStructVariant n x vs)) with (js <- jfields vs ;; Ok (JObj [(x, JObj js)])) in E. apply bind_Ok in E. destruct E as (js & J & E). injection E as <-.
    inversion M as [| | | | | | | | | | | | | | | | | | | | |? ? ? ? ? ? Ax Mv]; subst. rewrite A in Ax. injection Ax as <-. inversion Mv as [| | |? ? ? ? us Mb]; subst. inversion Mb as [? ? ? Fi|]; subst. exact (bad_field fs vs js us k v t J Iv It IH Fi).
  - change (to_json (SStructVariant n x vs)) with (js <- jfields vs ;; Ok (JObj [(x, JObj js)])) in E. apply bind_Ok in E. destruct E as (js & J & E). injection E as <-.
    inversion M as [| | | | | | | | | | | | | | | | | | | | |? ? ? ? ? ? Ax Mv]; subst. rewrite A in Ax. injection Ax as <-. inversion Mv as [| | |? ? ? ? us Mb]; subst. inversion Mb as [? ? ? Fi|]; subst. exact (no_field fs vs js us k t J I O Q Fi).
Qed.

Theorem text_refused t t' v j : too_new v t' -> wf_ty t' = true -> has_ty t v = true -> json_faithful v -> to_json v = Ok j -> (nesting j < 128)%nat ->
  from_json_str t' (print_json j) = Err Invalid /\ from_json_str t' (print_pretty 0 j) = Err Invalid.
Proof.
  intros L W T F E D. destruct (json_trip t v j T F E) as (_ & N & _).
  pose proof (parse_json_complete j _ [] [] (print_json_text j N) ws_any ws_any D) as P1. pose proof (parse_json_complete j _ [] [] (print_pretty_text j N 0) ws_any ws_any D) as P2.
  rewrite app_nil_r in P1, P2. cbn [app] in P1, P2. unfold from_json_str. rewrite P1, P2. cbn [bind].
  destruct (from_json_refuses t' j) as [(w & Q)|Q]; [|auto]. apply (from_json_exact t' W) in Q. elim (too_new_refused v t' L j w E Q).
Qed.

(** Written to a text and read from it. *)
Theorem text_passes t t' v j : readable_as t t' -> wf_ty t' = true -> has_ty t v = true -> json_faithful v -> to_json v = Ok j -> (nesting j < 128)%nat ->
  exists v', from_json_str t' (print_json j) = Ok v' /\ from_json_str t' (print_pretty 0 j) = Ok v' /\ has_ty t' v' = true /\ kept v v'.
Proof.
  intros R W T F E D. destruct (readable_passes t t' R W v j T F E) as (v' & M & Y & K). exists v'. destruct (json_trip t v j T F E) as (_ & N & _).
  pose proof (parse_json_complete j _ [] [] (print_json_text j N) ws_any ws_any D) as P1. pose proof (parse_json_complete j _ [] [] (print_pretty_text j N 0) ws_any ws_any D) as P2.
  rewrite app_nil_r in P1, P2. cbn [app] in P1, P2. unfold from_json_str. rewrite P1, P2. cbn [bind]. apply (from_json_exact t' W) in M. auto.
Qed.
End Grow.
