(** * Queries and headers as a whole come back: structs, maps, options and newtypes. *)
From Verif Require Import Base Utf8 Decimal DepUrl Serde ScalarSpec FieldSpec SerPath SerQuery SerHeader SerRequest DePath DeQuery DeHeader
  UrlProofs FieldProofs QueryProofs HeaderProofs JsonTrip MapSpec.
Open Scope N_scope.

Section MapTrip.
Context `{floatlib}.

Lemma entry_cell t v : entry_faithful t v ->
  exists x, cell scalar_text v = Some (Some x) /\ str_ok x = true /\ query_read t x = Ok v.
Proof.
  intros F. assert (D : (exists t' v', t = TOption t' /\ v = SSome v' /\ faithful t' v') \/ faithful t v).
  { destruct t; try (right; exact F). destruct v; try (right; exact F). left; eauto. }
  destruct D as [(t' & v' & -> & -> & D)|D].
  - destruct (faithful_cell t' v' D) as (x & _ & E2 & E3 & _ & E5). exists x. cbn. rewrite E5. auto.
  - destruct (faithful_cell t v D) as (x & _ & E2 & E3 & _ & E5). exists x. auto.
Qed.

Lemma entry_there t v : entry_faithful t v -> v <> SNone.
Proof. intros F ->. destruct t; exact F. Qed.

Lemma map_of_app {X} (rk rv : X -> res value) : forall l m l',
  map_of rk rv m (l ++ l') = (m' <- map_of rk rv m l ;; map_of rk rv m' l').
Proof.
  induction l as [|[a b] l IH]; intros m l'; cbn [app map_of]; [reflexivity|].
  destruct (rk a); try reflexivity. destruct (rv b); try reflexivity. cbn [bind]. apply IH.
Qed.

(** Entries written and read back; those without a value are left out.  [f] is what happens to the key in between. *)
Lemma map_pairs_trip {X Y} (leaf : value -> option X) (rk rv : Y -> res value) (P : X * X -> Prop) (f : X * X -> Y * Y) : forall kvs,
  NoDup (map fst kvs) ->
  Forall (fun kv => (exists k, cell leaf (fst kv) = Some (Some k) /\
     ((exists x, cell leaf (snd kv) = Some (Some x) /\ P (k, x) /\ rk (fst (f (k, x))) = Ok (fst kv) /\ rv (snd (f (k, x))) = Ok (snd kv) /\ snd kv <> SNone) \/
      (cell leaf (snd kv) = Some None /\ snd kv = SNone)))) kvs ->
  exists l, map_pairs leaf kvs = Some l /\ Forall P l /\
    forall m, (forall k, In k (map fst kvs) -> ~ In k (map fst m)) -> map_of rk rv m (map f l) = Ok (m ++ present kvs).
Proof.
  induction kvs as [|[k v] kvs IH]; intros N F.
  - exists []. split; [reflexivity|]. split; [constructor|]. intros m _. cbn. rewrite app_nil_r. reflexivity.
  - inversion N as [|? ? Nk N']; subst. pose proof (Forall_inv F) as F1. apply Forall_inv_tail in F. cbn [fst snd] in *.
    destruct (IH N' F) as (l & W & Pl & D). destruct F1 as (tk & Ck & [(x & Cx & Px & Rk & Rv & Nv)|[Cx Nv]]).
    + exists ((tk, x) :: l). cbn [map_pairs map map_of]. rewrite Ck, Cx, W. split; [reflexivity|]. split; [constructor; assumption|].
      intros m Nm. destruct (f (tk, x)) as [a b] eqn:Ef. cbn [fst snd] in Rk, Rv. rewrite Rk, Rv. cbn [bind].
      rewrite map_insert_new by (apply Nm; left; reflexivity). rewrite D.
      * rewrite <- app_assoc. f_equal. f_equal. unfold present. cbn [filter snd]. destruct v; try reflexivity. elim Nv. reflexivity.
      * intros k' I. rewrite map_app. intros J. apply in_app_or in J. destruct J as [J|[J|[]]]; [apply (Nm k'); [right; exact I | exact J]|].
        cbn in J. subst k'. apply Nk, I.
    + subst v. exists l. cbn [map_pairs]. rewrite Ck, Cx, W. split; [reflexivity|]. split; [exact Pl|].
      intros m Nm. rewrite D; [reflexivity|]. intros k' I. apply Nm. right. exact I.
Qed.

(** ** Queries *)
Theorem query_map_trip tk tv kvs : NoDup (map fst kvs) ->
  Forall (fun kv => entry_faithful tk (fst kv) /\ query_faithful tv (snd kv)) kvs ->
  exists l, query_written (SMap kvs) = Some l /\ pairs_ok l = true /\
    exists s', de_query (TMap tk tv) (qde_new l) = Ok (SMap (present kvs), s').
Proof.
  intros N F.
  destruct (map_pairs_trip scalar_text (query_read tk) (query_read tv) (fun p => str_ok (fst p) && str_ok (snd p) = true) (fun p => p) kvs N) as (l & W & P & D).
  { revert F. apply Forall_impl. intros [k v] [Fk Fv]. cbn [fst snd] in *. destruct (entry_cell tk k Fk) as (a & Ca & Sa & Ra).
    exists a. split; [exact Ca|]. destruct (faithful_query_cell tv v Fv) as [(x & C & S & R)|(C & V & _)]; [|right; auto].
    left. exists x. cbn [fst snd]. rewrite Sa, S. repeat split; try assumption. intros ->. cbn in C. discriminate C. }
  exists l. split; [exact W|]. split.
  - apply forallb_forall. rewrite Forall_forall in P. intros [a b] I. apply (P (a, b) I).
  - destruct (de_query_map tk tv l) as [s' E]. exists s'. rewrite E. rewrite map_id in D. rewrite D; [reflexivity|]. intros ? _ [].
Qed.

Lemma all_present kvs : Forall (fun kv => snd kv <> SNone) kvs -> present kvs = kvs.
Proof.
  induction kvs as [|[k v] kvs IH]; intros F; [reflexivity|]. pose proof (Forall_inv F) as V. apply Forall_inv_tail in F.
  unfold present in *. cbn [filter snd] in *. rewrite (IH F). destruct v; try reflexivity. elim V. reflexivity.
Qed.
Lemma present_all kvs : present kvs = kvs <-> Forall (fun kv => snd kv <> SNone) kvs.
Proof.
  split; [|apply all_present]. intros E. rewrite <- E. apply Forall_forall. intros [k v] I. apply filter_In in I. destruct I as [_ I].
  cbn [snd] in *. intros ->. discriminate I.
Qed.

Theorem query_map_same_iff tk tv kvs l : NoDup (map fst kvs) ->
  Forall (fun kv => entry_faithful tk (fst kv) /\ query_faithful tv (snd kv)) kvs -> query_written (SMap kvs) = Some l ->
  ((exists s', de_query (TMap tk tv) (qde_new l) = Ok (SMap kvs, s')) <-> Forall (fun kv => snd kv <> SNone) kvs).
Proof.
  intros N F W. destruct (query_map_trip tk tv kvs N F) as (l' & W' & _ & s' & D). rewrite W in W'. injection W' as <-. rewrite D, <- present_all. split.
  - intros [s1 E]. injection E as E _. exact E.
  - intros ->. eauto.
Qed.

Lemma entry_query t v : entry_faithful t v -> query_faithful t v.
Proof. destruct t; auto. destruct v; cbn; auto. Qed.

Theorem query_whole_trip t v : query_whole t v ->
  exists l, query_written v = Some l /\ pairs_ok l = true /\ exists s', de_query t (qde_new l) = Ok (v, s').
Proof.
  induction 1 as [n fs vs N O F|tk tv kvs N F|t v Q (l & W & P & s' & D)|n t v Q (l & W & P & s' & D)].
  - apply query_trip; assumption.
  - destruct (query_map_trip tk tv kvs N) as (l & W & P & s' & D).
    { revert F. apply Forall_impl. intros kv [A B]. split; [exact A | apply entry_query, B]. }
    exists l. split; [exact W|]. split; [exact P|]. exists s'. rewrite D, all_present; [reflexivity|].
    revert F. apply Forall_impl. intros kv [_ B]. eapply entry_there. exact B.
  - exists l. split; [exact W|]. split; [exact P|]. exists s'. cbn [de_query]. rewrite D. reflexivity.
  - exists l. split; [exact W|]. split; [exact P|]. exists s'. cbn [de_query]. rewrite D. reflexivity.
Qed.

(** ** Headers *)
Theorem header_whole_trip t v : header_whole t v ->
  exists l, header_written v = Some l /\ names_ok l = true /\
    forall len, exists s', de_header t (hde_new (l ++ [content_length len])) = Ok (v, s').
Proof.
  induction 1 as [n fs vs N O F|t v Q (l & W & P & D)|n t v Q (l & W & P & D)].
  - apply header_trip; assumption.
  - exists l. split; [exact W|]. split; [exact P|]. intros len. destruct (D len) as [s' E]. exists s'. cbn [de_header]. rewrite E. reflexivity.
  - exists l. split; [exact W|]. split; [exact P|]. intros len. destruct (D len) as [s' E]. exists s'. cbn [de_header]. rewrite E. reflexivity.
Qed.

Lemma header_entry_cell t v : header_entry_faithful t v ->
  exists x, cell header_leaf v = Some (Some x) /\ header_read t x = Ok v.
Proof.
  intros F. assert (D : (exists t' v', t = TOption t' /\ v = SSome v' /\ header_scalar_faithful t' v') \/ header_scalar_faithful t v).
  { destruct t; try (right; exact F). destruct v; try (right; exact F). left; eauto. }
  destruct D as [(t' & v' & -> & -> & D)|D].
  - destruct (header_scalar_cell t' v' D) as (x & E2 & E5). exists x. cbn. rewrite E5. auto.
  - apply (header_scalar_cell t v D).
Qed.

(** What is read where a map of lower-case names was written: its present entries and one for Content-Length. *)
Theorem header_map_trip tk tv kvs : NoDup (map fst kvs) ->
  Forall (fun kv => header_entry_faithful tk (fst kv) /\ header_faithful tv (snd kv) /\
    exists k, cell header_leaf (fst kv) = Some (Some k) /\ lower_name k) kvs ->
  exists l, header_written (SMap kvs) = Some l /\ names_ok l = true /\
    forall len kc, header_read tk (u "content-length") = Ok kc -> ~ In kc (map fst kvs) ->
    (forall vc, header_read tv (show_N len) = Ok vc ->
      exists s', de_header (TMap tk tv) (hde_new (l ++ [content_length len])) = Ok (SMap (present kvs ++ [(kc, vc)]), s')) /\
    (forall e, header_read tv (show_N len) = Err e -> de_header (TMap tk tv) (hde_new (l ++ [content_length len])) = Err e).
Proof.
  intros N F.
  destruct (map_pairs_trip header_leaf (header_read tk) (header_read tv) (fun p => lower_name (fst p))
    (fun h => (utf8_encode (lowercase (fst h)), snd h)) kvs N) as (l & W & P & D).
  { revert F. apply Forall_impl. intros [k v] (Fk & Fv & a & Ca & La). cbn [fst snd] in *.
    destruct (header_entry_cell tk k Fk) as (a' & Ca' & Ra). rewrite Ca in Ca'. injection Ca' as <-.
    exists a. split; [exact Ca|]. destruct (faithful_header_cell tv v Fv) as [(x & C & R)|(C & V & _)]; [|right; auto].
    left. exists x. cbn [fst snd]. destruct La as [A L]. rewrite L, (utf8_encode_ascii _ A). repeat split; try assumption. intros ->. cbn in C. discriminate C. }
  exists l. split; [exact W|]. split.
  - apply forallb_forall. rewrite Forall_forall in P. intros [a b] I. apply ascii_str_ok, (P (a, b) I).
  - intros len kc Rk Nk. destruct (de_header_map tk tv (l ++ [content_length len])) as [s' E]. rewrite E, map_app, map_of_app, D by (intros ? _ []).
    cbn [bind app map content_length fst snd]. change (utf8_encode (lowercase (u "Content-Length"))) with (u "content-length").
    cbn [map_of]. rewrite Rk. cbn [bind]. split.
    + intros vc Rv. rewrite Rv. cbn [bind]. exists s'. rewrite map_insert_new; [reflexivity|].
      intros I. apply Nk. apply in_map_iff in I. destruct I as (kv & <- & I). apply filter_In in I. apply in_map, I.
    + intros e Rv. rewrite Rv. reflexivity.
Qed.

(** So a map without an entry for Content-Length is never read as it was written. *)
Theorem header_map_never tk tv kvs l len s' : header_written (SMap kvs) = Some l ->
  (forall kc, header_read tk (u "content-length") = Ok kc -> ~ In kc (map fst kvs)) ->
  de_header (TMap tk tv) (hde_new (l ++ [content_length len])) <> Ok (SMap kvs, s').
Proof.
  intros _ Nk E. destruct (de_header_map tk tv (l ++ [content_length len])) as [s1 E1]. rewrite E1, map_app, map_of_app in E.
  destruct (map_of _ _ [] _) as [m| | |]; cbn [bind] in E; try discriminate E.
  cbn [map content_length fst snd] in E. change (utf8_encode (lowercase (u "Content-Length"))) with (u "content-length") in E.
  cbn [map_of] in E. destruct (header_read tk (u "content-length")) as [kc| | |] eqn:Rk; cbn [bind] in E; try discriminate E.
  destruct (header_read tv (show_N len)) as [vc| | |]; cbn [bind] in E; try discriminate E. injection E as E _.
  apply (Nk kc eq_refl). rewrite <- E. clear. induction m as [|[k v] m IH]; cbn [map_insert map]; [left; reflexivity|].
  destruct (value_eqb kc k) eqn:Q; cbn [map fst]; [left; symmetry; apply value_eqb_eq, Q | right; exact IH].
Qed.
End MapTrip.
