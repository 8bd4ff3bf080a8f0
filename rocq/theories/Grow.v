(** * What newer versions of a type make of old messages (C82). *)
From Coq Require Import Sorting.Permutation.
From Verif Require Import Base Utf8 Decimal DepUrl Serde Status Procedure SerHeader DePath DeQuery DeHeader DeRequest DeResponse DepHttp.
From Verif Require Import ScalarSpec PathSpec FieldSpec JsonTypeSpec StatusSpec StatusProofs DecodeSpec TypeSpec FieldProofs HeaderProofs QueryProofs RequestTrip DecodeProofs DecodeExact GrowSpec.
Open Scope N_scope.

Section Grow.
Context `{floatlib}.

(** ** One text *)
Lemma newer_int k k' s z : newer (TInt k) (TInt k') -> parse_int k s = Some z -> parse_int k' s = Some z.
Proof.
  intros N P. inversion N as [|? ? L U| | |]; subst; [exact P|]. apply parse_int_spec in P. apply parse_int_spec. destruct P as [B T]. split; [lia|].
  destruct T as [T|[T|(r & n & E & D & Z & S)]]; auto. right; right. exists r, n. repeat split; auto. lia.
Qed.
Section Reading.
Context {X : Type} (read : ty -> X -> res value).
Hypothesis read_option : forall t x, read (TOption t) x = res_map SSome (read t x).
Hypothesis read_newtype : forall n t x, read (TNewtype n t) x = res_map (SNewtypeStruct n) (read t x).
Hypothesis read_struct : forall n fs x v, read (TStruct n fs) x <> Ok v.
Hypothesis read_int : forall k k' x v, newer (TInt k) (TInt k') -> read (TInt k) x = Ok v -> exists z, v = SInt k z /\ read (TInt k') x = Ok (SInt k' z).
Lemma res_map_ok {A B} (f : A -> B) r v : res_map f r = Ok v -> exists w, r = Ok w /\ v = f w.
Proof. destruct r; cbn; intros E; inversion E; eauto. Qed.
Lemma read_newer t t' : newer t t' -> forall x v, read t x = Ok v -> exists v', read t' x = Ok v' /\ keeps v v'.
Proof.
  induction 1 as [t|k k' L U|t t' N IH|t t' N IH|n n' t t' N IH]; intros x v R.
  - exists v. split; [exact R | constructor].
  - destruct (read_int k k' x v (NwInt _ _ L U) R) as (z & -> & R'). exists (SInt k' z). split; [exact R' | constructor].
  - destruct (IH x v R) as (v' & R' & K). exists (SSome v'). rewrite read_option, R'. split; [reflexivity | constructor; exact K].
  - rewrite read_option in R. apply res_map_ok in R. destruct R as (w & R & ->). destruct (IH x w R) as (v' & R' & K). exists (SSome v'). rewrite read_option, R'.
    split; [reflexivity | constructor; exact K].
  - rewrite read_newtype in R. apply res_map_ok in R. destruct R as (w & R & ->). destruct (IH x w R) as (v' & R' & K). exists (SNewtypeStruct n' v'). rewrite read_newtype, R'.
    split; [reflexivity | constructor; exact K].
Qed.

(** ** Structs *)
Lemma newer_option t t' t0 : newer t t' -> t = TOption t0 -> exists t0', t' = TOption t0'.
Proof. intros N E. inversion N; subst; eauto; discriminate. Qed.
(** One field of [filled]; what src/deserializers/url_query.rs:305-325 assigns to it. *)
Definition reads_field (asg : list (ustr * X)) (f : ustr * ty) (v : ustr * value) : Prop :=
  fst v = fst f /\
  ((exists x, In (fst f, x) asg /\ read (snd f) x = Ok (snd v)) \/ ((forall x, ~ In (fst f, x) asg) /\ (exists t, snd f = TOption t) /\ snd v = SNone)).
Lemma kept_fields asg fs kept : Forall2 (fun f f' => fst f' = fst f /\ newer (snd f) (snd f')) fs kept -> forall vs, Forall2 (reads_field asg) fs vs ->
  exists ws, Forall2 (reads_field asg) kept ws /\ Forall2 (fun v w => fst w = fst v /\ keeps (snd v) (snd w)) vs ws.
Proof.
  induction 1 as [|f f' fs kept [E N] Fi IH]; intros vs R; inversion R as [|? v ? vs' [Ev C] R']; subst; [exists []; split; constructor|].
  destruct (IH vs' R') as (ws & A & B). destruct f as [k t], f' as [k' t'], v as [k0 v]. cbn [fst snd] in *. subst.
  destruct C as [(x & I & Rd)|(Ab & (t0 & ->) & ->)].
  - destruct (read_newer t t' N x v Rd) as (v' & Rd' & K). exists ((k, v') :: ws). split; constructor; auto. split; [reflexivity|]. left. exists x. auto.
  - destruct (newer_option _ _ t0 N eq_refl) as [t0' ->]. exists ((k, SNone) :: ws). split; constructor; auto; [|split; [reflexivity | constructor]].
    split; [reflexivity|]. right. split; [exact Ab|]. split; [exists t0'; reflexivity | reflexivity].
Qed.
Lemma added_fields asg (added : list (ustr * ty)) : Forall (fun f => exists t, snd f = TOption t) added -> (forall k x, In (k, x) asg -> ~ In k (map fst added)) ->
  Forall2 (reads_field asg) added (map (fun f => (fst f, SNone)) added).
Proof.
  intros O N. assert (forall f, In f added -> forall x, ~ In (fst f, x) asg) as N'. { intros f I x J. apply (N _ _ J). apply in_map. exact I. } clear N.
  induction O as [|f added Of O IH]; constructor.
  - split; [reflexivity|]. right. split; [apply N'; left; reflexivity|]. split; [exact Of | reflexivity].
  - apply IH. intros f0 I. apply N'. right. exact I.
Qed.
Lemma names_kept fs kept : Forall2 (fun f f' : ustr * ty => fst f' = fst f /\ newer (snd f) (snd f')) fs kept -> map fst kept = map fst fs.
Proof. induction 1 as [|f f' fs kept [E _] Fi IH]; cbn; congruence. Qed.
Lemma reads_names asg fs vs : Forall2 (reads_field asg) fs vs -> map fst vs = map fst fs.
Proof. induction 1 as [|f v fs vs [E _] Fi IH]; cbn; congruence. Qed.
Lemma filled_newer asg fs fs' kept added vs :
  Forall2 (fun f f' => fst f' = fst f /\ newer (snd f) (snd f')) fs kept -> Forall (fun f => exists t, snd f = TOption t) added ->
  Permutation (kept ++ added) fs' -> NoDup (map fst fs') -> (forall k x, In (k, x) asg -> ~ In k (map fst added)) ->
  filled read fs asg vs -> exists vs', filled read fs' asg vs' /\ keeps_fields vs vs'.
Proof.
  intros K O P D N [Da Fi]. change (Forall2 (reads_field asg) fs vs) in Fi. destruct (kept_fields asg fs kept K vs Fi) as (ws & Fk & Kp).
  pose proof (Forall2_app Fk (added_fields asg added O N)) as Fa. destruct (Permutation_Forall2 P Fa) as (vs' & Pv & Fv). exists vs'. split; [split; assumption|].
  constructor.
  - intros k v I. assert (J : exists v', In (k, v') ws /\ keeps v v').
    { clear -Kp I. induction Kp as [|a b vs ws [E Kb] Kp IH]; [contradiction|]. destruct I as [->|I]; [destruct b as [k' v']; cbn in E, Kb; subst k'; exists v'; split; [left; reflexivity | exact Kb]|].
      destruct (IH I) as (v' & J & Kv). exists v'. split; [right; exact J | exact Kv]. }
    destruct J as (v' & J & Kv). exists v'. split; [|exact Kv]. eapply Permutation_in; [exact Pv|]. apply in_or_app. left. exact J.
  - intros k v' I. apply Permutation_in with (l' := ws ++ map (fun f => (fst f, SNone)) added) in I; [|symmetry; exact Pv]. apply in_app_or in I. destruct I as [I|I].
    + left. apply in_map with (f := fst) in I. rewrite (reads_names _ _ _ Fk), (names_kept _ _ K), <- (reads_names _ _ _ Fi) in I. exact I.
    + right. apply in_map_iff in I. destruct I as (f & [= _ <-] & _). reflexivity.
  - rewrite (reads_names _ _ _ Fv). exact D.
Qed.

(** ** Parts *)
Lemma pairs_mean_newer (asg : list (ustr * ty) -> list (ustr * X)) l old new t t' : newer_part old new t t' ->
  (forall fs kept added fs', map fst fs = old -> map fst kept = old -> map fst added = new -> Permutation (kept ++ added) fs' -> NoDup (map fst fs') ->
     asg fs' = asg fs /\ forall k x, In (k, x) (asg fs) -> ~ In k new) ->
  forall v, pairs_mean read (fun fs => filled read fs (asg fs)) l t v -> exists v', pairs_mean read (fun fs => filled read fs (asg fs)) l t' v' /\ keeps v v'.
Proof.
  intros N A. induction N as [t|n n' fs fs' kept added Eo En K O P D|t t' N IH|t t' N IH|n n' t t' N IH]; intros v M.
  - exists v. split; [exact M | constructor].
  - inversion M as [? k x r ? E R| | | |? ? vs Fi]; subst; [elim (read_struct _ _ _ _ R)|].
    destruct (A fs kept added fs') as [E Nw]; auto; [apply names_kept; exact K|].
    destruct (filled_newer (asg fs) fs fs' kept added vs K O P D Nw Fi) as (vs' & Fi' & Kf). exists (SStruct n' vs'). split; constructor; [rewrite E; exact Fi' | exact Kf].
  - destruct (IH v M) as (v' & M' & Kv). exists (SSome v'). split; constructor; assumption.
  - assert (Q : exists w, v = SSome w /\ pairs_mean read (fun fs => filled read fs (asg fs)) l t w).
    { inversion M as [? k x r ? E R| | | |]; subst; [|eauto]. rewrite read_option in R. apply res_map_ok in R. destruct R as (w & R & ->). exists w. split; [reflexivity|]. eapply PaFirst; eauto. }
    destruct Q as (w & -> & Mw). destruct (IH w Mw) as (v' & M' & Kv). exists (SSome v'). split; constructor; assumption.
  - assert (Q : exists w, v = SNewtypeStruct n w /\ pairs_mean read (fun fs => filled read fs (asg fs)) l t w).
    { inversion M as [? k x r ? E R| | | |]; subst; [|eauto]. rewrite read_newtype in R. apply res_map_ok in R. destruct R as (w & R & ->). exists w. split; [reflexivity|]. eapply PaFirst; eauto. }
    destruct Q as (w & -> & Mw). destruct (IH w Mw) as (v' & M' & Kv). exists (SNewtypeStruct n' v'). split; constructor; assumption.
Qed.
End Reading.

Lemma query_int k k' x v : newer (TInt k) (TInt k') -> query_read (TInt k) x = Ok v -> exists z, v = SInt k z /\ query_read (TInt k') x = Ok (SInt k' z).
Proof.
  intros N. cbn [query_read read_scalar]. destruct (parse_int k x) as [z|] eqn:P; cbn; intros E; [|discriminate]. injection E as <-. exists z. split; [reflexivity|].
  rewrite (newer_int k k' x z N P). reflexivity.
Qed.
Lemma header_int k k' x v : newer (TInt k) (TInt k') -> header_read (TInt k) x = Ok v -> exists z, v = SInt k z /\ header_read (TInt k') x = Ok (SInt k' z).
Proof.
  intros N. cbn [header_read read_scalar]. destruct (utf8_decode x) as [s|]; [|discriminate]. destruct (parse_int k s) as [z|] eqn:P; cbn; intros E; [|discriminate]. injection E as <-.
  exists z. split; [reflexivity|]. rewrite (newer_int k k' s z N P). reflexivity.
Qed.
Lemma filter_names {X} (ns ns' : list ustr) (l : list (ustr * X)) : (forall p, In p l -> (In (fst p) ns <-> In (fst p) ns')) ->
  filter (fun h => smem (fst h) ns) l = filter (fun h => smem (fst h) ns') l.
Proof.
  intros E. apply filter_ext_in. intros p I. destruct (smem (fst p) ns) eqn:A, (smem (fst p) ns') eqn:B; try reflexivity; exfalso.
  - apply smem_In in A. apply (E p I) in A. apply smem_In in A. congruence.
  - apply smem_In in B. apply (E p I) in B. apply smem_In in B. congruence.
Qed.
Lemma perm_names (kept added fs' : list (ustr * ty)) k : Permutation (kept ++ added) fs' -> (In k (map fst fs') <-> In k (map fst kept) \/ In k (map fst added)).
Proof.
  intros P. rewrite <- in_app_iff, <- map_app. apply (Permutation_map fst) in P. split; intros I; [apply (Permutation_in k (Permutation_sym P)) | apply (Permutation_in k P)]; exact I.
Qed.
Theorem header_newer hs old new t t' v : newer_part old new t t' -> (forall h, In h hs -> ~ In (lowercase (fst h)) new) -> header_means hs t v ->
  exists v', header_means hs t' v' /\ keeps v v'.
Proof.
  intros N Nw. unfold header_means.
  apply (pairs_mean_newer header_read (fun _ _ => eq_refl) (fun _ _ _ => eq_refl) (fun n fs x v => ltac:(discriminate)) header_int (fun fs => relevant (map fst fs) hs) _ old new t t' N).
  intros fs kept added fs' E1 E2 E3 P D. split.
  - unfold relevant. apply filter_names. intros p I. rewrite (perm_names _ _ _ (fst p) P), E1, E2, E3. apply in_map_iff in I. destruct I as (h & <- & I). cbn [fst]. specialize (Nw h I). tauto.
  - intros k x I. unfold relevant in I. apply filter_In in I. destruct I as [I _]. apply in_map_iff in I. destruct I as (h & [= <- _] & I). apply Nw, I.
Qed.
Lemma walk_all ns l : (forall p, In p l -> In (fst p) ns) -> walk ns (flat l) = l.
Proof.
  induction l as [|[k v] l IH]; intros K; [reflexivity|]. cbn [flat walk]. rewrite (proj2 (smem_In _ _)) by (apply (K (k, v)); left; reflexivity).
  f_equal. apply IH. intros p I. apply K. right. exact I.
Qed.
Theorem query_newer l old new t t' v : newer_part old new t t' -> (forall p, In p l -> In (fst p) old) -> query_means l t v -> exists v', query_means l t' v' /\ keeps v v'.
Proof.
  intros N Kn. unfold query_means.
  apply (pairs_mean_newer query_read (fun _ _ => eq_refl) (fun _ _ _ => eq_refl) (fun n fs x v => ltac:(discriminate)) query_int (fun fs => walk (map fst fs) (flat l)) _ old new t t' N).
  intros fs kept added fs' E1 E2 E3 P D. rewrite E1, (walk_all old l Kn). split.
  - apply walk_all. intros p I. apply (perm_names _ _ _ (fst p) P). left. rewrite E2. apply Kn, I.
  - intros k x I J. apply Kn in I. cbn [fst] in I. rewrite <- E2 in I. rewrite <- E3 in J. apply (Permutation_NoDup (Permutation_sym (Permutation_map fst P))) in D. rewrite map_app in D.
    clear -D I J. induction (map fst kept) as [|a ks IH]; [contradiction|]. cbn in D. inversion D as [|? ? Na D']; subst. destruct I as [->|I]; [apply Na, in_or_app; auto | apply IH; assumption].
Qed.

(** ** Messages *)
Lemma same_names_keep (vs vs' : list (ustr * value)) : Forall2 (fun v w => fst w = fst v /\ keeps (snd v) (snd w)) vs vs' -> NoDup (map fst vs') -> keeps_fields vs vs'.
Proof.
  intros Kp D. constructor; [| |exact D].
  - intros k v I. clear D. induction Kp as [|a b vs ws [E Kb] Kp IH]; [contradiction|]. destruct I as [->|I]; [destruct b as [k' v']; cbn in E, Kb; subst k'; exists v'; split; [left; reflexivity | exact Kb]|].
    destruct (IH I) as (v' & J & Kv). exists v'. split; [right; exact J | exact Kv].
  - intros k v' I. left. apply in_map with (f := fst) in I. cbn [fst] in I. replace (map fst vs) with (map fst vs'); [exact I|]. clear -Kp. induction Kp as [|a b vs ws [E _] Kp IH]; cbn; congruence.
Qed.
Lemma fields_newer (part : ustr -> option (ty -> value -> Prop)) (R : ustr * ty -> ustr * ty -> Prop) fs fs' vs :
  (forall f f', R f f' -> fst f' = fst f) ->
  (forall f f' v, R f f' -> field_means part f v -> exists v', field_means part f' v' /\ keeps (snd v) (snd v')) ->
  Forall2 R fs fs' -> NoDup (map fst fs') -> Forall2 (field_means part) fs vs -> exists vs', Forall2 (field_means part) fs' vs' /\ keeps_fields vs vs'.
Proof.
  intros Rn Rm Fi D M. assert (Q : exists vs', Forall2 (field_means part) fs' vs' /\ Forall2 (fun v w => fst w = fst v /\ keeps (snd v) (snd w)) vs vs').
  { clear D. revert vs M. induction Fi as [|f f' fs fs' Rf Fi IH]; intros vs M; inversion M as [|? v ? vs0 Mf M0]; subst; [exists []; split; constructor|].
    destruct (IH vs0 M0) as (ws & A & B). destruct (Rm f f' v Rf Mf) as (w & Mw & K). exists (w :: ws). split; constructor; auto. split; [|exact K].
    destruct Mf as [E _], Mw as [E' _]. rewrite E, E'. apply Rn, Rf. }
  destruct Q as (vs' & A & B). exists vs'. split; [exact A|]. apply same_names_keep; [exact B|]. replace (map fst vs') with (map fst fs'); [exact D|].
  clear -A. induction A as [|f v fs vs [E _] A IH]; cbn; congruence.
Qed.
Lemma names_same {A B} (R : ustr * A -> ustr * B -> Prop) fs fs' : (forall f f', R f f' -> fst f' = fst f) -> Forall2 R fs fs' -> map fst fs' = map fst fs.
Proof. intros Rn. induction 1 as [|f f' fs fs' Rf Fi IH]; cbn; [reflexivity|]. f_equal; [apply Rn, Rf | exact IH]. Qed.
Lemma wf_names n fs : wf_ty (TStruct n fs) = true -> NoDup (map fst fs).
Proof. cbn. intros W. apply andb_prop in W. apply nodup_names_NoDup, W. Qed.

Theorem request_newer ep x hs old newq newh t t' : newer_request old newq newh t t' -> wf_ty t' = true ->
  (forall p, In p (query_pairs x) -> In (fst p) old) -> (forall h, In h hs -> ~ In (lowercase (fst h)) newh) ->
  forall v, request_means ep x hs t v -> exists v', request_means ep x hs t' v' /\ keeps v v'.
Proof.
  intros N W Kq Kh. induction N as [n n' fs fs' Fi|n n' t t' N IH]; intros v M; inversion M as [? ? vs Np Nh Fm| |]; subst.
  - destruct (fields_newer (request_part ep x hs) (newer_request_field old newq newh) fs fs' vs) as (vs' & Fm' & K); [intros f f' R; apply R | | exact Fi | apply (wf_names n'), W | exact Fm |].
    + intros [k t] [k' t'] [k0 v] [E C] [Ev Mf]. cbn [fst snd] in *. subst k' k0. destruct C as [->|[[-> C]|[-> (oldh & C)]]].
      * exists (k, v). split; [split; [reflexivity | exact Mf] | constructor].
      * destruct (query_newer (query_pairs x) old newq t t' v C Kq Mf) as (v' & Mq & K). exists (u "query", v'). split; [split; [reflexivity | exact Mq] | exact K].
      * destruct (header_newer hs oldh newh t t' v C Kh Mf) as (v' & Mq & K). exists (u "header", v'). split; [split; [reflexivity | exact Mq] | exact K].
    + exists (SStruct n' vs'). split; constructor; auto. intros I. apply Nh. rewrite <- (names_same (newer_request_field old newq newh) fs fs' (fun f f' R => proj1 R) Fi). exact I.
  - match goal with A : request_means _ _ _ t _ |- _ => destruct (IH W _ A) as (v' & Mv & K) end. exists (SNewtypeStruct n' v'). split; constructor; assumption.
Qed.
Lemma response_field_newer code hs i new f f' v : (forall h, In h hs -> ~ In (lowercase (fst h)) new) -> newer_field new f f' ->
  field_means (response_part code hs i) f v -> exists v', field_means (response_part code hs i) f' v' /\ keeps (snd v) (snd v').
Proof.
  intros Kh [E C] [Ev Mf]. destruct f as [k t], f' as [k' t'], v as [k0 v]. cbn [fst snd] in *. subst k' k0. destruct C as [->|[[-> (z & z' & -> & -> & N)]|[-> (oldh & C)]]].
  - exists (k, v). split; [split; [reflexivity | exact Mf] | constructor].
  - unfold field_means, response_part in *. cbn [fst snd] in *. destruct i; cbn in *.
    + destruct Mf as [[t0 E] _]. discriminate E.
    + inversion Mf as [? B| |]; subst. exists (u "status", SInt z' (Z.of_N code)). split; [split; [reflexivity|] | constructor]. constructor.
      inversion N; subst; lia.
  - unfold field_means, response_part in *. cbn [fst snd] in *. replace (negb i && ustr_eqb (u "header") (u "status")) with false in * by (destruct i; reflexivity).
    cbn in Mf. destruct (header_newer hs oldh new t t' v C Kh Mf) as (v' & Mq & K). exists (u "header", v'). split; [split; [reflexivity | exact Mq] | exact K].
Qed.
Lemma response_fields_newer code hs i new fs fs' vs : (forall h, In h hs -> ~ In (lowercase (fst h)) new) -> Forall2 (newer_field new) fs fs' -> NoDup (map fst fs') ->
  Forall2 (field_means (response_part code hs i)) fs vs -> exists vs', Forall2 (field_means (response_part code hs i)) fs' vs' /\ keeps_fields vs vs'.
Proof.
  intros Kh Fi D. apply (fields_newer _ (newer_field new) fs fs' vs (fun f f' R => proj1 R)); auto. intros f f' v R M. eapply response_field_newer; eassumption.
Qed.
Lemma wf_variant n vs x t : wf_ty (TEnum n vs) = true -> assoc x vs = Some t -> wf_vty t = true.
Proof. cbn. intros W A. rewrite forallb_forall in W. apply assoc_In in A. apply (W _ A). Qed.
Lemma wf_variant_names fs : wf_vty (VStruct fs) = true -> NoDup (map fst fs).
Proof. cbn. intros W. apply andb_prop in W. apply nodup_names_NoDup, W. Qed.
Theorem response_newer code hs named new : (forall h, In h hs -> ~ In (lowercase (fst h)) new) ->
  forall t t', newer_response new t t' -> wf_ty t' = true ->
  forall i v, response_means code hs named i t v -> exists v', response_means code hs named i t' v' /\ keeps v v'.
Proof.
  intros Kh. fix IH 3. intros t t' N W i v M. destruct N as [n n' fs fs' Fi|n n' t t' N|n n' vs vs' Nv].
  - inversion M as [? ? ? ws Nh Fm| | | | |]; subst. destruct (response_fields_newer code hs i new fs fs' ws Kh Fi (wf_names n' fs' W) Fm) as (ws' & Fm' & K).
    exists (SStruct n' ws'). split; constructor; auto. intros I. apply Nh. rewrite <- (names_same (newer_field new) fs fs' (fun f f' R => proj1 R) Fi). exact I.
  - inversion M as [|? ? ? w Mw| | | |]; subst. destruct (IH t t' N W i w Mw) as (v' & Mv & K). exists (SNewtypeStruct n' v'). split; constructor; assumption.
  - inversion M as [| | |? ? ? x Nm A|? ? ? x t w Nm A Mw|? ? ? x fs ws Nm A Nh Fm]; subst; destruct (Nv x _ A) as (t' & A' & V); pose proof (wf_variant n' vs' x t' W A') as Wv.
    + remember VUnit as y eqn:Ey. destruct V; try discriminate Ey. exists (SUnitVariant n' x). split; [constructor; assumption | constructor].
    + remember (VNewtype t) as y eqn:Ey. destruct V as [|t0 t1 N1|]; try discriminate Ey. injection Ey as ->. destruct (IH t t1 N1 Wv true w Mw) as (w' & Mw' & K).
      exists (SNewtypeVariant n' x w'). split; [econstructor; eassumption | constructor; exact K].
    + remember (VStruct fs) as y eqn:Ey. destruct V as [| |fs0 fs' Fi]; try discriminate Ey. injection Ey as ->.
      destruct (response_fields_newer code hs true new fs fs' ws Kh Fi (wf_variant_names fs' Wv) Fm) as (ws' & Fm' & K).
      exists (SStructVariant n' x ws'). split; [|constructor; exact K]. econstructor; try eassumption. intros I. apply Nh. rewrite <- (names_same (newer_field new) fs fs' (fun f f' R => proj1 R) Fi). exact I.
Qed.

(** ** Old versions and new messages *)
Lemma walk_after ns l more : (forall p, In p l -> In (fst p) ns) -> walk ns (flat (l ++ more)) = l ++ walk ns (flat more).
Proof.
  induction l as [|[k v] l IH]; intros K; [reflexivity|]. cbn [app flat walk]. rewrite (proj2 (smem_In _ _)) by (apply (K (k, v)); left; reflexivity).
  f_equal. apply IH. intros p I. apply K. right. exact I.
Qed.
Lemma smem_false k ns : smem k ns = false <-> ~ In k ns.
Proof. rewrite <- smem_In. destruct (smem k ns); split; congruence. Qed.
Lemma walk_nothing ns more : (forall p, In p more -> ~ In (fst p) ns) ->
  (walk ns (flat more) = [] <-> forall a k x k2 x2 b, more = a ++ (k, x) :: (k2, x2) :: b -> ~ In x ns).
Proof.
  induction more as [|[k x] more IH]; intros U.
  - split; [|reflexivity]. intros _ a ? ? ? ? ? E. destruct a; discriminate.
  - cbn [flat walk]. rewrite (proj2 (smem_false k ns)) by (apply (U (k, x)); left; reflexivity). specialize (IH (fun p I => U p (or_intror I))).
    destruct more as [|[k2 x2] more].
    + cbn. split; [|reflexivity]. intros _ a ? ? ? ? ? E. destruct a as [|? [|? ?]]; discriminate.
    + cbn [flat] in *. destruct (smem x ns) eqn:Ex.
      * split; [discriminate|]. intros A. elim (A [] k x k2 x2 more eq_refl). apply smem_In, Ex.
      * rewrite IH. split; intros A.
        -- intros a k0 x0 k1 x1 b E. destruct a as [|q a]; [injection E as <- <- <- <- <-; apply smem_false, Ex|]. injection E as _ E. apply (A a k0 x0 k1 x1 b E).
        -- intros a k0 x0 k1 x1 b E. apply (A ((k, x) :: a) k0 x0 k1 x1 b). cbn. rewrite E. reflexivity.
Qed.
Lemma query_never_none t x : query_read t x <> Ok SNone.
Proof.
  destruct t; cbn [query_read]; try discriminate; try (destruct (read_scalar _ x) as [w|] eqn:R; cbn; [|discriminate]; intros [= ->]; cbn in R).
  - destruct (ustr_eqb x _); [discriminate|]. destruct (ustr_eqb x _); discriminate.
  - destruct (parse_int k x); discriminate.
  - destruct (fparse32 x); discriminate.
  - destruct (fparse64 x); discriminate.
  - destruct (query_read t x); cbn; discriminate.
  - destruct (ustr_eqb x []); discriminate.
  - destruct (ustr_eqb x []); discriminate.
  - destruct (query_read t x); cbn; discriminate.
Qed.
Lemma filled_more fs l more vs : NoDup (map fst fs) -> filled query_read fs l vs -> (forall p, In p more -> In (fst p) (map fst fs)) ->
  filled query_read fs (l ++ more) vs -> more = [].
Proof.
  intros D [Dl Fl] Kn [Dm Fm]. destruct more as [|[k x] more]; [reflexivity|]. exfalso. specialize (Kn (k, x) (or_introl eq_refl)). cbn [fst] in Kn.
  apply in_map_iff in Kn. destruct Kn as ((k' & t) & E & I). cbn in E. subst k'.
  assert (Nl : ~ In k (map fst l)).
  { intros J. rewrite map_app in Dm. cbn in Dm. apply NoDup_remove_2 in Dm. apply Dm, in_or_app. left. exact J. }
  clear D Dl Dm. revert vs Fl Fm. induction fs as [|f fs IH]; intros vs Fl Fm; [contradiction|]. inversion Fl as [|? v ? vs' [E1 C1] Fl']; subst. inversion Fm as [|? ? ? ? [E2 C2] Fm']; subst.
  destruct I as [->|I]; [|exact (IH I vs' Fl' Fm')]. cbn [fst snd] in *.
  destruct C1 as [(y & J & _)|(_ & _ & Vn)]; [apply (in_map fst) in J; exact (Nl J)|].
  destruct C2 as [(y & J & R)|(J & _)]; [rewrite Vn in R; exact (query_never_none _ _ R)|]. apply (J x), in_or_app. right. left. reflexivity.
Qed.
Theorem added_parameters n fs l more vs : NoDup (map fst fs) -> (forall p, In p l -> In (fst p) (map fst fs)) -> (forall p, In p more -> ~ In (fst p) (map fst fs)) ->
  (exists s, de_query (TStruct n fs) (qde_new l) = Ok (SStruct n vs, s)) ->
  ((exists s, de_query (TStruct n fs) (qde_new (l ++ more)) = Ok (SStruct n vs, s)) <-> forall a k x k2 x2 b, more = a ++ (k, x) :: (k2, x2) :: b -> ~ In x (map fst fs)).
Proof.
  intros D K U R. rewrite <- (walk_nothing (map fst fs) more U). apply (de_query_struct n fs l vs D) in R. rewrite (walk_all _ _ K) in R.
  rewrite (de_query_struct n fs (l ++ more) vs D), (walk_after _ _ _ K). split.
  - intros M. apply (filled_more fs l _ vs D R); [|exact M]. intros p I. clear -I. revert I. generalize (flat more) as ts. generalize (map fst fs) as ns.
    intros ns ts. remember (length ts) as m eqn:Em. revert ts Em. induction m as [m IH] using lt_wf_ind. intros ts Em I. destruct ts as [|k [|x ts]]; try contradiction. cbn [walk] in I.
    destruct (smem k ns) eqn:Ek.
    + destruct I as [<-|I]; [apply smem_In, Ek|]. apply (IH (length ts)) with (ts := ts); [subst m; cbn; lia | reflexivity | exact I].
    + apply (IH (length (x :: ts))) with (ts := x :: ts); [subst m; cbn; lia | reflexivity | exact I].
  - intros ->. rewrite app_nil_r. exact R.
Qed.
Lemma relevant_sub ns ns' hs : incl ns ns' -> relevant ns hs = filter (fun h => smem (fst h) ns) (relevant ns' hs).
Proof.
  intros Is. unfold relevant. induction hs as [|h hs IH]; [reflexivity|]. cbn [map filter fst snd]. destruct (smem (lowercase (fst h)) ns) eqn:A.
  - rewrite (proj2 (smem_In _ ns')) by (apply Is, smem_In, A). cbn [filter fst]. rewrite A, IH. reflexivity.
  - destruct (smem (lowercase (fst h)) ns'); [cbn [filter fst]; rewrite A|]; exact IH.
Qed.
Lemma nodup_filter_names {X} (g : ustr * X -> bool) l : NoDup (map fst l) -> NoDup (map fst (filter g l)).
Proof.
  induction l as [|a l IH]; cbn; intros D; [constructor|]. inversion D as [|? ? Na D']; subst. destruct (g a); [|auto]. cbn. constructor; [|auto].
  intros I. apply Na. apply in_map_iff in I. destruct I as (b & E & I). apply filter_In in I. rewrite <- E. apply in_map, I.
Qed.
Theorem header_subset n n' fs fs' hs vs' : NoDup (map fst fs) -> NoDup (map fst fs') -> incl fs fs' -> names_ok hs = true ->
  (exists s, de_header (TStruct n' fs') (hde_new hs) = Ok (SStruct n' vs', s)) ->
  exists vs, (exists s, de_header (TStruct n fs) (hde_new hs) = Ok (SStruct n vs, s)) /\ map fst vs = map fst fs /\ incl vs vs'.
Proof.
  intros D D' Is N R. apply (de_header_struct n' fs' hs vs' D' N) in R. destruct R as [Da Fi].
  assert (Q : exists vs, filled header_read fs (relevant (map fst fs) hs) vs /\ map fst vs = map fst fs /\ incl vs vs').
  { assert (Rs : relevant (map fst fs) hs = filter (fun h => smem (fst h) (map fst fs)) (relevant (map fst fs') hs)) by (apply relevant_sub; intros k I; apply in_map_iff in I; destruct I as (f & <- & I); apply in_map, Is, I).
    assert (F : exists vs, Forall2 (reads_field header_read (relevant (map fst fs) hs)) fs vs /\ incl vs vs').
    { assert (Is2 : incl fs fs) by apply incl_refl. revert Is2. generalize fs at 1 4. intros gs Is2. induction gs as [|f gs IH]; [exists []; split; [constructor | intros ? []]|].
      destruct IH as (ws & Fw & Iw); [intros g I; apply Is2; right; exact I|].
      assert (X : exists v, In v vs' /\ reads_field header_read (relevant (map fst fs') hs) f v).
      { specialize (Is f (Is2 f (or_introl eq_refl))). clear -Fi Is. revert Fi. generalize (relevant (map fst fs') hs) as asg. intros asg Fi. induction Fi as [|g v gs vs Rg Fi IH]; [contradiction|]. destruct Is as [->|I]; [exists v; split; [left; reflexivity | exact Rg]|].
        destruct (IH I) as (w & J & R). exists w. split; [right; exact J | exact R]. }
      destruct X as (v & Iv & E & C). exists (v :: ws). split; [constructor; [|exact Fw] | intros z [<-|I]; [exact Iv | apply Iw, I]].
      split; [exact E|]. rewrite Rs. destruct C as [(x & I & R)|(A & O)].
      - left. exists x. split; [|exact R]. apply filter_In. split; [exact I|]. cbn [fst]. apply smem_In, (in_map fst), Is2. left. reflexivity.
      - right. split; [|exact O]. intros x I. apply filter_In in I. apply (A x), I. }
    destruct F as (vs & Fv & Iv). exists vs. split; [split; [rewrite Rs; apply nodup_filter_names, Da | exact Fv]|]. split; [|exact Iv].
    clear -Fv. revert Fv. generalize (relevant (map fst fs) hs) as asg. intros asg Fv. induction Fv as [|f v fs vs [E _] Fv IH]; cbn; congruence. }
  destruct Q as (vs & Fv & E & Iv). exists vs. split; [|split; assumption]. apply (de_header_struct n fs hs vs D N). exact Fv.
Qed.
Lemma variant_unknown code hs n vs x : names_ok hs = true -> wf_ty (TEnum n vs) = true -> status_code_to_str code = Ok x -> assoc x vs = None -> de_response code hs (TEnum n vs) = Err Invalid.
Proof.
  intros N W E A. destruct (response_refuses code hs N (TEnum n vs) W) as [[v R]|R]; [|exact R]. exfalso. apply (response_exact code hs N _ W) in R. apply code_named in E.
  inversion R as [| | |? ? ? y Nm B|? ? ? y ? ? Nm B|? ? ? y ? ? Nm B]; subst; (apply code_named in Nm; apply code_named in E; congruence).
Qed.
Lemma safe_names_ok hs : forallb safe_header hs = true -> names_ok hs = true.
Proof.
  intros S. unfold names_ok. rewrite forallb_forall in *. intros h I. specialize (S h I). unfold safe_header in S. repeat (apply andb_prop in S; destruct S as [S ?]).
  apply forallb_forall. intros c J. match goal with T : forallb token_char _ = true |- _ => rewrite forallb_forall in T; specialize (T c J) end.
  unfold is_scalar. assert (c < 128); [|lia]. unfold token_char, mem in *. cbn [existsb] in *. lia.
Qed.
End Grow.
