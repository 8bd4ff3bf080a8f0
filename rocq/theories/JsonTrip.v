(** * Decoding the JSON text of a value gives the value back. *)
From Verif Require Import Base Utf8 Decimal Serde ScalarSpec FieldProofs ValueInd Json JsonText JsonSpec JsonProofs JsonDe.
Open Scope N_scope.

(** ** Equality of values *)
Ltac beq := repeat match goal with
  | |- context [(_ && _) = true] => rewrite andb_true_iff
  | |- context [ustr_eqb _ _ = true] => rewrite ustr_eqb_eq
  end.
Section Lists.
  Context {A : Type} (eqb : A -> A -> bool).
  Fixpoint list_eqb (x y : list A) : bool :=
    match x, y with [], [] => true | p :: x, q :: y => eqb p q && list_eqb x y | _, _ => false end.
  Lemma list_eqb_eq x : Forall (fun a => forall b, eqb a b = true <-> a = b) x -> forall y, list_eqb x y = true <-> x = y.
  Proof.
    induction 1 as [|a x Ha _ IH]; intros [|b y]; cbn [list_eqb]; try (split; [discriminate | discriminate]); [tauto|].
    rewrite andb_true_iff, Ha, IH. split; [intros [-> ->]; reflexivity | intros [= -> ->]; auto].
  Qed.
End Lists.
Definition pair_eqb (a b : value * value) : bool := value_eqb (fst a) (fst b) && value_eqb (snd a) (snd b).
Definition field_eqb (a b : ustr * value) : bool := ustr_eqb (fst a) (fst b) && value_eqb (snd a) (snd b).
Lemma go_values x : forall y, (fix go (x y : list value) := match x, y with
        | [], [] => true | p :: x, q :: y => value_eqb p q && go x y | _, _ => false end) x y = list_eqb value_eqb x y.
Proof. induction x as [|a x IH]; intros [|b y]; reflexivity. Qed.
Lemma go_pairs x : forall y, (fix go (x y : list (value * value)) := match x, y with
        | [], [] => true
        | (k, p) :: x, (k', q) :: y => value_eqb k k' && value_eqb p q && go x y
        | _, _ => false end) x y = list_eqb pair_eqb x y.
Proof. induction x as [|[k a] x IH]; intros [|[k' b] y]; try reflexivity. cbn [list_eqb]. rewrite <- IH. reflexivity. Qed.
Lemma go_fields x : forall y, (fix go (x y : list (ustr * value)) := match x, y with
        | [], [] => true
        | (k, p) :: x, (k', q) :: y => ustr_eqb k k' && value_eqb p q && go x y
        | _, _ => false end) x y = list_eqb field_eqb x y.
Proof. induction x as [|[k a] x IH]; intros [|[k' b] y]; try reflexivity. cbn [list_eqb]. rewrite <- IH. reflexivity. Qed.

Lemma value_eqb_eq : forall a b, value_eqb a b = true <-> a = b.
Proof.
  induction a as [x|k z|x|x|x|s|s| |v IH| |n|e x|n v IH|e x v IH|l IH|l IH|n l IH|e x l IH|l IH|n l IH|e x l IH] using value_ind2; intros b; destruct b; cbn [value_eqb];
    try (split; discriminate); rewrite ?go_values, ?go_pairs, ?go_fields.
  - rewrite Bool.eqb_true_iff. split; congruence.
  - rewrite andb_true_iff, ikind_eqb_eq, Z.eqb_eq. split; [intros [-> ->]; reflexivity | intros [= -> ->]; auto].
  - rewrite N.eqb_eq. split; congruence.
  - rewrite N.eqb_eq. split; congruence.
  - rewrite N.eqb_eq. split; congruence.
  - rewrite ustr_eqb_eq. split; congruence.
  - rewrite ustr_eqb_eq. split; congruence.
  - tauto.
  - rewrite IH. split; congruence.
  - tauto.
  - rewrite ustr_eqb_eq. split; congruence.
  - beq. split; [intros [-> ->]; reflexivity | intros [= -> ->]; auto].
  - beq. rewrite IH. split; [intros [-> ->]; reflexivity | intros [= -> ->]; auto].
  - beq. rewrite IH. split; [intros [[-> ->] ->]; reflexivity | intros [= -> -> ->]; auto].
  - rewrite list_eqb_eq by exact IH. split; congruence.
  - rewrite list_eqb_eq by exact IH. split; congruence.
  - beq. rewrite list_eqb_eq by exact IH. split; [intros [-> ->]; reflexivity | intros [= -> ->]; auto].
  - beq. rewrite list_eqb_eq by exact IH. split; [intros [[-> ->] ->]; reflexivity | intros [= -> -> ->]; auto].
  - rewrite list_eqb_eq. { split; congruence. } rewrite Forall_forall in *. intros [k a] I [k' b]. unfold pair_eqb. cbn [fst snd]. destruct (IH _ I) as [Hk Ha].
    cbn [fst snd] in Hk, Ha. rewrite andb_true_iff, Hk, Ha. split; [intros [-> ->]; reflexivity | intros [= -> ->]; auto].
  - beq. rewrite list_eqb_eq. { split; [intros [-> ->]; reflexivity | intros [= -> ->]; auto]. } rewrite Forall_forall in *. intros [k a] I [k' b]. unfold field_eqb.
    cbn [fst snd]. specialize (IH _ I). cbn [snd] in IH. rewrite andb_true_iff, ustr_eqb_eq, IH. split; [intros [-> ->]; reflexivity | intros [= -> ->]; auto].
  - beq. rewrite list_eqb_eq. { split; [intros [[-> ->] ->]; reflexivity | intros [= -> -> ->]; auto]. } rewrite Forall_forall in *. intros [k a] I [k' b]. unfold field_eqb.
    cbn [fst snd]. specialize (IH _ I). cbn [snd] in IH. rewrite andb_true_iff, ustr_eqb_eq, IH. split; [intros [-> ->]; reflexivity | intros [= -> ->]; auto].
Qed.
Lemma nodup_vals_NoDup l : nodup_vals l = true <-> NoDup l.
Proof.
  induction l as [|x l IH]; cbn [nodup_vals]; [split; [constructor | reflexivity]|]. rewrite andb_true_iff, negb_true_iff, IH, NoDup_cons_iff.
  assert (E : existsb (value_eqb x) l = false <-> ~ In x l).
  { rewrite <- not_true_iff_false, existsb_exists. split; intros N; intros Q; apply N.
    - exists x. split; [exact Q | apply value_eqb_eq; reflexivity].
    - destruct Q as (y & I & E). apply value_eqb_eq in E. subst. exact I. }
  rewrite E. reflexivity.
Qed.

(** ** The JSON tree of a value decodes to the value *)
Section Trip.
Context `{FL : floatlib} `{JF : jsonfloat}.

Fixpoint jlist (vs : list value) : res (list json) :=
  match vs with [] => Ok [] | v :: r => j <- to_json v ;; js <- jlist r ;; Ok (j :: js) end.
Fixpoint jfields (fs : list (ustr * value)) : res (list (ustr * json)) :=
  match fs with [] => Ok [] | (n, v) :: r => j <- to_json v ;; js <- jfields r ;; Ok ((n, j) :: js) end.
Fixpoint jentries (kvs : list (value * value)) : res (list (ustr * json)) :=
  match kvs with [] => Ok [] | (k, v) :: r => k <- json_key k ;; j <- to_json v ;; js <- jentries r ;; Ok ((k, j) :: js) end.

Lemma jlist_ok vs : forall js, jlist vs = Ok js <-> Forall2 (fun v j => to_json v = Ok j) vs js.
Proof.
  induction vs as [|v vs IH]; intros js; cbn [jlist].
  - split; [intros [= <-]; constructor | intros F; inversion F; reflexivity].
  - split.
    + destruct (to_json v) eqn:E; cbn [bind]; try discriminate. destruct (jlist vs) eqn:E2; cbn [bind]; try discriminate. intros [= <-]. constructor; [exact E | apply IH; reflexivity].
    + intros F. inversion F as [|? j ? js' E F']; subst. rewrite E. cbn [bind]. apply IH in F'. rewrite F'. reflexivity.
Qed.
Lemma jfields_ok fs : forall js, jfields fs = Ok js <-> Forall2 (fun f kj => fst kj = fst f /\ to_json (snd f) = Ok (snd kj)) fs js.
Proof.
  induction fs as [|[n v] fs IH]; intros js; cbn [jfields].
  - split; [intros [= <-]; constructor | intros F; inversion F; reflexivity].
  - split.
    + destruct (to_json v) eqn:E; cbn [bind]; try discriminate. destruct (jfields fs) eqn:E2; cbn [bind]; try discriminate. intros [= <-].
      constructor; [split; [reflexivity | exact E] | apply IH; reflexivity].
    + intros F. inversion F as [|? [k j] ? js' [E1 E] F']; subst. cbn [fst snd] in *. subst k. rewrite E. cbn [bind]. apply IH in F'. rewrite F'. reflexivity.
Qed.
Lemma jentries_ok kvs : forall js, jentries kvs = Ok js -> Forall2 (fun f kj => json_key (fst f) = Ok (fst kj) /\ to_json (snd f) = Ok (snd kj)) kvs js.
Proof.
  induction kvs as [|[n v] fs IH]; intros js; cbn [jentries]; [intros [= <-]; constructor|].
  destruct (json_key n) eqn:E0; cbn [bind]; try discriminate. destruct (to_json v) eqn:E; cbn [bind]; try discriminate.
  destruct (jentries fs) eqn:E2; cbn [bind]; try discriminate. intros [= <-]. constructor; [auto | apply IH; reflexivity].
Qed.

(** Keys. *)
Lemma key_trip t : forall v s, has_ty t v = true -> json_key v = Ok s -> from_key t s = Ok v.
Proof.
  induction t as [ |k| | | | | |t IH| |n|n t IH|t IH|ts|n ts|k IHk v IHv|n fs|n vs| ]; intros w s T K; destruct w; cbn [has_ty json_key] in T, K; try discriminate; injection K as E || idtac.
  all: cbn [from_key].
  all: try discriminate.
  - apply andb_true_iff in T. destruct T as [E1 R]. apply ikind_eqb_eq in E1. subst. rewrite parse_show_int by assumption. reflexivity.
  - subst. reflexivity.
  - subst. reflexivity.
  - apply andb_true_iff in T. destruct T as [E1 R]. apply ustr_eqb_eq in E1. subst. rewrite (IH _ _ R K). reflexivity.
  - apply andb_true_iff in T. destruct T as [E1 R]. apply ustr_eqb_eq in E1. subst. rewrite assoc_map in R. destruct (assoc s vs) as [vt|]; cbn in R; [|discriminate].
    destruct vt; cbn in R; try discriminate. reflexivity.
Qed.

(** Tuples and structs. *)
Lemma arr_exact_ok ds : forall js vs, Forall2 (fun (d : json -> res value) '(j, v) => d j = Ok v) ds (combine js vs) -> length js = length vs -> arr_exact ds js = Ok vs.
Proof.
  induction ds as [|d ds IH]; intros [|j js] [|v vs] F L; try discriminate L; cbn [combine] in F; inversion F; subst; cbn [arr_exact]; [reflexivity|].
  rewrite H2. cbn [bind]. rewrite (IH js vs); auto.
Qed.
Lemma arr_all_ok d : forall js vs, Forall2 (fun j v => d j = Ok v) js vs -> arr_all d js = Ok vs.
Proof. induction 1 as [|j v js vs E _ IH]; cbn [arr_all]; [reflexivity|]. rewrite E. cbn [bind]. rewrite IH. reflexivity. Qed.

Lemma obj_loop_ok decs : forall l vs got,
  Forall2 (fun kj kv => fst kv = fst kj /\ exists d, assoc (fst kj) decs = Some d /\ d (snd kj) = Ok (snd kv)) l vs ->
  NoDup (map fst l) -> (forall k, In k (map fst l) -> assoc k got = None) -> obj_loop decs got l = Ok (got ++ vs).
Proof.
  induction l as [|[k j] l IH]; intros vs got F N G; inversion F as [|? [k' v] ? vs' (E & d & Ed & Ev) F']; subst; cbn [obj_loop].
  - rewrite app_nil_r. reflexivity.
  - cbn [fst snd] in *. subst k'. rewrite Ed, (G k) by (left; reflexivity). rewrite Ev. cbn [bind]. inversion N as [|? ? Nk N']; subst.
    rewrite (IH vs'); [rewrite <- app_assoc; reflexivity | exact F' | exact N' |].
    intros x I. rewrite assoc_app, (G x) by (right; exact I). cbn [assoc]. destruct (ustr_eqb x k) eqn:E; [|reflexivity]. apply ustr_eqb_eq in E. subst. contradiction.
Qed.
Lemma struct_fields_full (fs : list (ustr * ty)) : forall vs, map fst fs = map fst vs -> NoDup (map fst vs) ->
  forall got, (forall kv, In kv vs -> assoc (fst kv) got = Some (snd kv)) -> struct_fields fs got = Ok vs.
Proof.
  induction fs as [|[n t] fs IH]; intros [|[k v] vs] E N got G; try discriminate E; [reflexivity|]. cbn [struct_fields map fst] in *. injection E as -> E.
  pose proof (G (k, v) (or_introl eq_refl)) as Gk. cbn [fst snd] in Gk. rewrite Gk. cbn [bind]. inversion N; subst. rewrite (IH vs); auto. intros kv I. apply G. right. exact I.
Qed.
Lemma assoc_full {A} (vs : list (ustr * A)) : NoDup (map fst vs) -> forall kv, In kv vs -> assoc (fst kv) vs = Some (snd kv).
Proof.
  induction vs as [|[k v] vs IH]; intros N kv []; inversion N as [|? ? Nk N']; subst; cbn [assoc].
  - cbn [fst snd]. rewrite ustr_eqb_refl. reflexivity.
  - destruct (ustr_eqb (fst kv) k) eqn:E; [|apply IH; assumption]. apply ustr_eqb_eq in E. subst k. elim Nk. apply in_map. assumption.
Qed.

(** Maps. *)
Lemma map_insert_new k v m : ~ In k (map fst m) -> map_insert k v m = m ++ [(k, v)].
Proof.
  induction m as [|[k' v'] m IH]; intros N; [reflexivity|]. cbn [map_insert]. destruct (value_eqb k k') eqn:E.
  - apply value_eqb_eq in E. subst. elim N. left. reflexivity.
  - rewrite IH; [reflexivity|]. intros I. apply N. right. exact I.
Qed.
Lemma obj_all_ok dk dv : forall js kvs m, Forall2 (fun kj kv => dk (fst kj) = Ok (fst kv) /\ dv (snd kj) = Ok (snd kv)) js kvs ->
  NoDup (map fst (m ++ kvs)) -> obj_all dk dv m js = Ok (m ++ kvs).
Proof.
  induction js as [|[s j] js IH]; intros kvs m F N; inversion F as [|? [k v] ? kvs' [Ek Ev] F']; subst; cbn [obj_all]; [rewrite app_nil_r; reflexivity|].
  cbn [fst snd] in *. rewrite Ek. cbn [bind]. rewrite Ev. cbn [bind]. rewrite map_insert_new.
  - rewrite (IH kvs' (m ++ [(k, v)])); [rewrite <- app_assoc; reflexivity | exact F' | rewrite <- app_assoc; exact N].
  - rewrite map_app in N. cbn [map fst] in N. apply NoDup_remove_2 in N. intros I. apply N. apply in_or_app. left. exact I.
Qed.

Lemma all_bytes_ok b : bytes_ok b = true -> all_bytes (map (fun x => JInt (Z.of_N x)) b) = Ok b.
Proof.
  induction b as [|x b IH]; cbn [bytes_ok forallb map all_bytes byte_of]; [reflexivity|]. intros E. apply andb_true_iff in E. destruct E as [E B].
  replace (in_range U8 (Z.of_N x)) with true by (unfold in_range; cbn [imin imax]; lia). cbn [bind]. rewrite (IH B). cbn [bind]. rewrite N2Z.id. reflexivity.
Qed.
Lemma in_range_int64 k z : in_range k z = true -> int64 z.
Proof. unfold in_range, int64. destruct k; cbn [imin imax]; lia. Qed.

Definition trips (t : ty) : Prop := forall v j, has_ty t v = true -> json_faithful v -> to_json v = Ok j ->
  from_json t j = Ok v /\ numbers_ok j /\ (j = JNull -> json_null v = true).
Definition vtrips (t : vty) : Prop := forall n x v j, vhas_ty t v = true -> json_faithful v -> to_json v = Ok j ->
  match v with SUnitVariant n' x' | SNewtypeVariant n' x' _ | STupleVariant n' x' _ | SStructVariant n' x' _ => n' = n /\ x' = x | _ => False end ->
  (t = VUnit /\ v = SUnitVariant n x) \/ exists j', j = JObj [(x, j')] /\ from_variant t n x j' = Ok v /\ numbers_ok j'.

Lemma fold_forall {A} (P : A -> Prop) l : fold_right (fun v Q => P v /\ Q) True l <-> Forall P l.
Proof. induction l; cbn [fold_right]; [split; constructor|]. rewrite IHl, Forall_cons_iff. reflexivity. Qed.

Lemma all2b_Forall2 {A B} (f : A -> B -> bool) a : forall b, all2b f a b = true <-> Forall2 (fun x y => f x y = true) a b.
Proof.
  induction a as [|x a IH]; intros [|y b]; cbn [all2b]; try (split; [discriminate | intros F; inversion F]).
  - split; constructor.
  - rewrite andb_true_iff, IH. split; [intros []; constructor; assumption | intros F; inversion F; auto].
Qed.
Lemma Forall2_map_l {A B C} (f : A -> B) (R : B -> C -> Prop) a : forall c, Forall2 R (map f a) c <-> Forall2 (fun x y => R (f x) y) a c.
Proof.
  induction a as [|x a IH]; intros [|y c]; cbn [map]; try (split; intros F; inversion F; fail).
  - split; constructor.
  - split; intros F; inversion F; subst; constructor; auto; apply IH; assumption.
Qed.

Lemma tuple_trip ts vs js : Forall trips ts -> all2b (fun f v => f v) (map has_ty ts) vs = true -> Forall json_faithful vs -> jlist vs = Ok js ->
  arr_exact (map from_json ts) js = Ok vs /\ Forall numbers_ok js.
Proof.
  intros IH T F J. apply all2b_Forall2 in T. rewrite Forall2_map_l in T. apply jlist_ok in J. revert ts IH T F. induction J as [|v j vs js E J IHJ]; intros ts IH T F; inversion T as [|t ? ts' ? Tv T']; subst; cbn [map arr_exact].
  - split; [reflexivity | constructor].
  - inversion IH as [|? ? Pt IH']; subst. inversion F as [|? ? Fv F']; subst. destruct (Pt _ _ Tv Fv E) as (D & N & _). destruct (IHJ _ IH' T' F') as [D2 N2]. rewrite D. cbn [bind]. rewrite D2. split; [reflexivity | constructor; assumption].
Qed.
Lemma fields_trip fs vs js : Forall (fun f => trips (snd f)) fs ->
  all2b (fun f v => ustr_eqb (fst f) (fst v) && snd f (snd v)) (map (fun f => (fst f, has_ty (snd f))) fs) vs && nodup_names (map fst fs) = true ->
  Forall (fun f => json_faithful (snd f)) vs -> jfields vs = Ok js ->
  json_struct (map (fun f => (fst f, from_json (snd f))) fs) fs (JObj js) = Ok vs /\ Forall (fun kv => numbers_ok (snd kv)) js.
Proof.
  intros IH T F J. apply andb_true_iff in T. destruct T as [T N]. apply nodup_names_NoDup in N. apply all2b_Forall2 in T. rewrite Forall2_map_l in T. cbn [fst snd] in T. apply jfields_ok in J.
  assert (Names : map fst fs = map fst vs /\ map fst js = map fst vs).
  { split.
    - clear -T. induction T as [|f v fs vs E _ IH]; [reflexivity|]. cbn [map]. apply andb_true_iff in E. destruct E as [E _]. apply ustr_eqb_eq in E. congruence.
    - clear -J. induction J as [|f v fs vs [E _] _ IH]; [reflexivity|]. cbn [map]. congruence. }
  destruct Names as [N1 N2].
  assert (All : Forall2 (fun kj kv => fst kv = fst kj /\ exists d, assoc (fst kj) (map (fun f => (fst f, from_json (snd f))) fs) = Some d /\ d (snd kj) = Ok (snd kv)) js vs /\
      Forall (fun kv => numbers_ok (snd kv)) js).
  { assert (G : forall fs' vs' js', incl fs' fs -> Forall (fun f => trips (snd f)) fs' -> Forall2 (fun f v => ustr_eqb (fst f) (fst v) && has_ty (snd f) (snd v) = true) fs' vs' ->
        Forall (fun f => json_faithful (snd f)) vs' -> Forall2 (fun f kj => fst kj = fst f /\ to_json (snd f) = Ok (snd kj)) vs' js' ->
        Forall2 (fun kj kv => fst kv = fst kj /\ exists d, assoc (fst kj) (map (fun f => (fst f, from_json (snd f))) fs) = Some d /\ d (snd kj) = Ok (snd kv)) js' vs' /\
        Forall (fun kv => numbers_ok (snd kv)) js').
    { clear IH T F J. intros fs' vs' js' I IH T F J. revert fs' I IH T F. induction J as [|[k v] [k' j] vs' js' [E1 E] J IHJ]; intros fs' I IH T F; [split; constructor|].
      cbn [fst snd] in *. subst k'. inversion T as [|[n t] ? fs2 ? Et T2]; subst. cbn [fst snd] in *. apply andb_true_iff in Et. destruct Et as [En Et]. apply ustr_eqb_eq in En. subst n.
      inversion IH as [|? ? Ht IH2]; subst. inversion F as [|? ? Fv F2]; subst. cbn [snd] in *. destruct (Ht _ _ Et Fv E) as (D & Nj & _).
      destruct (IHJ fs2) as [A B]; auto. { intros x Ix. apply I. right. exact Ix. } split; [|constructor; assumption].
      constructor; [|exact A]. cbn [fst snd]. split; [reflexivity|]. exists (from_json t). split; [|exact D].
      pose proof (assoc_full fs N (k, t) (I _ (or_introl eq_refl))) as Ak. cbn [fst snd] in Ak. rewrite assoc_map, Ak. reflexivity. }
    apply G with fs; auto. intros x Ix. exact Ix. }
  destruct All as [All Nums]. split; [|exact Nums]. cbn [json_struct]. rewrite (obj_loop_ok _ _ vs []).
  - cbn [app bind]. apply struct_fields_full; [exact N1 | congruence | apply assoc_full; congruence].
  - exact All.
  - congruence.
  - reflexivity.
Qed.

Lemma numbers_arr l : Forall numbers_ok l -> numbers_ok (JArr l).
Proof. apply (fold_forall numbers_ok). Qed.
Lemma numbers_obj (l : list (ustr * json)) : Forall (fun kv => numbers_ok (snd kv)) l -> numbers_ok (JObj l).
Proof. apply (fold_forall (fun kv : ustr * json => numbers_ok (snd kv))). Qed.

Theorem json_trip : forall t, trips t.
Proof.
  apply (ty_ind2 trips vtrips).
  - intros v j T F E. destruct v; cbn in T; try discriminate. injection E as <-. cbn. repeat split. discriminate.
  - intros k v j T F E. destruct v; cbn in T; try discriminate. apply andb_true_iff in T. destruct T as [E1 R]. apply ikind_eqb_eq in E1. subst. injection E as <-. cbn [from_json numbers_ok].
    rewrite R. repeat split; try discriminate; apply (in_range_int64 _ _ R).
  - intros v j T F E. destruct v; cbn in T; try discriminate. injection E as <-. destruct F as (F1 & F2 & F3). cbn [from_json numbers_ok]. rewrite F3. repeat split; auto. discriminate.
  - intros v j T F E. destruct v; cbn in T; try discriminate. injection E as <-. destruct F as (F1 & F2). cbn [from_json numbers_ok]. rewrite F2. repeat split; auto; discriminate.
  - intros v j T F E. destruct v; cbn in T; try discriminate. injection E as <-. cbn. repeat split. discriminate.
  - intros v j T F E. destruct v; cbn in T; try discriminate. injection E as <-. cbn. repeat split. discriminate.
  - intros v j T F E. destruct v; cbn [has_ty] in T; try discriminate. injection E as <-. cbn [from_json]. rewrite (all_bytes_ok _ T). split; [reflexivity|]. split; [|discriminate].
    apply numbers_arr. apply Forall_forall. intros j I. apply in_map_iff in I. destruct I as (x & <- & I). cbn. unfold bytes_ok in T. rewrite forallb_forall in T. specialize (T x I). cbv beta in T.
    unfold int64. lia.
  - intros t IH v j T F E. destruct v; cbn [has_ty] in T; try discriminate; [injection E as <-; cbn; repeat split; reflexivity|]. destruct F as [Nn F]. cbn [to_json] in E.
    destruct (IH _ _ T F E) as (D & N & Q). cbn [from_json json_null]. rewrite D. split; [|split; [exact N | exact Q]]. destruct j; try reflexivity. rewrite Q in Nn by reflexivity. discriminate.
  - intros v j T F E. destruct v; cbn in T; try discriminate. injection E as <-. cbn. repeat split; auto.
  - intros n v j T F E. destruct v; cbn [has_ty] in T; try discriminate. apply ustr_eqb_eq in T. subst. injection E as <-. cbn. repeat split; auto.
  - intros n t IH v j T F E. destruct v; cbn [has_ty] in T; try discriminate. apply andb_true_iff in T. destruct T as [E1 R]. apply ustr_eqb_eq in E1. subst.
    destruct (IH _ _ R F E) as (D & N & Q). cbn [from_json json_null]. rewrite D. auto.
  - intros t IH v j T F E. destruct v; cbn [has_ty] in T; try discriminate. change (to_json (SSeq vs)) with (js <- jlist vs ;; Ok (JArr js)) in E.
    destruct (jlist vs) as [js| | |] eqn:J; try discriminate. injection E as <-. apply jlist_ok in J. cbn [json_faithful] in F. apply (fold_forall json_faithful) in F. rewrite forallb_forall in T.
    assert (G : Forall2 (fun j v => from_json t j = Ok v) js vs /\ Forall numbers_ok js).
    { clear -J F T IH. induction J as [|v j vs js E J IHJ]; [split; constructor|]. inversion F; subst.
      destruct (IH v j (T v (or_introl eq_refl)) H1 E) as (D & N & _). destruct IHJ as [A B]; try assumption; try (intros x I; apply T; right; exact I). split; constructor; assumption. }
    destruct G as [G Nums]. cbn [from_json]. rewrite (arr_all_ok _ _ _ G). split; [reflexivity|]. split; [apply numbers_arr, Nums | discriminate].
  - intros ts IH v j T F E. destruct v; cbn [has_ty] in T; try discriminate. change (to_json (STuple vs)) with (js <- jlist vs ;; Ok (JArr js)) in E.
    destruct (jlist vs) as [js| | |] eqn:J; try discriminate. injection E as <-. cbn [json_faithful] in F. apply (fold_forall json_faithful) in F.
    destruct (tuple_trip _ _ _ IH T F J) as [D N]. cbn [from_json]. rewrite D. split; [reflexivity|]. split; [apply numbers_arr, N | discriminate].
  - intros n ts IH v j T F E. destruct v; cbn [has_ty] in T; try discriminate. apply andb_true_iff in T. destruct T as [E1 T]. apply ustr_eqb_eq in E1. subst.
    change (to_json (STupleStruct name vs)) with (js <- jlist vs ;; Ok (JArr js)) in E.
    destruct (jlist vs) as [js| | |] eqn:J; try discriminate. injection E as <-. cbn [json_faithful] in F. apply (fold_forall json_faithful) in F.
    destruct (tuple_trip _ _ _ IH T F J) as [D N]. cbn [from_json]. rewrite D. split; [reflexivity|]. split; [apply numbers_arr, N | discriminate].
  - intros k t _ IH v j T F E. destruct v; cbn [has_ty] in T; try discriminate. apply andb_true_iff in T. destruct T as [T Nd]. apply nodup_vals_NoDup in Nd.
    change (to_json (SMap kvs)) with (js <- jentries kvs ;; Ok (JObj js)) in E. destruct (jentries kvs) as [js| | |] eqn:J; try discriminate. injection E as <-. apply jentries_ok in J.
    cbn [json_faithful] in F. apply (fold_forall (fun kv : value * value => json_faithful (snd kv))) in F. rewrite forallb_forall in T.
    assert (G : Forall2 (fun kj kv => from_key k (fst kj) = Ok (fst kv) /\ from_json t (snd kj) = Ok (snd kv)) js kvs /\ Forall (fun kv => numbers_ok (snd kv)) js).
    { clear -J F T IH. induction J as [|v j vs js [E0 E] J IHJ]; [split; constructor|]. inversion F; subst.
      specialize (T v (or_introl eq_refl)) as T1. cbv beta in T1. apply andb_true_iff in T1. destruct T1 as [Tk Tv].
      destruct (IH _ _ Tv H1 E) as (D & N & _). destruct IHJ as [A B]; try assumption; try (intros x I; apply T; right; exact I). split; constructor; auto. split; [apply key_trip; assumption | exact D]. }
    destruct G as [G Nums]. cbn [from_json]. rewrite (obj_all_ok _ _ _ _ [] G Nd). split; [reflexivity|]. split; [apply numbers_obj, Nums | discriminate].
  - intros n fs IH v j T F E. destruct v as [| | | | | | | | | | | | | | | | | | |n' vs|]; cbn [has_ty] in T; try discriminate. rewrite <- andb_assoc in T. apply andb_true_iff in T. destruct T as [E1 T]. apply ustr_eqb_eq in E1. subst.
    change (to_json (SStruct n' vs)) with (js <- jfields vs ;; Ok (JObj js)) in E. destruct (jfields vs) as [js| | |] eqn:J; try discriminate. injection E as <-.
    cbn [json_faithful] in F. apply (fold_forall (fun kv : ustr * value => json_faithful (snd kv))) in F.
    destruct (fields_trip _ _ _ IH T F J) as [D N]. cbn [from_json]. rewrite D. split; [reflexivity|]. split; [apply numbers_obj, N | discriminate].
  - intros n vs IH v j T F E.
    assert (G : forall x, match v with SUnitVariant n' x' | SNewtypeVariant n' x' _ | STupleVariant n' x' _ | SStructVariant n' x' _ => n' = n /\ x' = x | _ => False end ->
        match assoc x (map (fun f => (fst f, vhas_ty (snd f))) vs) with Some f => f v | None => false end = true ->
        from_json (TEnum n vs) j = Ok v /\ numbers_ok j /\ (j = JNull -> json_null v = true)).
    { intros x Hv A. rewrite assoc_map in A. destruct (assoc x vs) as [vt|] eqn:Ax; cbn [option_map] in A; [|discriminate]. rewrite Forall_forall in IH.
      specialize (IH _ (assoc_In _ _ _ Ax)). cbn [snd] in IH. destruct (IH n x v j A F E Hv) as [[-> ->]|(j' & -> & D & N)].
      - injection E as <-. cbn [from_json]. rewrite Ax. repeat split; discriminate.
      - change (from_json (TEnum n vs) (JObj [(x, j')])) with
          (match assoc x (map (fun f => (fst f, from_variant (snd f))) vs) with Some d => d n x j' | None => Err Invalid end).
        rewrite assoc_map, Ax. cbn [option_map]. split; [exact D|]. split; [apply numbers_obj; constructor; [exact N | constructor] | discriminate]. }
    destruct v; cbn [has_ty] in T; try discriminate; apply andb_true_iff in T; destruct T as [E1 T]; apply ustr_eqb_eq in E1; subst; apply (G variant (conj eq_refl eq_refl) T).
  - intros v j T. destruct v; discriminate.
  - intros n x v j T F E Hv. destruct v; cbn in T; try discriminate. destruct Hv as [-> ->]. left. auto.
  - intros t IH n x v j T F E Hv. destruct v; cbn [vhas_ty] in T; try discriminate. destruct Hv as [-> ->]. right. cbn [to_json] in E. destruct (to_json v) as [j'| | |] eqn:J; try discriminate. injection E as <-.
    destruct (IH _ _ T F J) as (D & N & _). exists j'. split; [reflexivity|]. change (from_variant (VNewtype t) n x j') with (res_map (SNewtypeVariant n x) (from_json t j')). rewrite D. auto.
  - intros ts IH n x v j T F E Hv. destruct v; cbn [vhas_ty] in T; try discriminate. destruct Hv as [-> ->]. right. change (to_json (STupleVariant n x vs)) with (js <- jlist vs ;; Ok (JObj [(x, JArr js)])) in E.
    destruct (jlist vs) as [js| | |] eqn:J; try discriminate. injection E as <-. cbn [json_faithful] in F. apply (fold_forall json_faithful) in F.
    destruct (tuple_trip _ _ _ IH T F J) as [D N]. exists (JArr js). split; [reflexivity|]. change (from_variant (VTuple ts) n x (JArr js)) with (vs <- arr_exact (map from_json ts) js ;; Ok (STupleVariant n x vs)). rewrite D. split; [reflexivity | apply numbers_arr, N].
  - intros fs IH n x v j T F E Hv. destruct v as [| | | | | | | | | | | | | | | | | | | |n' x' vs]; cbn [vhas_ty] in T; try discriminate. destruct Hv as [-> ->]. right. change (to_json (SStructVariant n x vs)) with (js <- jfields vs ;; Ok (JObj [(x, JObj js)])) in E.
    destruct (jfields vs) as [js| | |] eqn:J; try discriminate. injection E as <-. cbn [json_faithful] in F. apply (fold_forall (fun kv : ustr * value => json_faithful (snd kv))) in F.
    destruct (fields_trip _ _ _ IH T F J) as [D N]. exists (JObj js). split; [reflexivity|]. change (from_variant (VStruct fs) n x (JObj js)) with (vs <- json_struct (map (fun f => (fst f, from_json (snd f))) fs) fs (JObj js) ;; Ok (SStructVariant n x vs)). rewrite D. split; [reflexivity | apply numbers_obj, N].
Qed.

(** ** And so does its text, compact or pretty, within the nesting limit *)
Lemma ws_any : ws [].
Proof. intros c []. Qed.
Theorem json_text_trip t v j : has_ty t v = true -> json_faithful v -> to_json v = Ok j -> (nesting j < 128)%nat ->
  from_json_str t (print_json j) = Ok v /\ from_json_str t (print_pretty 0 j) = Ok v.
Proof.
  intros T F E D. destruct (json_trip t v j T F E) as (R & N & _). unfold from_json_str.
  pose proof (parse_json_complete j _ [] [] (print_json_text j N) ws_any ws_any D) as P1. pose proof (parse_json_complete j _ [] [] (print_pretty_text j N 0) ws_any ws_any D) as P2.
  rewrite app_nil_r in P1, P2. cbn [app] in P1, P2. rewrite P1, P2. auto.
Qed.
End Trip.
