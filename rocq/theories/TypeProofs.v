(** * What is decoded has the type it was decoded as. *)
From Verif Require Import Base Utf8 Decimal DepUrl Serde Procedure DePath DeQuery DeHeader DeRequest DeResponse Status Json JsonText JsonDe ValueInd ScalarSpec JsonTrip UrlProofs HeaderProofs Router RouterSpec SerRequest Error Client ClientSpec ClientProofs Server ServerSpec ServerProofs TypeSpec.
Open Scope N_scope.

Section Sound.
Context `{floatlib}.

(** ** Visitors, for any state with an invariant. *)
Section Visitors.
Context {St : Type} (inv : St -> Prop).
Definition decodes (t : ty) (d : St -> res (value * St)) : Prop := forall s v s', inv s -> d s = Ok (v, s') -> has_ty t v = true /\ inv s'.

Lemma tuple_sound next : (forall d s o s', inv s -> next d s = Ok (o, s') -> (o = None /\ inv s') \/ exists v, o = Some v /\ exists s0, inv s0 /\ d s0 = Ok (v, s')) ->
  forall ts decs, Forall2 decodes ts decs -> forall s vs s', inv s -> visit_tuple next decs s = Ok (vs, s') ->
  all2b (fun f v => f v) (map has_ty ts) vs = true /\ inv s'.
Proof.
  intros N. induction 1 as [|t d ts decs D F IH]; intros s vs s' I E; cbn [visit_tuple] in E.
  - injection E as <- <-. split; [reflexivity | exact I].
  - destruct (next d s) as [[o s1]| | |] eqn:En; try discriminate. cbn [bind] in E.
    destruct (N d s o s1 I En) as [[-> I1]|[v [-> [s0 [I0 Ed]]]]]; [discriminate|].
    destruct (visit_tuple next decs s1) as [[vs1 s2]| | |] eqn:Ev; try discriminate. injection E as <- <-.
    destruct (D s0 v s1 I0 Ed) as [Hv I1]. destruct (IH s1 vs1 s2 I1 Ev) as [Hs I2].
    split; [|exact I2]. cbn [map all2b]. rewrite Hv. exact Hs.
Qed.

Lemma seq_sound next t d : (forall d s o s', inv s -> next d s = Ok (o, s') -> (o = None /\ inv s') \/ exists v, o = Some v /\ exists s0, inv s0 /\ d s0 = Ok (v, s')) ->
  decodes t d -> forall fuel s vs s', inv s -> visit_seq fuel next d s = Ok (vs, s') -> forallb (has_ty t) vs = true /\ inv s'.
Proof.
  intros N D. induction fuel as [|f IH]; intros s vs s' I E; cbn [visit_seq] in E; [discriminate|].
  destruct (next d s) as [[o s1]| | |] eqn:En; try discriminate. cbn [bind] in E.
  destruct (N d s o s1 I En) as [[-> I1]|[v [-> [s0 [I0 Ed]]]]].
  - injection E as <- <-. split; [reflexivity | exact I1].
  - destruct (visit_seq f next d s1) as [[vs1 s2]| | |] eqn:Ev; try discriminate. injection E as <- <-.
    destruct (D s0 v s1 I0 Ed) as [Hv I1]. destruct (IH s1 vs1 s2 I1 Ev) as [Hs I2].
    split; [|exact I2]. cbn [forallb]. rewrite Hv. exact Hs.
Qed.
End Visitors.

(** ** Structs and maps *)
Lemma assoc_map {A B} (f : A -> B) k l : assoc k (map (fun x => (fst x, f (snd x))) l) = option_map f (assoc k l).
Proof. induction l as [|[n a] l IH]; cbn [map assoc fst snd]; [reflexivity|]. destruct (ustr_eqb k n); [reflexivity | exact IH]. Qed.
Lemma assoc_first {A} (l : list (ustr * A)) n a : nodup_names (map fst l) = true -> In (n, a) l -> assoc n l = Some a.
Proof.
  induction l as [|[m b] l IH]; cbn [map nodup_names fst assoc]; [intros _ []|].
  rewrite andb_true_iff, negb_true_iff. intros [N1 N2] [E|I].
  - injection E as <- <-. rewrite ustr_eqb_refl. reflexivity.
  - destruct (ustr_eqb n m) eqn:E; [|exact (IH N2 I)]. apply ustr_eqb_eq in E. subst m. exfalso.
    assert (smem n (map fst l) = true) as X by (apply smem_In; apply in_map_iff; exists (n, a); auto). congruence.
Qed.
Lemma fields_sound fs got vs : nodup_names (map fst fs) = true ->
  (forall k v t, assoc k got = Some v -> assoc k fs = Some t -> has_ty t v = true) -> struct_fields fs got = Ok vs ->
  all2b (fun f v => ustr_eqb (fst f) (fst v) && snd f (snd v)) (map (fun f => (fst f, has_ty (snd f))) fs) vs = true.
Proof.
  intros N G. assert (forall n t, In (n, t) fs -> assoc n fs = Some t) as A by (intros n t I; exact (assoc_first fs n t N I)).
  clear N. revert vs. assert (forall l, incl l fs -> forall vs, struct_fields l got = Ok vs ->
    all2b (fun f v => ustr_eqb (fst f) (fst v) && snd f (snd v)) (map (fun f => (fst f, has_ty (snd f))) l) vs = true) as X.
  { induction l as [|[n t] l IH]; intros L vs E; cbn [struct_fields] in E; [injection E as <-; reflexivity|].
    assert (A0 := A n t (L _ (or_introl eq_refl))).
    assert (exists v, match assoc n got with Some v => Ok v | None => if is_option t then Ok SNone else Err Invalid end = Ok v /\ has_ty t v = true) as [v [Ev Hv]].
    { destruct (assoc n got) as [v|] eqn:Eg; [exists v; split; [reflexivity | exact (G n v t Eg A0)]|].
      destruct t; cbn [is_option] in *; try discriminate. exists SNone. split; reflexivity. }
    rewrite Ev in E. cbn [bind] in E. destruct (struct_fields l got) as [r| | |] eqn:Er; try discriminate. injection E as <-.
    cbn [map all2b fst snd]. rewrite ustr_eqb_refl, Hv. exact (IH (fun x I => L x (or_intror I)) r eq_refl). }
  intros vs. exact (X fs (fun x I => I) vs).
Qed.

Section Maps.
Context {St : Type} (inv : St -> Prop).
Lemma struct_sound fuel next_key skip (de : ty -> St -> res (value * St)) fs :
  nodup_names (map fst fs) = true ->
  (forall s o s', inv s -> next_key s = Ok (o, s') -> inv s') -> (forall k s s', inv s -> skip k s = Ok s' -> inv s') ->
  (forall k t, assoc k fs = Some t -> decodes inv t (de t)) ->
  forall s vs s', inv s -> visit_struct fuel next_key skip (map (fun f => (fst f, de (snd f))) fs) fs s = Ok (vs, s') ->
  all2b (fun f v => ustr_eqb (fst f) (fst v) && snd f (snd v)) (map (fun f => (fst f, has_ty (snd f))) fs) vs = true /\ inv s'.
Proof.
  intros N Nk Sk D s vs s' I E. unfold visit_struct in E.
  destruct (struct_loop fuel next_key skip (map (fun f => (fst f, de (snd f))) fs) [] s) as [[got s1]| | |] eqn:El; try discriminate. cbn [bind] in E.
  destruct (struct_fields fs got) as [r| | |] eqn:Ef; try discriminate. injection E as <- <-.
  assert ((forall k v t, assoc k got = Some v -> assoc k fs = Some t -> has_ty t v = true) /\ inv s1) as [G I1].
  { assert (forall k v t, @assoc value k [] = Some v -> assoc k fs = Some t -> has_ty t v = true) as G0 by discriminate.
    revert G0 I El. generalize (@nil (ustr * value)) as g. revert s. induction fuel as [|f IH]; intros s g G0 I El; cbn [struct_loop] in El; [discriminate|].
    destruct (next_key s) as [[o s2]| | |] eqn:En; try discriminate. cbn [bind] in El. assert (I2 := Nk _ _ _ I En).
    destruct o as [k|]; [|injection El as <- <-; auto]. rewrite assoc_map in El.
    destruct (assoc k fs) as [t|] eqn:Ek; cbn [option_map] in El.
    - destruct (assoc k g) eqn:Eg; [discriminate|]. destruct (de t s2) as [[v s3]| | |] eqn:Ed; try discriminate. cbn [bind] in El.
      destruct (D k t Ek s2 v s3 I2 Ed) as [Hv I3]. refine (IH s3 (g ++ [(k, v)]) _ I3 El).
      intros k' v' t' A' T'. destruct (assoc k' g) eqn:Eg'.
      + apply (G0 k' v' t'); [|exact T']. rewrite Eg'. clear - A' Eg'. revert A' Eg'. induction g as [|[a b] g IH]; cbn [app assoc]; [discriminate|].
        destruct (ustr_eqb k' a); [congruence | exact IH].
      + assert (k' = k /\ v' = v) as [-> ->]; [|congruence]. clear - A' Eg'. revert A' Eg'. induction g as [|[a b] g IH]; cbn [app assoc].
        * destruct (ustr_eqb k' k) eqn:E; [|discriminate]. apply ustr_eqb_eq in E. intros X _. split; congruence.
        * destruct (ustr_eqb k' a); [discriminate | exact IH].
    - destruct (skip k s2) as [s3| | |] eqn:Es; try discriminate. cbn [bind] in El. exact (IH s3 g G0 (Sk _ _ _ I2 Es) El). }
  split; [|exact I1]. exact (fields_sound fs got r N G Ef).
Qed.

Lemma insert_keys k v m x : existsb (value_eqb x) (map fst (map_insert k v m)) = true -> value_eqb x k = true \/ existsb (value_eqb x) (map fst m) = true.
Proof.
  induction m as [|[a b] m IH]; cbn [map_insert map fst existsb].
  - rewrite orb_false_r. auto.
  - destruct (value_eqb k a) eqn:E; cbn [map fst existsb]; [auto|]. rewrite !orb_true_iff. intros [X|X]; [auto|]. destruct (IH X); auto.
Qed.
Lemma insert_nodup k v m : nodup_vals (map fst m) = true -> nodup_vals (map fst (map_insert k v m)) = true.
Proof.
  induction m as [|[a b] m IH]; cbn [map_insert map fst nodup_vals]; [reflexivity|].
  rewrite andb_true_iff, negb_true_iff. intros [N1 N2]. destruct (value_eqb k a) eqn:E; cbn [map fst nodup_vals]; rewrite andb_true_iff, negb_true_iff; [auto|].
  split; [|exact (IH N2)]. destruct (existsb (value_eqb a) (map fst (map_insert k v m))) eqn:X; [|reflexivity].
  destruct (insert_keys k v m a X) as [Y|Y]; [|congruence]. apply value_eqb_eq in Y. subst a. rewrite (proj2 (value_eqb_eq k k) eq_refl) in E. discriminate.
Qed.
Lemma insert_typed (P : value * value -> bool) k v m : (forall a b, P (a, b) = true -> P (a, v) = true) -> P (k, v) = true -> forallb P m = true -> forallb P (map_insert k v m) = true.
Proof.
  intros R K. induction m as [|[a b] m IH]; cbn [map_insert forallb]; [rewrite K; reflexivity|].
  rewrite andb_true_iff. intros [A B]. destruct (value_eqb k a); cbn [forallb]; rewrite andb_true_iff; [split; [exact (R a b A) | exact B] | auto].
Qed.
Definition entries_ok (k t : ty) (m : list (value * value)) : bool := forallb (fun kv => has_ty k (fst kv) && has_ty t (snd kv)) m && nodup_vals (map fst m).
Lemma insert_ok k t m a b : has_ty k a = true -> has_ty t b = true -> entries_ok k t m = true -> entries_ok k t (map_insert a b m) = true.
Proof.
  unfold entries_ok. rewrite !andb_true_iff. intros A B [M N]. split; [|exact (insert_nodup a b m N)].
  apply insert_typed; cbn [fst snd]; [|rewrite A, B; reflexivity | exact M].
  intros x y. rewrite !andb_true_iff. intros [X _]. auto.
Qed.
Lemma map_sound next_key dk dv k t :
  (forall s o s', inv s -> next_key dk s = Ok (o, s') -> inv s' /\ forall v, o = Some v -> has_ty k v = true) -> decodes inv t dv ->
  forall fuel m s m' s', inv s -> entries_ok k t m = true -> visit_map fuel next_key dk dv m s = Ok (m', s') -> entries_ok k t m' = true /\ inv s'.
Proof.
  intros K D. induction fuel as [|f IH]; intros m s m' s' I M E; cbn [visit_map] in E; [discriminate|].
  destruct (next_key dk s) as [[o s1]| | |] eqn:En; try discriminate. cbn [bind] in E. destruct (K s o s1 I En) as [I1 Ko].
  destruct o as [a|]; [|injection E as <- <-; auto]. destruct (dv s1) as [[b s2]| | |] eqn:Ed; try discriminate. cbn [bind] in E.
  destruct (D s1 b s2 I1 Ed) as [Hb I2]. exact (IH _ s2 m' s' I2 (insert_ok k t m a b (Ko a eq_refl) Hb M) E).
Qed.
End Maps.

Lemma parse_int_in k s z : parse_int k s = Some z -> ikind_eqb k k && in_range k z = true.
Proof.
  unfold parse_int. intros E. assert (ikind_eqb k k = true) as -> by (destruct k; reflexivity).
  destruct (match s with 43 :: r => _ | 45 :: r => _ | _ => _ end) as [y|]; [|discriminate].
  destruct (in_range k y) eqn:R; [|discriminate]. injection E as <-. exact R.
Qed.
Lemma forallb_Forall {A} (f : A -> bool) l : forallb f l = true <-> Forall (fun x => f x = true) l.
Proof. rewrite forallb_forall, Forall_forall. reflexivity. Qed.
Lemma Forall_mp {A} (P Q : A -> Prop) l : Forall (fun x => P x -> Q x) l -> Forall P l -> Forall Q l.
Proof. rewrite !Forall_forall. auto. Qed.
Lemma Forall2_map {A B} (R : A -> B -> Prop) (f : A -> B) l : Forall (fun x => R x (f x)) l -> Forall2 R l (map f l).
Proof. induction 1; constructor; auto. Qed.
Lemma assoc_In {A} k (l : list (ustr * A)) a : assoc k l = Some a -> In (k, a) l.
Proof.
  induction l as [|[n b] l IH]; cbn [assoc]; [discriminate|]. destruct (ustr_eqb k n) eqn:E; [|right; auto].
  apply ustr_eqb_eq in E. intros [= <-]. left. congruence.
Qed.
Lemma wf_map_in (P : ty -> Prop) (fs : list (ustr * ty)) : Forall (fun f => wf_ty (snd f) = true -> P (snd f)) fs ->
  forallb (fun f => wf_ty (snd f)) fs = true -> forall k t, assoc k fs = Some t -> P t.
Proof. rewrite forallb_Forall. intros F W k t A. assert (X := Forall_mp _ _ _ F W). rewrite Forall_forall in X. exact (X _ (assoc_In _ _ _ A)). Qed.
Lemma wf_list (P : ty -> Prop) ts : Forall (fun t => wf_ty t = true -> P t) ts -> forallb wf_ty ts = true -> Forall P ts.
Proof. rewrite forallb_Forall. apply Forall_mp. Qed.

Lemma bind_Ok {A B} (x : res A) (f : A -> res B) y : bind x f = Ok y -> exists a, x = Ok a /\ f a = Ok y.
Proof. destruct x; cbn [bind]; try discriminate. eauto. Qed.
Lemma assert_Ok b x : assert_invalid b = Ok x -> b = true.
Proof. unfold assert_invalid. destruct b; [reflexivity | discriminate]. Qed.
Lemma some_Ok {A} (o : option A) x : ok_or_invalid o = Ok x -> o = Some x.
Proof. destruct o; cbn; [|discriminate]. intros [= <-]. reflexivity. Qed.
Ltac step E := let a := fresh "a" in let E1 := fresh "E" in apply bind_Ok in E; destruct E as [a [E1 E]].

(** ** The path *)
Definition path_inv (s : pde) : Prop := forallb str_ok (pd_segs s) = true.
Lemma finish_inv rest : forall segs r, forallb str_ok segs = true -> finish_loop rest segs = Ok r -> forallb str_ok r = true.
Proof.
  induction rest as [|sg rest IH]; intros segs r O E; cbn [finish_loop] in E; [injection E as <-; exact O|].
  step E. destruct segs as [|x segs]; [discriminate|]. step E. cbn [forallb] in O. apply andb_true_iff in O. exact (IH segs r (proj2 O) E).
Qed.
Lemma next_inv rest : forall segs free t segs' rest' free', forallb str_ok segs = true -> next_value_loop rest segs free = Ok (t, (segs', (rest', free'))) ->
  str_ok t = true /\ forallb str_ok segs' = true.
Proof.
  induction rest as [|sg rest IH]; intros segs free t segs' rest' free' O E; cbn [next_value_loop] in E; [discriminate|].
  destruct segs as [|x segs]; [discriminate|]. cbn [forallb] in O. apply andb_true_iff in O. destruct (as_option sg).
  - step E. exact (IH segs free t segs' rest' free' (proj2 O) E).
  - destruct free; [discriminate|]. injection E as <- <- _ _. exact O.
Qed.
Lemma path_value_inv s t s' : path_inv s -> next_value s = Ok (t, s') -> str_ok t = true /\ path_inv s'.
Proof.
  unfold next_value. intros I E. step E. destruct a as [t0 [segs [rest free]]]. injection E as <- <-. exact (next_inv _ _ _ _ _ _ _ I E0).
Qed.
Lemma hexval_lt c n : hexval c = Some n -> n < 16.
Proof.
  unfold hexval. destruct ((48 <=? c) && (c <=? 57)) eqn:A; [intros [= <-]; lia|]. destruct ((65 <=? c) && (c <=? 70)) eqn:B; [intros [= <-]; lia|].
  destruct ((97 <=? c) && (c <=? 102)) eqn:C; [intros [= <-]; lia | discriminate].
Qed.
Lemma percent_decode_ok n : forall s t, (length s <= n)%nat -> str_ok s = true -> percent_decode s = Ok t -> str_ok t = true.
Proof.
  induction n as [|n IH]; intros s t L O E; (destruct s as [|c r]; [injection E as <-; reflexivity|]); cbn [length] in L; [lia|].
  cbn [percent_decode] in E. unfold str_ok in O. cbn [forallb] in O. apply andb_true_iff in O. destruct O as [Oc O]. destruct (c =? 37).
  - destruct r as [|h0 [|h1 r2]]; try discriminate. step E. step E. injection E as <-. apply some_Ok in E0.
    unfold str_ok. cbn [forallb] in *. rewrite !andb_true_iff in O. apply andb_true_iff. split.
    + unfold hex_pair in E0. destruct (h0 =? 43).
      * apply hexval_lt in E0. unfold is_scalar. lia.
      * destruct (hexval h0) as [x|] eqn:X; [|discriminate]. destruct (hexval h1) as [y|] eqn:Y; [|discriminate]. injection E0 as <-.
        apply hexval_lt in X. apply hexval_lt in Y. unfold is_scalar. lia.
    + refine (IH r2 _ _ (proj2 (proj2 O)) E1). cbn [length] in L. lia.
  - step E. injection E as <-. unfold str_ok. cbn [forallb]. rewrite Oc. refine (IH r _ _ O E0). lia.
Qed.
Lemma path_scalar_sound {A} (parse : ustr -> option A) mk t s v s' : (forall x a, parse x = Some a -> has_ty t (mk a) = true) ->
  path_inv s -> path_scalar parse mk s = Ok (v, s') -> has_ty t v = true /\ path_inv s'.
Proof.
  unfold path_scalar. intros P I E. step E. destruct a as [x s1]. step E. step E. injection E as <- <-. apply some_Ok in E2.
  split; [exact (P _ _ E2) | exact (proj2 (path_value_inv _ _ _ I E0))].
Qed.
Lemma path_next_sound d s o s' : path_inv s -> path_next d s = Ok (o, s') -> (o = None /\ path_inv s') \/ exists v, o = Some v /\ exists s0, path_inv s0 /\ d s0 = Ok (v, s').
Proof.
  unfold path_next. intros I E. destruct (pd_free s).
  - step E. injection E as <- <-. left. split; [reflexivity|]. unfold pde_finish in E0. step E0. injection E0 as <-. exact (finish_inv _ _ _ I E).
  - step E. destruct a as [v s1]. injection E as <- <-. right. eauto.
Qed.
Lemma path_enter_inv s s' : path_inv s -> path_enter s = Ok s' -> path_inv s'.
Proof. unfold path_enter. intros I E. step E. injection E as <-. exact I. Qed.
Theorem de_path_sound t : wf_ty t = true -> decodes path_inv t (de_path t).
Proof.
  induction t using ty_ind2 with (Q := fun _ => True); try exact I; intros W s v s' I0 E; cbn [de_path] in E; cbn [wf_ty] in W; try discriminate.
  - revert E. apply path_scalar_sound; [reflexivity | exact I0].
  - revert E. apply path_scalar_sound; [|exact I0]. exact (parse_int_in k).
  - revert E. apply path_scalar_sound; [reflexivity | exact I0].
  - revert E. apply path_scalar_sound; [reflexivity | exact I0].
  - step E. destruct a as [x s1]. step E. injection E as <- <-. destruct (path_value_inv _ _ _ I0 E0) as [O I1]. split; [|exact I1].
    exact (percent_decode_ok _ _ _ (le_n _) O E1).
  - step E. destruct a as [x s1]. injection E as <- <-. destruct (IHt W _ _ _ I0 E0) as [O I1]. split; [|exact I1]. cbn [has_ty]. rewrite ustr_eqb_refl. exact O.
  - step E. step E. destruct a0 as [vs s1]. injection E as <- <-. exact (seq_sound path_inv path_next t (de_path t) path_next_sound (IHt W) _ _ _ _ (path_enter_inv _ _ I0 E0) E1).
  - step E. step E. destruct a0 as [vs s1]. injection E as <- <-.
    exact (tuple_sound path_inv path_next path_next_sound ts _ (Forall2_map _ de_path ts (wf_list _ ts H0 W)) _ _ _ (path_enter_inv _ _ I0 E0) E1).
  - step E. step E. destruct a0 as [vs s1]. injection E as <- <-. cbn [has_ty]. rewrite ustr_eqb_refl.
    exact (tuple_sound path_inv path_next path_next_sound ts _ (Forall2_map _ de_path ts (wf_list _ ts H0 W)) _ _ _ (path_enter_inv _ _ I0 E0) E1).
Qed.

(** ** The query *)
Definition pair_ok (p : ustr * ustr) : bool := str_ok (fst p) && str_ok (snd p).
Definition query_inv (s : qde) : Prop := match qd_pending s with Some v => str_ok v | None => true end = true /\ forallb pair_ok (qd_rest s) = true.
Lemma next_str_inv s t s' : query_inv s -> next_str s = Ok (t, s') -> str_ok t = true /\ query_inv s'.
Proof.
  unfold next_str, query_inv. intros [I1 I2] E. destruct (qd_pending s) as [v|].
  - injection E as <- <-. cbn. auto.
  - destruct (qd_rest s) as [|[k v] r]; [discriminate|]. injection E as <- <-. cbn [forallb pair_ok fst snd qd_pending qd_rest] in *.
    unfold pair_ok in I2 at 1. cbn [fst snd] in I2. rewrite !andb_true_iff in I2. tauto.
Qed.
Lemma query_scalar_sound {A} (parse : ustr -> option A) mk t s v s' : (forall x a, parse x = Some a -> has_ty t (mk a) = true) ->
  query_inv s -> query_scalar parse mk s = Ok (v, s') -> has_ty t v = true /\ query_inv s'.
Proof.
  unfold query_scalar. intros P I E. step E. destruct a as [x s1]. step E. injection E as <- <-. apply some_Ok in E1.
  split; [exact (P _ _ E1) | exact (proj2 (next_str_inv _ _ _ I E0))].
Qed.
Lemma query_enter_inv s s' : query_inv s -> query_enter s = Ok s' -> query_inv s'.
Proof. unfold query_enter. intros I E. step E. injection E as <-. exact I. Qed.
Lemma query_key_sound k d : decodes query_inv k d -> forall s o s', query_inv s -> query_next_key d s = Ok (o, s') -> query_inv s' /\ forall v, o = Some v -> has_ty k v = true.
Proof.
  unfold query_next_key. intros D s o s' I E. destruct (query_end s); [injection E as <- <-; split; [exact I | discriminate]|].
  step E. destruct a as [v s1]. injection E as <- <-. destruct (D _ _ _ I E0) as [Hv I1]. split; [exact I1|]. intros v' [= <-]. exact Hv.
Qed.
Theorem de_query_sound t : wf_ty t = true -> decodes query_inv t (de_query t).
Proof.
  induction t using ty_ind2 with (Q := fun _ => True); try exact I; intros W s v s' I0 E; cbn [de_query] in E; cbn [wf_ty] in W; try discriminate.
  - revert E. apply query_scalar_sound; [reflexivity | exact I0].
  - revert E. apply query_scalar_sound; [|exact I0]. exact (parse_int_in k).
  - revert E. apply query_scalar_sound; [reflexivity | exact I0].
  - revert E. apply query_scalar_sound; [reflexivity | exact I0].
  - step E. destruct a as [x s1]. injection E as <- <-. exact (next_str_inv _ _ _ I0 E0).
  - step E. destruct a as [x s1]. injection E as <- <-. destruct (next_str_inv _ _ _ I0 E0) as [O I1]. split; [exact (utf8_encode_bytes _ O) | exact I1].
  - step E. destruct a as [x s1]. injection E as <- <-. exact (IHt W _ _ _ I0 E0).
  - unfold query_unit in E. step E. destruct a as [x s1]. step E. injection E as <- <-. split; [reflexivity | exact (proj2 (next_str_inv _ _ _ I0 E0))].
  - unfold query_unit in E. step E. destruct a as [x s1]. step E. injection E as <- <-. split; [exact (ustr_eqb_refl n) | exact (proj2 (next_str_inv _ _ _ I0 E0))].
  - step E. destruct a as [x s1]. injection E as <- <-. destruct (IHt W _ _ _ I0 E0) as [O I1]. split; [|exact I1]. cbn [has_ty]. rewrite ustr_eqb_refl. exact O.
  - apply andb_true_iff in W. step E. step E. destruct a0 as [m s1]. injection E as <- <-.
    exact (map_sound query_inv query_next_key _ _ t1 t2 (query_key_sound t1 _ (IHt1 (proj1 W))) (IHt2 (proj2 W)) _ [] _ _ _ (query_enter_inv _ _ I0 E0) eq_refl E1).
  - apply andb_true_iff in W. destruct W as [Wn Wf]. step E. step E. destruct a0 as [vs s1]. injection E as <- <-. cbn [has_ty]. rewrite ustr_eqb_refl, Wn, andb_true_r.
    refine (struct_sound query_inv _ _ _ de_query fs Wn _ _ (wf_map_in _ fs H0 Wf) _ _ _ (query_enter_inv _ _ I0 E0) E1).
    + unfold query_next_field. intros q o q' Iq Eq. destruct (query_end q); [injection Eq as <- <-; exact Iq|]. step Eq. destruct a0 as [x q1]. injection Eq as <- <-. exact (proj2 (next_str_inv _ _ _ Iq E)).
    + unfold query_skip. intros k q q' Iq [= <-]. exact Iq.
Qed.

(** ** The header *)
Lemma dec1_scalar b0 r c r' : dec1 b0 r = (Some c, r') -> is_scalar c = true.
Proof.
  unfold dec1, cont, is_scalar. cbv zeta. intros E. destruct (b0 =? 0xE0) eqn:?, (b0 =? 0xED) eqn:?, (b0 =? 0xF0) eqn:?, (b0 =? 0xF4) eqn:?.
  all:
  repeat match type of E with
  | context [match ?l with [] => _ | _ :: _ => _ end] => destruct l
  | context [if ?x then _ else _] => destruct x eqn:?
  end; try discriminate; injection E as <- <-; lia.
Qed.
Lemma utf8_decode_ok f : forall b s, utf8_decode_f f b = Some s -> str_ok s = true.
Proof.
  induction f as [|f IH]; intros [|b0 r] s E; cbn [utf8_decode_f] in E; try discriminate; try (injection E as <-; reflexivity).
  destruct (dec1 b0 r) as [[c|] r'] eqn:D; [|discriminate]. destruct (utf8_decode_f f r') as [x|] eqn:X; [|discriminate]. injection E as <-.
  unfold str_ok. cbn [forallb]. rewrite (dec1_scalar _ _ _ _ D). exact (IH _ _ X).
Qed.
Lemma utf8_lossy_ok f : forall b, str_ok (utf8_lossy_f f b) = true.
Proof.
  induction f as [|f IH]; intros [|b0 r]; cbn [utf8_lossy_f]; try reflexivity.
  destruct (dec1 b0 r) as [[c|] r'] eqn:D; unfold str_ok; cbn [forallb]; [rewrite (dec1_scalar _ _ _ _ D)|]; exact (IH _).
Qed.
Definition header_inv (s : hde) : Prop := headers_ok (hd_rest s) = true.
Lemma next_bytes_inv s b s' : header_inv s -> next_bytes s = Ok (b, s') -> bytes_ok b = true /\ header_inv s'.
Proof.
  unfold next_bytes, header_inv, headers_ok. intros I E. destruct (hd_rest s) as [|[k v] r] eqn:R; [discriminate|]. assert (I2 := I). cbn [forallb fst snd] in I.
  rewrite !andb_true_iff in I. destruct (hd_value s); injection E as <- <-; [tauto|]. split; [|exact I2]. apply utf8_encode_bytes, lowercase_ok. tauto.
Qed.
Lemma header_str_inv s t s' : header_inv s -> header_str s = Ok (t, s') -> str_ok t = true /\ header_inv s'.
Proof.
  unfold header_str. intros I E. step E. destruct a as [b s1]. step E. injection E as <- <-. apply some_Ok in E1.
  split; [exact (utf8_decode_ok _ _ _ E1) | exact (proj2 (next_bytes_inv _ _ _ I E0))].
Qed.
Lemma header_scalar_sound {A} (parse : ustr -> option A) mk t s v s' : (forall x a, parse x = Some a -> has_ty t (mk a) = true) ->
  header_inv s -> header_scalar parse mk s = Ok (v, s') -> has_ty t v = true /\ header_inv s'.
Proof.
  unfold header_scalar. intros P I E. step E. destruct a as [x s1]. step E. step E. injection E as <- <-. apply some_Ok in E2.
  split; [exact (P _ _ E2) | exact (proj2 (next_bytes_inv _ _ _ I E0))].
Qed.
Lemma header_enter_inv s s' : header_inv s -> header_enter s = Ok s' -> header_inv s'.
Proof. unfold header_enter. intros I E. step E. injection E as <-. exact I. Qed.
Lemma header_key_sound k d : decodes header_inv k d -> forall s o s', header_inv s -> header_next_key d s = Ok (o, s') -> header_inv s' /\ forall v, o = Some v -> has_ty k v = true.
Proof.
  unfold header_next_key. intros D s o s' I E. destruct (header_end s); [injection E as <- <-; split; [exact I | discriminate]|].
  step E. destruct a as [v s1]. injection E as <- <-. destruct (D _ _ _ I E0) as [Hv I1]. split; [exact I1|]. intros v' [= <-]. exact Hv.
Qed.
Theorem de_header_sound t : wf_ty t = true -> decodes header_inv t (de_header t).
Proof.
  induction t using ty_ind2 with (Q := fun _ => True); try exact I; intros W s v s' I0 E; cbn [de_header] in E; cbn [wf_ty] in W; try discriminate.
  - revert E. apply header_scalar_sound; [reflexivity | exact I0].
  - revert E. apply header_scalar_sound; [|exact I0]. exact (parse_int_in k).
  - revert E. apply header_scalar_sound; [reflexivity | exact I0].
  - revert E. apply header_scalar_sound; [reflexivity | exact I0].
  - step E. destruct a as [x s1]. injection E as <- <-. exact (header_str_inv _ _ _ I0 E0).
  - step E. destruct a as [x s1]. injection E as <- <-. exact (next_bytes_inv _ _ _ I0 E0).
  - step E. destruct a as [x s1]. injection E as <- <-. exact (IHt W _ _ _ I0 E0).
  - step E. destruct a as [x s1]. step E. injection E as <- <-. split; [exact (ustr_eqb_refl n) | exact (proj2 (header_str_inv _ _ _ I0 E0))].
  - step E. destruct a as [x s1]. injection E as <- <-. destruct (IHt W _ _ _ I0 E0) as [O I1]. split; [|exact I1]. cbn [has_ty]. rewrite ustr_eqb_refl. exact O.
  - apply andb_true_iff in W. step E. step E. destruct a0 as [m s1]. injection E as <- <-.
    exact (map_sound header_inv header_next_key _ _ t1 t2 (header_key_sound t1 _ (IHt1 (proj1 W))) (IHt2 (proj2 W)) _ [] _ _ _ (header_enter_inv _ _ I0 E0) eq_refl E1).
  - apply andb_true_iff in W. destruct W as [Wn Wf]. step E. step E. destruct a0 as [vs s1]. injection E as <- <-. cbn [has_ty]. rewrite ustr_eqb_refl, Wn, andb_true_r.
    refine (struct_sound header_inv _ _ _ de_header fs Wn _ _ (wf_map_in _ fs H0 Wf) _ _ _ (header_enter_inv _ _ I0 E0) E1).
    + unfold header_next_field. intros q o q' Iq Eq. destruct (header_end q); [injection Eq as <- <-; exact Iq|]. step Eq. destruct a0 as [x q1]. injection Eq as <- <-. exact (proj2 (header_str_inv _ _ _ Iq E)).
    + unfold header_skip. intros k q q' Iq Eq. step Eq. destruct a0 as [b q1]. injection Eq as <-. exact (proj2 (next_bytes_inv _ _ _ Iq E)).
Qed.

(** ** Requests *)
Lemma form_decode_ok s : str_ok (form_decode s) = true.
Proof. unfold form_decode, utf8_lossy. apply utf8_lossy_ok. Qed.
Lemma pairs_ok x : forallb pair_ok (query_pairs x) = true.
Proof.
  unfold query_pairs, form_parse. apply forallb_forall. intros p I. apply in_map_iff in I. destruct I as [q [<- _]].
  destruct (cut_at 61 q) as [k v]. unfold pair_ok. cbn [fst snd]. rewrite !form_decode_ok. reflexivity.
Qed.
Lemma str_key_sound t k v : str_ok k = true -> de_str_key t k = Ok v -> has_ty t v = true.
Proof.
  intros O E. destruct t; cbn [de_str_key] in E; try discriminate.
  - injection E as <-. exact O.
  - injection E as <-. exact (utf8_encode_bytes _ O).
  - destruct (assoc k vs) as [[]|] eqn:A; try discriminate. injection E as <-. cbn [has_ty]. rewrite ustr_eqb_refl, assoc_map, A. reflexivity.
Qed.
Section Request.
Variables (ep : entry_point) (x : url) (hs : list rheader).
Hypotheses (Ux : url_ok x = true) (Hh : headers_ok hs = true).
Let any (_ : rphase) : Prop := True.
Lemma req_value_sound t : wf_ty t = true -> decodes any t (req_value ep x hs t).
Proof.
  intros W p v p' _ E. split; [|exact I]. destruct p; cbn [req_value] in E; [discriminate| | |].
  - step E. step E. destruct a0 as [w s]. injection E as <- <-. unfold pde_new in E0. step E0. injection E0 as <-. apply some_Ok in E.
    refine (proj1 (de_path_sound t W _ _ _ _ E1)). unfold path_inv. cbn [pd_segs]. unfold url_ok in Ux. rewrite E in Ux. exact Ux.
  - step E. destruct a as [w s]. injection E as <- <-. refine (proj1 (de_query_sound t W _ _ _ _ E0)). split; [reflexivity | exact (pairs_ok x)].
  - step E. destruct a as [w s]. injection E as <- <-. exact (proj1 (de_header_sound t W (hde_new hs) _ _ Hh E0)).
Qed.
Lemma request_sound_from t : wf_ty t = true -> decodes any t (de_request_from ep x hs t).
Proof.
  induction t using ty_ind2 with (Q := fun _ => True); try exact I; intros W p v p' _ E; cbn [de_request_from] in E; cbn [wf_ty] in W; try discriminate.
  - step E. destruct a as [w q]. injection E as <- <-. destruct (IHt W _ _ _ I E0) as [Hw _]. split; [|exact I]. cbn [has_ty]. rewrite ustr_eqb_refl. exact Hw.
  - apply andb_true_iff in W. step E. destruct a as [m q]. injection E as <- <-.
    refine (map_sound any (req_next_key t1) _ _ t1 t2 _ (req_value_sound t2 (proj2 W)) _ [] _ _ _ I eq_refl E0).
    intros s o s' _ En. split; [exact I|]. intros k ->. unfold req_next_key in En. step En. destruct a as [[k0|] q0]; [|discriminate]. step En. injection En as <- <-.
    refine (str_key_sound t1 k0 a _ E1). destruct s; cbn [req_next_field resp_next_field] in E; try discriminate; injection E as <- _; reflexivity.
  - apply andb_true_iff in W. destruct W as [Wn Wf]. step E. destruct a as [vs q]. injection E as <- <-. cbn [has_ty]. rewrite ustr_eqb_refl, Wn, andb_true_r.
    refine (struct_sound any _ _ _ (req_value ep x hs) fs Wn _ _ _ _ _ _ I E0); try (intros; exact I).
    intros k t A. apply req_value_sound. apply assoc_In in A. rewrite forallb_forall in Wf. exact (Wf _ A).
Qed.
Theorem request_sound t v : wf_ty t = true -> de_request ep x hs t = Ok v -> has_ty t v = true.
Proof. intros W E. unfold de_request in E. step E. destruct a as [w p]. injection E as <-. exact (proj1 (request_sound_from t W _ _ _ I E0)). Qed.
End Request.

(** ** Responses *)
Section Response.
Variables (code : N) (hs : list rheader).
Hypothesis Hh : headers_ok hs = true.
Let any (_ : DeResponse.sphase) : Prop := True.
Lemma resp_value_sound t : wf_ty t = true -> decodes any t (resp_value code hs t).
Proof.
  intros W p v p' _ E. split; [|exact I]. destruct p; cbn [resp_value] in E; [discriminate| |].
  - step E. injection E as <- <-. destruct t; cbn [de_u16] in E0; try discriminate.
    + destruct (in_range k (Z.of_N code)) eqn:R; [|discriminate]. injection E0 as <-. cbn [has_ty]. rewrite R. destruct k; reflexivity.
    + injection E0 as <-. reflexivity.
    + injection E0 as <-. reflexivity.
  - step E. destruct a as [w s]. injection E as <- <-. exact (proj1 (de_header_sound t W (hde_new hs) _ _ Hh E0)).
Qed.
Lemma resp_struct_sound fuel fs p vs p' : nodup_names (map fst fs) && forallb (fun f => wf_ty (snd f)) fs = true ->
  visit_struct fuel resp_next_field (resp_skip hs) (map (fun f => (fst f, resp_value code hs (snd f))) fs) fs p = Ok (vs, p') ->
  all2b (fun f v => ustr_eqb (fst f) (fst v) && snd f (snd v)) (map (fun f => (fst f, has_ty (snd f))) fs) vs = true.
Proof.
  intros W E. apply andb_true_iff in W. destruct W as [Wn Wf].
  refine (proj1 (struct_sound any _ _ _ (resp_value code hs) fs Wn _ _ _ _ _ _ I E)); try (intros; exact I).
  intros k t A. apply resp_value_sound. apply assoc_In in A. rewrite forallb_forall in Wf. exact (Wf _ A).
Qed.
Lemma response_sound_from t : wf_ty t = true -> decodes any t (de_response_from code hs t).
Proof.
  induction t using ty_ind2 with (Q := fun t => wf_vty t = true -> forall n x p v p', de_variant code hs t n x p = Ok (v, p') ->
      match v with SUnitVariant n' x' | SNewtypeVariant n' x' _ | STupleVariant n' x' _ | SStructVariant n' x' _ => n' = n /\ x' = x | _ => False end /\ vhas_ty t v = true);
    try (intros W p v p' _ E; cbn [de_response_from] in E; cbn [wf_ty] in W; try discriminate); try (intros W m x p v p' E; cbn [de_variant] in E; cbn [wf_vty] in W; try discriminate).
  - step E. destruct a as [w q]. injection E as <- <-. destruct (IHt W _ _ _ I E0) as [Hw _]. split; [|exact I]. cbn [has_ty]. rewrite ustr_eqb_refl. exact Hw.
  - apply andb_true_iff in W. step E. destruct a as [m q]. injection E as <- <-.
    refine (map_sound any (resp_next_key t1) _ _ t1 t2 _ (resp_value_sound t2 (proj2 W)) _ [] _ _ _ I eq_refl E0).
    intros s o s' _ En. split; [exact I|]. intros k ->. unfold resp_next_key in En. step En. destruct a as [[k0|] q0]; [|discriminate]. step En. injection En as <- <-.
    refine (str_key_sound t1 k0 a _ E1). destruct s; cbn [req_next_field resp_next_field] in E; try discriminate; injection E as <- _; reflexivity.
  - step E. destruct a as [vs q]. injection E as <- <-. split; [|exact I]. cbn [has_ty]. rewrite ustr_eqb_refl, (resp_struct_sound _ _ _ _ _ W E0).
    apply andb_true_iff in W. exact (proj1 W).
  - step E. match type of E with match ?x with _ => _ end = _ => destruct x as [d|] eqn:A end; [|discriminate]. split; [|exact I].
    assert (exists t, assoc a vs = Some t /\ d = de_variant code hs t n a) as [t [At ->]].
    { clear - A. induction vs as [|[k t] vs IH]; cbn [map assoc fst snd] in A |- *; [discriminate|]. destruct (ustr_eqb a k) eqn:Ek; [|exact (IH A)].
      apply ustr_eqb_eq in Ek. subst k. injection A as <-. eauto. }
    assert (I1 := assoc_In _ _ _ At). rewrite Forall_forall in H0. rewrite forallb_forall in W. destruct (H0 _ I1 (W _ I1) _ _ _ _ _ E) as [Sh T]. cbn [snd] in T.
    destruct v; try contradiction; destruct Sh as [-> ->]; cbn [has_ty]; rewrite ustr_eqb_refl, assoc_map, At; exact T.
  - injection E as <- <-. auto.
  - step E. destruct a as [w q]. injection E as <- <-. split; [auto|]. exact (proj1 (IHt W _ _ _ I E0)).
  - step E. destruct a as [vs q]. injection E as <- <-. split; [auto|]. cbn [vhas_ty]. rewrite (resp_struct_sound _ _ _ _ _ W E0). apply andb_true_iff in W. exact (proj1 W).
Qed.
Theorem response_sound t v : wf_ty t = true -> de_response code hs t = Ok v -> has_ty t v = true.
Proof. intros W E. unfold de_response in E. step E. destruct a as [w p]. injection E as <-. exact (proj1 (response_sound_from t W _ _ _ I E0)). Qed.
End Response.

(** ** JSON *)
Section JsonSound.
Context `{jsonfloat}.
Definition reads (t : ty) (d : json -> res value) : Prop := forall j v, strings_ok j = true -> d j = Ok v -> has_ty t v = true.
Lemma res_map_Ok {A B} (f : A -> B) r y : res_map f r = Ok y -> exists x, r = Ok x /\ y = f x.
Proof. destruct r; cbn; try discriminate. intros [= <-]. eauto. Qed.
Lemma from_key_sound t : forall s v, str_ok s = true -> from_key t s = Ok v -> has_ty t v = true.
Proof.
  induction t; intros s v O E; cbn [from_key] in E; try discriminate.
  - destruct (parse_int k s) eqn:P; [|discriminate]. injection E as <-. exact (parse_int_in _ _ _ P).
  - destruct s as [|c [|]]; try discriminate. injection E as <-. unfold str_ok in O. cbn [forallb] in O. rewrite andb_true_r in O. exact O.
  - injection E as <-. exact O.
  - injection E as <-. exact (utf8_encode_bytes _ O).
  - apply res_map_Ok in E. destruct E as [w [E ->]]. exact (IHt _ _ O E).
  - apply res_map_Ok in E. destruct E as [w [E ->]]. cbn [has_ty]. rewrite ustr_eqb_refl. exact (IHt _ _ O E).
  - destruct (assoc s vs) as [[]|] eqn:A; try discriminate. injection E as <-. cbn [has_ty]. rewrite ustr_eqb_refl, assoc_map, A. reflexivity.
Qed.
Lemma arr_exact_sound ts : forall decs, Forall2 reads ts decs -> forall l vs, forallb strings_ok l = true -> arr_exact decs l = Ok vs ->
  all2b (fun f v => f v) (map has_ty ts) vs = true.
Proof.
  induction 1 as [|t d ts decs D F IH]; intros [|j l] vs O E; cbn [arr_exact] in E; try discriminate; [injection E as <-; reflexivity|].
  cbn [forallb] in O. apply andb_true_iff in O. step E. step E. injection E as <-. cbn [map all2b]. rewrite (D _ _ (proj1 O) E0). exact (IH _ _ (proj2 O) E1).
Qed.
Lemma all_bytes_sound l : forall b, all_bytes l = Ok b -> bytes_ok b = true.
Proof.
  induction l as [|j l IH]; intros b E; cbn [all_bytes] in E; [injection E as <-; reflexivity|]. step E. step E. injection E as <-.
  unfold bytes_ok. cbn [forallb]. apply andb_true_iff. split; [|exact (IH _ E1)]. unfold byte_of in E0. destruct j; try discriminate.
  destruct (in_range U8 z) eqn:R; [|discriminate]. injection E0 as <-. unfold in_range in R. cbn in R. lia.
Qed.
Lemma json_struct_sound fs j vs : nodup_names (map fst fs) = true -> (forall k t, assoc k fs = Some t -> reads t (from_json t)) -> strings_ok j = true ->
  json_struct (map (fun f => (fst f, from_json (snd f))) fs) fs j = Ok vs ->
  all2b (fun f v => ustr_eqb (fst f) (fst v) && snd f (snd v)) (map (fun f => (fst f, has_ty (snd f))) fs) vs = true.
Proof.
  intros N D O E. destruct j; cbn [json_struct] in E; try discriminate.
  - step E. injection E as <-. rewrite map_map in E0 |- *. cbn [fst snd] in *. cbn [strings_ok] in O.
    assert (forall n t, In (n, t) fs -> reads t (from_json t)) as D2 by (intros n t I; exact (D n t (assoc_first fs n t N I))). clear N D.
    revert l a O E0. induction fs as [|[n t] fs IH]; intros [|j l] vs O E; cbn [map arr_exact] in E; try discriminate; [injection E as <-; reflexivity|].
    cbn [forallb] in O. apply andb_true_iff in O. step E. step E. injection E as <-. cbn [map all2b combine fst snd].
    rewrite ustr_eqb_refl, (D2 n t (or_introl eq_refl) _ _ (proj1 O) E0). exact (IH (fun n t I => D2 n t (or_intror I)) _ _ (proj2 O) E1).
  - step E. refine (fields_sound fs a vs N _ E). clear E. cbn [strings_ok] in O.
    assert (forall k v t, @assoc value k [] = Some v -> assoc k fs = Some t -> has_ty t v = true) as G0 by discriminate. revert G0 E0. generalize (@nil (ustr * value)) as g.
    revert O. induction l as [|[k j] l IH]; intros O g G0 E; cbn [obj_loop] in E; [injection E as <-; exact G0|]. cbn [forallb fst snd] in O. rewrite !andb_true_iff in O.
    rewrite assoc_map in E. destruct (assoc k fs) as [t|] eqn:Ek; cbn [option_map] in E; [|exact (IH (proj2 O) g G0 E)].
    destruct (assoc k g) eqn:Eg; [discriminate|]. step E. refine (IH (proj2 O) _ _ E).
    intros k' v' t' A' T'. destruct (assoc k' g) eqn:Eg'.
    + apply (G0 k' v' t'); [|exact T']. rewrite Eg'. clear - A' Eg'. revert A' Eg'. induction g as [|[x b] g IH]; cbn [app assoc]; [discriminate|].
      destruct (ustr_eqb k' x); [congruence | exact IH].
    + assert (k' = k /\ v' = a0) as [-> ->].
      { clear - A' Eg'. revert A' Eg'. induction g as [|[x b] g IH]; cbn [app assoc].
        - destruct (ustr_eqb k' k) eqn:E; [|discriminate]. apply ustr_eqb_eq in E. intros X _. split; congruence.
        - destruct (ustr_eqb k' x); [discriminate | exact IH]. }
      rewrite Ek in T'. injection T' as <-. exact (D k t Ek _ _ (proj2 (proj1 O)) E0).
Qed.
Lemma arr_all_sound t d : reads t d -> forall l vs, forallb strings_ok l = true -> arr_all d l = Ok vs -> forallb (has_ty t) vs = true.
Proof.
  intros D. induction l as [|j l IH]; intros vs O E; cbn [arr_all] in E; [injection E as <-; reflexivity|]. cbn [forallb] in O. apply andb_true_iff in O.
  step E. step E. injection E as <-. cbn [forallb]. rewrite (D _ _ (proj1 O) E0). exact (IH _ (proj2 O) E1).
Qed.
Lemma obj_all_sound k t d : reads t d -> forall l m m', forallb (fun kv => str_ok (fst kv) && strings_ok (snd kv)) l = true -> entries_ok k t m = true ->
  obj_all (from_key k) d m l = Ok m' -> entries_ok k t m' = true.
Proof.
  intros D. induction l as [|[x j] l IH]; intros m m' O M E; cbn [obj_all] in E; [injection E as <-; exact M|]. cbn [forallb fst snd] in O. rewrite !andb_true_iff in O.
  step E. step E. refine (IH _ _ (proj2 O) _ E). apply insert_ok; [exact (from_key_sound _ _ _ (proj1 (proj1 O)) E0) | exact (D _ _ (proj2 (proj1 O)) E1) | exact M].
Qed.
Theorem from_json_sound t : wf_ty t = true -> reads t (from_json t).
Proof.
  induction t using ty_ind2 with (Q := fun t => wf_vty t = true -> forall n x j v, strings_ok j = true -> from_variant t n x j = Ok v ->
      match v with SUnitVariant n' x' | SNewtypeVariant n' x' _ | STupleVariant n' x' _ | SStructVariant n' x' _ => n' = n /\ x' = x | _ => False end /\ vhas_ty t v = true);
    lazymatch goal with
    | |- _ -> reads _ _ => intros W j v O E; cbn [from_json] in E; cbn [wf_ty] in W; try discriminate
    | |- _ => intros W m x j v O E; cbn [from_variant] in E; cbn [wf_vty] in W; try discriminate
    end.
  - destruct j; try discriminate. injection E as <-. reflexivity.
  - destruct j; try discriminate. destruct (in_range k z) eqn:R; [|discriminate]. injection E as <-. cbn [has_ty]. rewrite R. destruct k; reflexivity.
  - destruct j; try discriminate; [injection E as <-; reflexivity|]. destruct (jparse32 _); [|discriminate]. injection E as <-. reflexivity.
  - destruct j; try discriminate; [injection E as <-; reflexivity|]. destruct (jparse64 _); [|discriminate]. injection E as <-. reflexivity.
  - destruct j as [| | | |[|c [|]]| |]; try discriminate. injection E as <-. cbn [strings_ok str_ok forallb] in O. unfold str_ok in O. cbn [forallb] in O. rewrite andb_true_r in O. exact O.
  - destruct j; try discriminate. injection E as <-. exact O.
  - destruct j; try discriminate; [injection E as <-; exact (utf8_encode_bytes _ O)|]. step E. injection E as <-. exact (all_bytes_sound _ _ E0).
  - destruct j; try (injection E as <-; reflexivity); apply res_map_Ok in E; destruct E as [w [E ->]]; exact (IHt W _ _ O E).
  - destruct j; try discriminate. injection E as <-. reflexivity.
  - destruct j; try discriminate. injection E as <-. exact (ustr_eqb_refl n).
  - apply res_map_Ok in E. destruct E as [w [E ->]]. cbn [has_ty]. rewrite ustr_eqb_refl. exact (IHt W _ _ O E).
  - destruct j; try discriminate. step E. injection E as <-. exact (arr_all_sound t _ (IHt W) _ _ O E0).
  - destruct j; try discriminate. step E. injection E as <-. exact (arr_exact_sound ts _ (Forall2_map _ from_json ts (wf_list _ ts H1 W)) _ _ O E0).
  - destruct j; try discriminate. step E. injection E as <-. cbn [has_ty]. rewrite ustr_eqb_refl. exact (arr_exact_sound ts _ (Forall2_map _ from_json ts (wf_list _ ts H1 W)) _ _ O E0).
  - destruct j; try discriminate. apply andb_true_iff in W. step E. injection E as <-. exact (obj_all_sound t1 t2 _ (IHt2 (proj2 W)) l [] _ O eq_refl E0).
  - apply andb_true_iff in W. destruct W as [Wn Wf]. step E. injection E as <-. cbn [has_ty]. rewrite ustr_eqb_refl, Wn, andb_true_r. exact (json_struct_sound fs j _ Wn (wf_map_in (fun t => reads t (from_json t)) fs H1 Wf) O E0).
  - destruct j as [| | | |s|l|[|[x j] [|]]]; try discriminate.
    + destruct (assoc s vs) as [[]|] eqn:A; try discriminate. injection E as <-. cbn [has_ty]. rewrite ustr_eqb_refl, assoc_map, A. reflexivity.
    + rewrite assoc_map in E. destruct (assoc x vs) as [t|] eqn:A; [|discriminate]. cbn [option_map] in E. cbn [strings_ok forallb fst snd] in O. rewrite !andb_true_iff in O.
      assert (I1 := assoc_In _ _ _ A). rewrite Forall_forall in H1. rewrite forallb_forall in W. destruct (H1 _ I1 (W _ I1) _ _ _ _ (proj2 (proj1 O)) E) as [Sh T]. cbn [snd] in T.
      destruct v; try contradiction; destruct Sh as [-> ->]; cbn [has_ty]; rewrite ustr_eqb_refl, assoc_map, A; exact T.
  - destruct j; try discriminate. injection E as <-. auto.
  - apply res_map_Ok in E. destruct E as [w [E ->]]. split; [auto|]. exact (IHt W _ _ O E).
  - destruct j; try discriminate. step E. injection E as <-. split; [auto|]. exact (arr_exact_sound ts _ (Forall2_map _ from_json ts (wf_list _ ts H1 W)) _ _ O E0).
  - apply andb_true_iff in W. destruct W as [Wn Wf]. step E. injection E as <-. split; [auto|]. cbn [vhas_ty]. rewrite Wn, andb_true_r. exact (json_struct_sound fs j _ Wn (wf_map_in (fun t => reads t (from_json t)) fs H1 Wf) O E0).
Qed.

(** The strings of the tree of a text are strings. *)
Lemma str_ok_cons c s : str_ok (c :: s) = is_scalar c && str_ok s. Proof. reflexivity. Qed.
Lemma skip_ws_ok s : str_ok s = true -> str_ok (skip_ws s) = true.
Proof. induction s as [|c r IH]; [reflexivity|]. intros O. cbn [skip_ws]. destruct (is_ws c); [|exact O]. rewrite str_ok_cons, andb_true_iff in O. exact (IH (proj2 O)). Qed.
Lemma literal_ok w : forall s r, str_ok s = true -> literal w s = Some r -> str_ok r = true.
Proof.
  induction w as [|a w IH]; intros [|b s] r O E; cbn [literal] in E; try discriminate; try (injection E as <-; exact O).
  destruct (a =? b); [|discriminate]. rewrite str_ok_cons, andb_true_iff in O. exact (IH _ _ (proj2 O) E).
Qed.
Lemma span_ok s : forall d r, str_ok s = true -> span_digits s = (d, r) -> str_ok r = true.
Proof.
  induction s as [|c s IH]; intros d r O E; cbn [span_digits] in E; [injection E as _ <-; reflexivity|].
  destruct (is_digit c); [|injection E as _ <-; exact O]. destruct (span_digits s) as [d' r'] eqn:S. injection E as _ <-.
  rewrite str_ok_cons, andb_true_iff in O. exact (IH _ _ (proj2 O) eq_refl).
Qed.
Lemma sign_ok s a r : str_ok s = true -> scan_sign s = (a, r) -> str_ok r = true.
Proof. unfold scan_sign. destruct s as [|c s]; [intros _ [= _ <-]; reflexivity|]. intros O E. destruct (c =? 45); injection E as _ <-; [|exact O]. rewrite str_ok_cons, andb_true_iff in O. tauto. Qed.
Lemma exp_sign_ok s a r : str_ok s = true -> scan_exp_sign s = (a, r) -> str_ok r = true.
Proof. unfold scan_exp_sign. destruct s as [|c s]; [intros _ [= _ <-]; reflexivity|]. intros O E. destruct ((c =? 43) || (c =? 45)); injection E as _ <-; [|exact O]. rewrite str_ok_cons, andb_true_iff in O. tauto. Qed.
Lemma fraction_ok s a r : str_ok s = true -> scan_fraction s = Some (a, r) -> str_ok r = true.
Proof.
  unfold scan_fraction. destruct s as [|c s]; [intros _ [= _ <-]; reflexivity|]. intros O E. destruct (c =? 46); [|injection E as _ <-; exact O].
  rewrite str_ok_cons, andb_true_iff in O. destruct (span_digits s) as [f q] eqn:S. assert (X := span_ok _ _ _ (proj2 O) S). destruct f; [discriminate|]. injection E as _ <-. exact X.
Qed.
Lemma exponent_ok s a r : str_ok s = true -> scan_exponent s = Some (a, r) -> str_ok r = true.
Proof.
  unfold scan_exponent. destruct s as [|c s]; [intros _ [= _ <-]; reflexivity|]. intros O E. destruct ((c =? 101) || (c =? 69)); [|injection E as _ <-; exact O].
  rewrite str_ok_cons, andb_true_iff in O. destruct (scan_exp_sign s) as [g q0] eqn:G. destruct (span_digits q0) as [f q] eqn:S.
  assert (X := span_ok _ _ _ (exp_sign_ok _ _ _ (proj2 O) G) S). destruct f; [discriminate|]. injection E as _ <-. exact X.
Qed.
Lemma number_ok s j r : str_ok s = true -> parse_number s = Some (j, r) -> strings_ok j = true /\ str_ok r = true.
Proof.
  unfold parse_number. intros O E. destruct (scan_sign s) as [sg s1] eqn:S1. destruct (span_digits s1) as [ip s2] eqn:S2. destruct (digits_val ip); [|discriminate].
  destruct (starts_zero ip); [discriminate|]. destruct (scan_fraction s2) as [[fr s3]|] eqn:S3; [|discriminate]. destruct (scan_exponent s3) as [[ex s4]|] eqn:S4; [|discriminate].
  assert (X := exponent_ok _ _ _ (fraction_ok _ _ _ (span_ok _ _ _ (sign_ok _ _ _ O S1) S2) S3) S4).
  assert (forall t, float_or_error t s4 = Some (j, r) -> strings_ok j = true /\ str_ok r = true) as Fl.
  { unfold float_or_error. intros t Ef. destruct (jparse64 t); [|discriminate]. injection Ef as <- <-. auto. }
  destruct fr; [|exact (Fl _ E)]. destruct ex; [|exact (Fl _ E)]. destruct sg.
  - destruct (n <=? _); [|exact (Fl _ E)]. injection E as <- <-. auto.
  - destruct ((1 <=? n) && _); [|exact (Fl _ E)]. injection E as <- <-. auto.
Qed.
Lemma hex_val_lt c n : hex_val c = Some n -> n < 16.
Proof.
  unfold hex_val, is_digit. destruct ((48 <=? c) && (c <=? 57)) eqn:A; [intros [= <-]; lia|]. destruct ((97 <=? c) && (c <=? 102)) eqn:B; [intros [= <-]; lia|].
  destruct ((65 <=? c) && (c <=? 70)) eqn:C; [intros [= <-]; lia | discriminate].
Qed.
Lemma hex4_lt a b c d n : hex4 a b c d = Some n -> n < 65536.
Proof.
  unfold hex4. destruct (hex_val a) eqn:A; [|discriminate]. destruct (hex_val b) eqn:B; [|discriminate]. destruct (hex_val c) eqn:C; [|discriminate]. destruct (hex_val d) eqn:D; [|discriminate].
  intros [= <-]. apply hex_val_lt in A, B, C, D. lia.
Qed.
Lemma escape_ok e x : simple_escape e = Some x -> is_scalar x = true.
Proof.
  unfold simple_escape. intros E. repeat match type of E with context [if ?b then _ else _] => destruct b end; try discriminate; injection E as <-; reflexivity.
Qed.
Lemma cons_ok c o t r : is_scalar c = true -> (forall t' r', o = Some (t', r') -> str_ok t' = true /\ str_ok r' = true) -> cons_str c o = Some (t, r) -> str_ok t = true /\ str_ok r = true.
Proof.
  unfold cons_str. intros C O E. destruct o as [[t' r']|]; [|discriminate]. injection E as <- <-. destruct (O _ _ eq_refl) as [A B]. split; [|exact B]. rewrite str_ok_cons, C. exact A.
Qed.
Lemma parse_str_ok n : forall s t r, (length s <= n)%nat -> str_ok s = true -> parse_str s = Some (t, r) -> str_ok t = true /\ str_ok r = true.
Proof.
  induction n as [|n IH]; intros s t r L O E; (destruct s as [|c s]; [discriminate|]); cbn [length] in L; [lia|].
  cbn [parse_str] in E. rewrite str_ok_cons, andb_true_iff in O. destruct O as [Oc O].
  destruct (c =? 34); [injection E as <- <-; auto|]. destruct (c =? 92).
  - destruct s as [|e s]; [discriminate|]. cbn [length] in L. rewrite str_ok_cons, andb_true_iff in O. destruct O as [Oe O]. destruct (e =? 117).
    + destruct s as [|h1 [|h2 [|h3 [|h4 s]]]]; try discriminate. cbn [length] in L. rewrite !str_ok_cons, !andb_true_iff in O. destruct O as [_ [_ [_ [_ O]]]].
      destruct (hex4 h1 h2 h3 h4) as [m|] eqn:M; [|discriminate]. apply hex4_lt in M. destruct ((56320 <=? m) && (m <? 57344)) eqn:M1; [discriminate|].
      destruct ((55296 <=? m) && (m <? 56320)) eqn:M2.
      * destruct s as [|x [|y [|g1 [|g2 [|g3 [|g4 s]]]]]]; try discriminate. cbn [length] in L. rewrite !str_ok_cons, !andb_true_iff in O. destruct O as [_ [_ [_ [_ [_ [_ O]]]]]].
        destruct ((x =? 92) && (y =? 117)); [|discriminate]. destruct (hex4 g1 g2 g3 g4) as [k|]; [|discriminate]. destruct ((56320 <=? k) && (k <? 57344)) eqn:K; [|discriminate].
        refine (cons_ok _ _ _ _ _ _ E); [unfold is_scalar; lia|]. intros t' r'. apply IH; [lia | exact O].
      * refine (cons_ok _ _ _ _ _ _ E); [unfold is_scalar; lia|]. intros t' r'. apply IH; [lia | exact O].
    + destruct (simple_escape e) as [x|] eqn:X; [|discriminate]. refine (cons_ok _ _ _ _ (escape_ok _ _ X) _ E). intros t' r'. apply IH; [lia | exact O].
  - destruct (c <? 32); [discriminate|]. refine (cons_ok _ _ _ _ Oc _ E). intros t' r'. apply IH; [lia | exact O].
Qed.
Lemma parse_ok f : (forall d s j r, str_ok s = true -> parse_value f d s = Ok (j, r) -> strings_ok j = true /\ str_ok r = true) /\
  (forall d s l r, str_ok s = true -> parse_items f d s = Ok (l, r) -> forallb strings_ok l = true /\ str_ok r = true) /\
  (forall d s l r, str_ok s = true -> parse_members f d s = Ok (l, r) -> forallb (fun kv => str_ok (fst kv) && strings_ok (snd kv)) l = true /\ str_ok r = true).
Proof.
  induction f as [|f [IHv [IHi IHm]]]; [repeat split; discriminate|]. repeat apply conj.
  - intros d s j r O E. cbn [parse_value] in E. apply skip_ws_ok in O. destruct (skip_ws s) as [|c q]; [discriminate|]. assert (Oq := O). rewrite str_ok_cons, andb_true_iff in Oq. destruct Oq as [_ Oq].
    destruct (c =? 110). { destruct (literal (u "ull") q) eqn:L; [|discriminate]. injection E as <- <-. split; [reflexivity | exact (literal_ok _ _ _ Oq L)]. }
    destruct (c =? 116). { destruct (literal (u "rue") q) eqn:L; [|discriminate]. injection E as <- <-. split; [reflexivity | exact (literal_ok _ _ _ Oq L)]. }
    destruct (c =? 102). { destruct (literal (u "alse") q) eqn:L; [|discriminate]. injection E as <- <-. split; [reflexivity | exact (literal_ok _ _ _ Oq L)]. }
    destruct ((c =? 45) || is_digit c). { apply some_Ok in E. exact (number_ok _ _ _ O E). }
    destruct (c =? 34). { step E. destruct a as [x q1]. injection E as <- <-. apply some_Ok in E0. exact (parse_str_ok _ _ _ _ (le_n _) Oq E0). }
    destruct (c =? 91).
    { destruct d as [|[|d]]; try discriminate. apply skip_ws_ok in Oq. destruct (skip_ws q) as [|c' q']; [discriminate|]. destruct (c' =? 93).
      - injection E as <- <-. rewrite str_ok_cons, andb_true_iff in Oq. split; [reflexivity | tauto].
      - step E. destruct a as [l q1]. injection E as <- <-. exact (IHi _ _ _ _ Oq E0). }
    destruct (c =? 123); [|discriminate].
    destruct d as [|[|d]]; try discriminate. apply skip_ws_ok in Oq. destruct (skip_ws q) as [|c' q']; [discriminate|]. destruct (c' =? 125).
    + injection E as <- <-. rewrite str_ok_cons, andb_true_iff in Oq. split; [reflexivity | tauto].
    + step E. destruct a as [l q1]. injection E as <- <-. exact (IHm _ _ _ _ Oq E0).
  - intros d s l r O E. cbn [parse_items] in E. step E. destruct a as [j q]. destruct (IHv _ _ _ _ O E0) as [Oj Oq]. apply skip_ws_ok in Oq.
    destruct (skip_ws q) as [|c q']; [discriminate|]. rewrite str_ok_cons, andb_true_iff in Oq. destruct Oq as [_ Oq]. destruct (c =? 93).
    + injection E as <- <-. cbn [forallb]. rewrite Oj. auto.
    + destruct (c =? 44); [|discriminate]. step E. destruct a as [l1 q1]. injection E as <- <-. cbn [forallb]. rewrite Oj. exact (IHi _ _ _ _ Oq E1).
  - intros d s l r O E. cbn [parse_members] in E. apply skip_ws_ok in O. destruct (skip_ws s) as [|c q]; [discriminate|]. rewrite str_ok_cons, andb_true_iff in O. destruct O as [_ O].
    destruct (c =? 34); [|discriminate]. step E. destruct a as [k q1]. apply some_Ok in E0. destruct (parse_str_ok _ _ _ _ (le_n _) O E0) as [Ok1 O1]. apply skip_ws_ok in O1.
    destruct (skip_ws q1) as [|c1 q2]; [discriminate|]. rewrite str_ok_cons, andb_true_iff in O1. destruct O1 as [_ O1]. destruct (c1 =? 58); [|discriminate].
    step E. destruct a as [j q3]. destruct (IHv _ _ _ _ O1 E1) as [Oj Oq]. apply skip_ws_ok in Oq.
    destruct (skip_ws q3) as [|c2 q4]; [discriminate|]. rewrite str_ok_cons, andb_true_iff in Oq. destruct Oq as [_ Oq]. destruct (c2 =? 125).
    + injection E as <- <-. cbn [forallb fst snd]. rewrite Ok1, Oj. auto.
    + destruct (c2 =? 44); [|discriminate]. step E. destruct a as [l1 q5]. injection E as <- <-. cbn [forallb fst snd]. rewrite Ok1, Oj. exact (IHm _ _ _ _ Oq E2).
Qed.
Theorem json_text_sound t s v : wf_ty t = true -> str_ok s = true -> from_json_str t s = Ok v -> has_ty t v = true.
Proof.
  intros W O E. unfold from_json_str in E. step E. unfold parse_json in E0. step E0. destruct a0 as [j r]. destruct (skip_ws r); [|discriminate]. injection E0 as <-.
  destruct (proj1 (parse_ok _) _ _ _ _ O E1) as [Oj _]. exact (from_json_sound t W _ _ Oj E).
Qed.
Theorem json_bytes_sound t b v : wf_ty t = true -> from_json_slice t b = Ok v -> has_ty t v = true.
Proof.
  intros W E. unfold from_json_slice in E. destruct (utf8_decode b) as [s|] eqn:D; [|discriminate]. exact (json_text_sound t s v W (utf8_decode_ok _ _ _ D) E).
Qed.
End JsonSound.
End Sound.

(** ** A parsed URL's segments are strings. *)
Section Url.
Context `{urlenv}.
Lemma sub_ok (s t : ustr) : incl t s -> str_ok s = true -> str_ok t = true.
Proof. unfold str_ok. rewrite !forallb_forall. auto. Qed.
Lemma drop_incl f s : incl (drop_while f s) s.
Proof. induction s as [|c s IH]; cbn [drop_while]; [intros x I; exact I|]. destruct (f c); [apply incl_tl, IH | apply incl_refl]. Qed.
Lemma trim_incl f s : incl (trim_matches f s) s.
Proof. unfold trim_matches. intros x I. apply in_rev in I. apply drop_incl, in_rev in I. exact (drop_incl f s x I). Qed.
Lemma break_incl f s : incl (fst (break_at f s)) s /\ incl (snd (break_at f s)) s.
Proof.
  induction s as [|c s [A B]]; cbn [break_at]; [split; intros x I; exact I|]. destruct (f c); cbn [fst snd].
  - split; [intros x [] | apply incl_refl].
  - destruct (break_at f s) as [a b]. cbn [fst snd] in *. split; [intros x [<-|I]; [left; reflexivity | right; exact (A x I)] | apply incl_tl, B].
Qed.
Lemma split_incl sep s p : In p (split_on sep s) -> incl p s.
Proof.
  revert p. induction s as [|c s IH]; cbn [split_on]; intros p.
  - intros [<-|[]]. apply incl_refl.
  - destruct (sep c). { intros [<-|I]; [intros x [] | apply incl_tl, (IH p I)]. }
    destruct (split_on sep s) as [|q qs]. { intros [<-|[]] x [<-|[]]. left. reflexivity. }
    intros [<-|I]; [|apply incl_tl, (IH p (or_intror I))]. intros x [<-|I]; [left; reflexivity | right; exact (IH q (or_introl eq_refl) x I)].
Qed.
Lemma encode_ok set s : str_ok s = true -> str_ok (pct_encode set s) = true.
Proof.
  induction s as [|c s IH]; [reflexivity|]. rewrite str_ok_cons, andb_true_iff. intros [C O]. unfold pct_encode, str_ok in *. cbn [flat_map]. rewrite forallb_app. apply andb_true_iff.
  split; [|exact (IH O)]. unfold pct_char. destruct (is_ascii c && negb (set c)); [cbn [forallb]; rewrite C; reflexivity|].
  pose proof (utf8_char_bytes c C) as B. revert B. unfold bytes_ok. generalize (utf8_char c). intros l. induction l as [|b l IHl]; [reflexivity|]. cbn [forallb flat_map pct_byte app].
  rewrite andb_true_iff. intros [Lb Ll]. rewrite (IHl Ll). pose proof (hexdig_range (b / 16) ltac:(lia)). pose proof (hexdig_range (b mod 16) ltac:(lia)). unfold is_scalar. lia.
Qed.
Lemma path_loop_ok pieces : forall acc, forallb str_ok acc = true -> forallb str_ok pieces = true -> forallb str_ok (path_loop acc pieces) = true.
Proof.
  assert (forall l : list ustr, forallb str_ok l = true -> forallb str_ok (removelast l) = true) as R.
  { induction l as [|x l IH]; [reflexivity|]. cbn [removelast forallb]. rewrite andb_true_iff. intros [A B]. destruct l; [reflexivity|]. cbn [forallb]. rewrite A. exact (IH B). }
  induction pieces as [|p ps IH]; intros acc A P; cbn [path_loop]; [exact A|]. cbn [forallb] in P. apply andb_true_iff in P. destruct P as [Op P]. apply IH; [|exact P].
  destruct (seg_dotdot _); [|destruct (seg_dot _)]; rewrite forallb_app, andb_true_iff; (split; [auto|]).
  - destruct ps; reflexivity.
  - destruct ps; reflexivity.
  - cbn [forallb]. rewrite encode_ok by exact Op. reflexivity.
Qed.
Lemma path_query_ok sp s : str_ok s = true -> url_ok (parse_path_query sp s) = true.
Proof.
  intros O. unfold parse_path_query. pose proof (proj1 (break_incl path_end s)) as B. destruct (break_at path_end s) as [p r]. cbn [fst] in B. unfold url_ok. cbn [u_path].
  apply path_loop_ok; [reflexivity|]. apply forallb_forall. intros q I. apply (sub_ok s); [|exact O]. intros c J. exact (B c (split_incl _ _ _ I c J)).
Qed.
Lemma after_ok sp s x : str_ok s = true -> after_slashes sp s = Some x -> url_ok x = true.
Proof.
  intros O E. unfold after_slashes in E. match type of E with context [break_at ?f s] => pose proof (proj2 (break_incl f s)) as B; destruct (break_at f s) as [a r] end. cbn [snd] in B.
  destruct (host_ok sp a); [|discriminate]. destruct r as [|c r]; [injection E as <-; destruct sp; reflexivity|].
  destruct ((c =? 47) || (sp && (c =? 92))); injection E as <-; [|destruct sp; reflexivity]. apply path_query_ok. apply (sub_ok s); [|exact O]. intros y J. apply B. right. exact J.
Qed.
Lemma relative_ok s x : str_ok s = true -> parse_relative s = Some x -> url_ok x = true.
Proof.
  intros O E. unfold parse_relative in E. destruct s as [|c r]; [injection E as <-; reflexivity|]. destruct (path_end c); [injection E as <-; reflexivity|].
  assert (Or := O). rewrite str_ok_cons, andb_true_iff in Or. destruct Or as [_ Or]. destruct (is_slash c); [|injection E as <-; exact (path_query_ok true _ O)].
  destruct r as [|d r]; [injection E as <-; exact (path_query_ok true _ Or)|]. destruct (is_slash d); [|injection E as <-; exact (path_query_ok true _ Or)].
  rewrite str_ok_cons, andb_true_iff in Or. refine (after_ok true _ _ _ E). destruct (slash_prefix && _ && _); [tauto|]. exact (sub_ok _ _ (drop_incl _ r) (proj2 Or)).
Qed.
Lemma scheme_incl s : forall a b, scheme_rest s = Some (a, b) -> incl b s.
Proof.
  induction s as [|c s IH]; intros a b E; cbn [scheme_rest] in E; [discriminate|]. destruct (c =? 58); [injection E as _ <-; apply incl_tl, incl_refl|].
  destruct (scheme_char c); [|discriminate]. destruct (scheme_rest s) as [[a' b']|] eqn:S; [|discriminate]. injection E as _ <-. apply incl_tl, (IH _ _ eq_refl).
Qed.
Theorem parse_url_ok t x : (forall r p q, str_ok r = true -> file_url r = Some (p, q) -> forallb str_ok p = true) -> str_ok t = true -> parse_url t = Some x -> url_ok x = true.
Proof.
  intros Fi O E. unfold parse_url in E. set (s := strip_tabs (trim_matches c0_or_space t)) in *.
  assert (str_ok s = true) as Os. { apply (sub_ok t); [|exact O]. intros c I. unfold s, strip_tabs in I. apply filter_In in I. exact (trim_incl _ _ _ (proj1 I)). } clearbody s. clear t O.
  destruct (parse_scheme s) as [[sch rest]|] eqn:P; [|exact (relative_ok _ _ Os E)].
  assert (str_ok rest = true) as Or.
  { apply (sub_ok s); [|exact Os]. unfold parse_scheme in P. destruct s as [|c r]; [discriminate|]. destruct (alpha c); [|discriminate].
    destruct (scheme_rest r) as [[a b]|] eqn:S; [|discriminate]. injection P as _ <-. apply incl_tl, (scheme_incl _ _ _ S). }
  destruct (ustr_eqb sch (u "file")). { destruct (file_url rest) as [[p q]|] eqn:Fe; [|discriminate]. injection E as <-. exact (Fi _ _ _ Or Fe). }
  destruct (ustr_eqb sch (u "http")).
  { destruct (starts_slashes rest); [|exact (relative_ok _ _ Or E)]. exact (after_ok _ _ _ (sub_ok _ _ (drop_incl _ rest) Or) E). }
  destruct (smem sch _). { exact (after_ok _ _ _ (sub_ok _ _ (drop_incl _ rest) Or) E). }
  destruct rest as [|c r]; [injection E as <-; reflexivity|]. destruct (c =? 47); [|injection E as <-; reflexivity].
  rewrite str_ok_cons, andb_true_iff in Or. destruct Or as [_ Or]. destruct r as [|d r]; [injection E as <-; exact (path_query_ok false _ Or)|].
  destruct (d =? 47); [|injection E as <-; exact (path_query_ok false _ Or)]. rewrite str_ok_cons, andb_true_iff in Or. exact (after_ok _ _ _ (proj2 Or) E).
Qed.
End Url.

(** ** Handlers see only values of their types. *)
Section Routes.
Context {A B : Type} (f : A -> B).
Let on (g : method * entry_point * A) : method * entry_point * B := (fst g, f (snd g)).
Lemma accepted_map gs : forall tb, fold_left accept (map on gs) (map on tb) = map on (fold_left accept gs tb).
Proof.
  induction gs as [|[[m ep] h] gs IH]; intros tb; [reflexivity|]. cbn [map fold_left]. rewrite <- IH. f_equal. unfold accept, on at 2 3 4. cbn [fst snd].
  assert (forall tb, taken (map on tb) m ep = taken tb m ep) as ->. { unfold taken. induction tb0 as [|[[m' ep'] h'] tb0 IH0]; [reflexivity|]. cbn [map existsb on fst snd]. rewrite IH0. reflexivity. }
  destruct (taken tb m ep); [reflexivity|]. rewrite map_app. reflexivity.
Qed.
Lemma const_map s tb : with_const s (map on tb) = map on (with_const s tb).
Proof. unfold with_const. induction tb as [|[[m ep] h] tb IH]; [reflexivity|]. cbn [map flat_map]. rewrite map_app, IH. f_equal. unfold on. cbn [fst snd]. destruct ep as [|[c|] ep]; try reflexivity. destruct (ustr_eqb s c); reflexivity. Qed.
Lemma var_map tb : with_var (map on tb) = map on (with_var tb).
Proof. unfold with_var. induction tb as [|[[m ep] h] tb IH]; [reflexivity|]. cbn [map flat_map]. rewrite map_app, IH. f_equal. unfold on. cbn [fst snd]. destruct ep as [|[c|] ep]; reflexivity. Qed.
Lemma ends_map m tb : ends_here m (map on tb) = map f (ends_here m tb).
Proof. unfold ends_here. induction tb as [|[[m' ep] h] tb IH]; [reflexivity|]. cbn [map flat_map]. rewrite map_app, IH. f_equal. unfold on. cbn [fst snd]. destruct ep; [|reflexivity]. destruct (method_eqb m m'); reflexivity. Qed.
Lemma route_map m segs : forall tb, route_spec (map on tb) m segs = match route_spec tb m segs with inl h => inl (f h) | inr n => inr n end.
Proof.
  induction segs as [|s segs IH]; intros tb; cbn [route_spec].
  - rewrite ends_map. destruct (ends_here m tb); reflexivity.
  - rewrite const_map, var_map, !IH. destruct (with_const s tb); [|reflexivity]. destruct (with_var tb); reflexivity.
Qed.
End Routes.
Lemma route_in {A} m segs : forall (tb : list (method * entry_point * A)) h, route_spec tb m segs = inl h -> In h (map snd tb).
Proof.
  induction segs as [|s segs IH]; intros tb h E; cbn [route_spec] in E.
  - destruct (ends_here m tb) as [|h' l] eqn:D; [discriminate|]. injection E as ->. assert (In h (ends_here m tb)) as I by (rewrite D; left; reflexivity).
    unfold ends_here in I. apply in_flat_map in I. destruct I as [[[m' ep] h2] [I J]]. destruct ep; [|contradiction]. destruct (method_eqb m m'); [|contradiction]. destruct J as [<-|[]].
    apply in_map_iff. eexists. split; [|exact I]. reflexivity.
  - assert (In h (map snd (with_const s tb)) \/ In h (map snd (with_var tb))) as [I|I].
    { destruct (with_const s tb); [|left; exact (IH _ _ E)]. destruct (with_var tb); [discriminate | right; exact (IH _ _ E)]. }
    + apply in_map_iff in I. destruct I as [g [<- I]]. unfold with_const in I. apply in_flat_map in I. destruct I as [[[m' ep] h2] [I J]]. destruct ep as [|[c|] ep]; try contradiction.
      destruct (ustr_eqb s c); [|contradiction]. destruct J as [<-|[]]. apply in_map_iff. eexists. split; [|exact I]. reflexivity.
    + apply in_map_iff in I. destruct I as [g [<- I]]. unfold with_var in I. apply in_flat_map in I. destruct I as [[[m' ep] h2] [I J]]. destruct ep as [|[c|] ep]; try contradiction.
      destruct J as [<-|[]]. apply in_map_iff. eexists. split; [|exact I]. reflexivity.
Qed.
Lemma accepted_incl {A} (gs : list (method * entry_point * A)) : incl (accepted gs) gs.
Proof.
  unfold accepted. assert (forall tb, incl (fold_left accept gs tb) (tb ++ gs)) as X; [|exact (X [])]. induction gs as [|g gs IH]; intros tb; cbn [fold_left]; [rewrite app_nil_r; apply incl_refl|].
  intros x I. apply IH in I. unfold accept in I. destruct (taken tb _ _); rewrite ?in_app_iff in *; cbn [In] in *; tauto.
Qed.

Section Handlers.
Context `{floatlib} `{urlenv} {Conn R : Type}.
Variable explain : request Conn -> ekind -> ustr * option ustr * option (list ustr).
Variable reason : status -> ustr.
Variable ln : link Conn.
Theorem handlers_typed (ps : list (hproc Conn R)) other r :
  (forall t p q, str_ok t = true -> file_url t = Some (p, q) -> forallb str_ok p = true) -> Forall (fun p => wf_ty (hp_req p) = true) ps -> request_ok r = true ->
  reply_to explain reason ln (map (guarded other) ps) r = reply_to explain reason ln ps r.
Proof.
  intros Fi W O. unfold request_ok in O. apply andb_true_iff in O. destruct O as [Ot Oh]. unfold reply_to. destruct (parse_url (q_target r)) as [[[segs|] q]|] eqn:P; try reflexivity.
  rewrite map_map. cbn [hp_method hp_entry guarded].
  pose proof (route_map (guarded other) (q_method r) segs (accepted (map (fun p => (hp_method p, hp_entry p, p)) ps))) as M. unfold accepted in M at 1. rewrite <- accepted_map in M. cbn [map] in M.
  rewrite map_map in M. cbn [fst snd] in M. unfold accepted at 1. rewrite M. clear M.
  destruct (route_spec (accepted _) (q_method r) segs) as [p|[]] eqn:E; try reflexivity. cbn [hp_entry hp_req hp_body hp_call guarded].
  assert (In p ps) as I. { apply route_in in E. apply in_map_iff in E. destruct E as [g [<- I]]. apply accepted_incl in I. apply in_map_iff in I. destruct I as [p' [<- I]]. exact I. }
  rewrite Forall_forall in W. destruct (de_request (hp_entry p) (mkUrl (Some segs) q) (q_headers r) (hp_req p)) as [v| | |] eqn:D; try reflexivity.
  rewrite (request_sound _ _ _ (parse_url_ok _ _ Fi Ot P) Oh _ _ (W p I) D). reflexivity.
Qed.
Theorem responses_typed (w : wire Conn) (p : proc) req body connect log v b c : wf_ty (pr_resp p) = true ->
  (forall c x, settle (w_head w c) = Comes x -> headers_ok (r_headers x) = true) -> (forall r x, settle (w_body w r) = Comes x -> r_headers (fst x) = r_headers r) ->
  sequential w p req body connect = (log, Yields v b c) -> has_ty (pr_resp p) v = true.
Proof.
  intros W Hh Hb E. unfold sequential, after in E. destruct (settle connect) as [c0| |]; try discriminate. destruct (encode_request _ _ _); try discriminate.
  unfold doing in E. injection E as _ E. destruct (settle (w_write w _ _ _)) as [c1| |]; try discriminate. cbn [snd] in E. destruct (settle (w_head w c1)) as [r| |] eqn:Hd; try discriminate. cbn [snd fst] in E.
  assert (forall r b0, headers_ok (r_headers r) = true -> snd (decoding p r b0) = Yields v b c -> has_ty (pr_resp p) v = true) as D.
  { unfold decoding. intros r0 b0 Or Ed. destruct (de_response _ _ _) as [x| | |] eqn:Ex; try discriminate. injection Ed as -> _ _. exact (response_sound _ _ Or _ _ W Ex). }
  destruct (pr_method p); try exact (D _ _ (Hh _ _ Hd) E); cbn [snd fst] in E; destruct (settle (w_body w r)) as [[r1 b1]| |] eqn:Bd; try discriminate;
    (refine (D r1 b1 _ E); rewrite <- (Hh _ _ Hd); f_equal; exact (Hb _ _ Bd)).
Qed.
Theorem driven_typed (w : wire Conn) (p : proc) req body connect n log v b c : wf_ty (pr_resp p) = true ->
  (forall c x, settle (w_head w c) = Comes x -> headers_ok (r_headers x) = true) -> (forall r x, settle (w_body w r) = Comes x -> r_headers (fst x) = r_headers r) ->
  drive w p n (call_new (req, body) connect) = (log, Ok (Done v b c)) -> has_ty (pr_resp p) v = true.
Proof.
  intros W Hh Hb E. pose proof (call_steps w p req body connect n) as S. rewrite E in S. destruct S as [S1 S2]. cbn [reads_as] in S2.
  refine (responses_typed w p req body connect log v b c W Hh Hb _). destruct (sequential w p req body connect). cbn [fst snd] in *. congruence.
Qed.
Theorem answers_typed (ps : list (hproc Conn R)) other r :
  (forall t p q, str_ok t = true -> file_url t = Some (p, q) -> forallb str_ok p = true) -> Forall (fun p => wf_ty (hp_req p) = true) ps -> request_ok r = true ->
  reads_reply (on_request explain reason ln (build (registrations (map (guarded other) ps))) r) = reads_reply (on_request explain reason ln (build (registrations ps)) r).
Proof. intros Fi W O. rewrite !on_request_is. exact (handlers_typed ps other r Fi W O). Qed.
End Handlers.
