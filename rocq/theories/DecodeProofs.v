(** * Requests and responses are decoded exactly as their parts mean (C55, C56). *)
From Verif Require Import Base Utf8 Decimal DepUrl Serde Status Procedure DePath DeQuery DeHeader DeRequest DeResponse.
From Verif Require Import ScalarSpec PathSpec FieldSpec JsonTypeSpec DecodeSpec ValueInd TypeSpec PathProofs QueryProofs HeaderProofs RequestTrip ResponseTrip TypeProofs JsonType.
Open Scope N_scope.

Section DecodeProofs.
Context `{floatlib}.

(** ** No error but [Invalid] without self-describing types *)
Definition mild {A} (r : res A) : Prop := r <> Err Other.
Lemma mild_bind {A B} (r : res A) (f : A -> res B) : mild r -> (forall a, r = Ok a -> mild (f a)) -> mild (bind r f).
Proof. unfold mild. destruct r as [a|k| |]; cbn [bind]; intros M F; [apply F; reflexivity | intros [= ->]; apply M; reflexivity | discriminate | discriminate]. Qed.
Lemma mild_ok_or {A} (o : option A) : mild (ok_or_invalid o).
Proof. destruct o; discriminate. Qed.
Lemma mild_assert b : mild (assert_invalid b).
Proof. destruct b; discriminate. Qed.
Ltac mild := repeat first [ discriminate | apply mild_ok_or | apply mild_assert | match goal with |- mild (bind _ _) => apply mild_bind; [|intros ? ?] end
  | match goal with x : _ * _ |- _ => destruct x end ].

Section Visitors.
  Context {St : Type}.
  Variable next : (St -> res (value * St)) -> St -> res (option value * St).
  Hypothesis next_mild : forall d, (forall s, mild (d s)) -> forall s, mild (next d s).
  Lemma tuple_mild : forall ds, Forall (fun d => forall s, mild (d s)) ds -> forall s, mild (visit_tuple next ds s).
  Proof.
    induction 1 as [|d ds D _ IH]; intros s; cbn [visit_tuple]; [discriminate|]. apply mild_bind; [apply next_mild, D|]. intros [[v|] s'] _; [|discriminate].
    apply mild_bind; [apply IH|]. intros [? ?] _. discriminate.
  Qed.
  Lemma seq_mild d : (forall s, mild (d s)) -> forall f s, mild (visit_seq f next d s).
  Proof.
    intros D. induction f as [|f IH]; intros s; cbn [visit_seq]; [discriminate|]. apply mild_bind; [apply next_mild, D|]. intros [[v|] s'] _; [|discriminate].
    apply mild_bind; [apply IH|]. intros [? ?] _. discriminate.
  Qed.
  Lemma map_mild dk dv : (forall s, mild (dk s)) -> (forall s, mild (dv s)) -> forall f m s, mild (visit_map f next dk dv m s).
  Proof.
    intros Dk Dv. induction f as [|f IH]; intros m s; cbn [visit_map]; [discriminate|]. apply mild_bind; [apply next_mild, Dk|]. intros [[k|] s'] _; [|discriminate].
    apply mild_bind; [apply Dv|]. intros [? ?] _. apply IH.
  Qed.
End Visitors.
Lemma fields_mild fs got : mild (struct_fields fs got).
Proof.
  induction fs as [|[n t] fs IH]; cbn [struct_fields]; [discriminate|]. apply mild_bind; [destruct (assoc n got); [discriminate|]; destruct (is_option t); discriminate|].
  intros v _. apply mild_bind; [exact IH | discriminate].
Qed.
Lemma struct_mild {St} (next : St -> res (option ustr * St)) skip dec fs :
  (forall s, mild (next s)) -> (forall k s, mild (skip k s)) -> Forall (fun f => forall s, mild (dec (snd f) s)) fs ->
  forall f s, mild (visit_struct f next skip (map (fun f => (fst f, dec (snd f))) fs) fs s).
Proof.
  intros Hn Hs D f s. unfold visit_struct. apply mild_bind; [|intros [? ?] _; apply mild_bind; [apply fields_mild | discriminate]].
  generalize (@nil (ustr * value)) as got. revert s.
  assert (DA : forall k d, assoc k (map (fun f => (fst f, dec (snd f))) fs) = Some d -> forall s, mild (d s)).
  { clear - D. induction D as [|[n t] fs M _ IH]; intros k d; cbn [map assoc fst snd]; [discriminate|].
    destruct (ustr_eqb k n); [intros [= <-]; exact M | apply IH]. }
  induction f as [|f IH]; intros s got; cbn [struct_loop]; [discriminate|]. apply mild_bind; [apply Hn|]. intros [[k|] s'] _; [|discriminate].
  destruct (assoc k (map _ fs)) as [d|] eqn:A.
  - destruct (assoc k got); [discriminate|]. apply mild_bind; [apply (DA _ _ A)|]. intros [? ?] _. apply IH.
  - apply mild_bind; [apply Hs|]. intros s'' _. apply IH.
Qed.

Lemma next_value_mild s : mild (next_value s).
Proof.
  unfold next_value. apply mild_bind; [|intros [? [? [? ?]]] _; discriminate]. generalize (pd_segs s), (pd_free s).
  induction (pd_rest s) as [|sg r IH]; intros segs free; cbn [next_value_loop]; [discriminate|]. destruct segs as [|s0 segs]; [discriminate|].
  destruct (as_option sg); [mild; apply IH|]. destruct free; discriminate.
Qed.
Lemma percent_decode_mild e : mild (percent_decode e).
Proof.
  remember (length e) as n eqn:L. assert (Le : (length e <= n)%nat) by lia. clear L. revert e Le.
  induction n as [|n IH]; intros e L; destruct e as [|c e]; cbn in L; try discriminate; try lia.
  cbn [percent_decode]. destruct (c =? 37).
  - destruct e as [|h0 [|h1 e]]; try discriminate. cbn in L. mild. apply IH. lia.
  - mild. apply IH. lia.
Qed.
Lemma path_next_mild d : (forall s, mild (d s)) -> forall s, mild (path_next d s).
Proof.
  intros D s. unfold path_next. destruct (pd_free s); [|mild; apply D]. apply mild_bind; [|discriminate]. unfold pde_finish. apply mild_bind; [|discriminate].
  generalize (pd_segs s). induction (pd_rest s) as [|sg r IH]; intros segs; cbn [finish_loop]; [discriminate|]. mild. destruct segs; mild. apply IH.
Qed.
Lemma wf_each ts : forallb wf_ty ts = true -> forall (P : ty -> Prop), Forall (fun t => wf_ty t = true -> P t) ts -> Forall P ts.
Proof. intros W P F. apply (wf_list P ts F W). Qed.
Lemma wf_snd (fs : list (ustr * ty)) : forallb (fun f => wf_ty (snd f)) fs = true -> forall (P : ty -> Prop), Forall (fun f => wf_ty (snd f) = true -> P (snd f)) fs -> Forall (fun f => P (snd f)) fs.
Proof. induction 2 as [|f fs I F IH]; constructor; cbn [forallb] in *; apply andb_prop in H0; [apply I, H0 | apply IH, H0]. Qed.
Lemma de_path_mild t : wf_ty t = true -> forall s, mild (de_path t s).
Proof.
  assert (SC : forall A (p : ustr -> option A) mk s, mild (path_scalar p mk s)).
  { intros. unfold path_scalar. apply mild_bind; [apply next_value_mild|]. intros [? ?] _. apply mild_bind; [apply percent_decode_mild|]. intros ? _. mild. }
  induction t using ty_ind2 with (Q := fun _ => True); try exact I; intros W s; cbn [de_path]; cbn [wf_ty] in W; try discriminate; try apply SC.
  - apply mild_bind; [apply next_value_mild|]. intros [? ?] _. apply mild_bind; [apply percent_decode_mild | discriminate].
  - mild. apply IHt, W.
  - unfold path_enter. mild. apply seq_mild; [exact path_next_mild | apply IHt, W].
  - unfold path_enter. mild. apply tuple_mild; [exact path_next_mild|]. apply Forall_map. apply (wf_each ts W _ H0).
  - unfold path_enter. mild. apply tuple_mild; [exact path_next_mild|]. apply Forall_map. apply (wf_each ts W _ H0).
Qed.

Lemma next_str_mild s : mild (next_str s).
Proof. unfold next_str. destruct (qd_pending s); [discriminate|]. destruct (qd_rest s) as [|[? ?] ?]; discriminate. Qed.
Lemma de_query_mild t : wf_ty t = true -> forall s, mild (de_query t s).
Proof.
  induction t using ty_ind2 with (Q := fun _ => True); try exact I; intros W s; cbn [de_query]; cbn [wf_ty] in W; try discriminate;
    unfold query_scalar, query_unit, query_enter; mild; try apply next_str_mild; auto.
  - apply andb_prop in W. apply map_mild; [|apply IHt1, W|apply IHt2, W]. intros d D s1. unfold query_next_key. destruct (query_end s1); mild. apply D.
  - apply andb_prop in W. apply struct_mild; [| discriminate |apply (wf_snd fs (proj2 W) (fun t => forall s, mild (de_query t s)) H0)].
    intros s1. unfold query_next_field. destruct (query_end s1); mild. apply next_str_mild.
Qed.
Lemma next_bytes_mild s : mild (next_bytes s).
Proof. unfold next_bytes. destruct (hd_rest s) as [|[? ?] ?]; [discriminate|]. destruct (hd_value s); discriminate. Qed.
Lemma de_header_mild t : wf_ty t = true -> forall s, mild (de_header t s).
Proof.
  induction t using ty_ind2 with (Q := fun _ => True); try exact I; intros W s; cbn [de_header]; cbn [wf_ty] in W; try discriminate;
    unfold header_scalar, header_str, header_enter; mild; try apply next_bytes_mild; auto.
  - apply andb_prop in W. apply map_mild; [|apply IHt1, W|apply IHt2, W]. intros d D s1. unfold header_next_key. destruct (header_end s1); mild. apply D.
  - apply andb_prop in W. apply struct_mild; [| |apply (wf_snd fs (proj2 W) (fun t => forall s, mild (de_header t s)) H0)].
    + intros s1. unfold header_next_field, header_str. destruct (header_end s1); mild. apply next_bytes_mild.
    + intros k s1. unfold header_skip. mild. apply next_bytes_mild.
Qed.
Lemma str_key_mild t k : mild (de_str_key t k).
Proof. destruct t; cbn; try discriminate. destruct (assoc k vs) as [[]|]; discriminate. Qed.
Lemma req_value_mild ep x hs t : wf_ty t = true -> forall p, mild (req_value ep x hs t p).
Proof.
  intros W []; cbn [req_value]; unfold pde_new; mild; [apply de_path_mild, W | apply de_query_mild, W | apply de_header_mild, W].
Qed.
Lemma de_request_mild ep x hs t : wf_ty t = true -> forall p, mild (de_request_from ep x hs t p).
Proof.
  induction t using ty_ind2 with (Q := fun _ => True); try exact I; intros W p; cbn [de_request_from]; cbn [wf_ty] in W; try discriminate; mild; auto.
  - apply andb_prop in W. apply map_mild; [|discriminate|apply req_value_mild, W].
    intros d _ []; unfold req_next_key; cbn [req_next_field bind]; mild; apply str_key_mild.
  - apply andb_prop in W. apply struct_mild; [intros []; discriminate | |].
    + intros k []; cbn [req_skip]; unfold pde_new; mild; apply next_bytes_mild.
    + apply Forall_forall. intros f If. apply req_value_mild. apply (proj1 (forallb_forall _ _) (proj2 W) f If).
Qed.
Lemma resp_value_mild code hs t : wf_ty t = true -> forall p, mild (resp_value code hs t p).
Proof.
  intros W []; cbn [resp_value]; mild; [|apply de_header_mild, W]. destruct t; cbn; try discriminate. destruct (in_range _ _); discriminate.
Qed.
Lemma resp_struct_mild code hs fs : forallb (fun f => wf_ty (snd f)) fs = true -> forall p,
  mild (visit_struct 4 resp_next_field (resp_skip hs) (map (fun f => (fst f, resp_value code hs (snd f))) fs) fs p).
Proof.
  intros W p. apply struct_mild; [intros []; discriminate | |].
  - intros k []; cbn [resp_skip]; mild; apply next_bytes_mild.
  - apply Forall_forall. intros f If. apply resp_value_mild. apply (proj1 (forallb_forall _ _) W f If).
Qed.
Lemma code_str_mild code : mild (status_code_to_str code).
Proof. unfold status_code_to_str. induction code_table as [|[c n] l IH]; cbn; [discriminate|]. destruct (code =? c); [discriminate | exact IH]. Qed.
Lemma de_response_mild code hs t : wf_ty t = true -> forall p, mild (de_response_from code hs t p).
Proof.
  revert t. apply (ty_ind2 (fun t => wf_ty t = true -> forall p, mild (de_response_from code hs t p)) (fun t => wf_vty t = true -> forall n x p, mild (de_variant code hs t n x p)));
    try (intros; cbn [wf_ty wf_vty] in *; discriminate).
  - intros n t IH W p. cbn [de_response_from]. mild. apply IH, W.
  - intros k v _ _ W p. cbn [de_response_from]. cbn [wf_ty] in W. mild. apply andb_prop in W. apply map_mild; [|discriminate|apply resp_value_mild, W].
    intros d _ []; unfold resp_next_key; cbn [resp_next_field bind]; mild; apply str_key_mild.
  - intros n fs _ W p. cbn [de_response_from]. cbn [wf_ty] in W. mild. apply andb_prop in W. apply resp_struct_mild, W.
  - intros n vs IH W p. rewrite from_enum. cbn [wf_ty] in W. apply mild_bind; [apply code_str_mild|]. intros name _.
    induction IH as [|[x t] vs M _ IHv]; [discriminate|]. cbn [map assoc fst snd forallb] in *. apply andb_prop in W.
    destruct (ustr_eqb name x); [apply M, W | apply IHv, W].
  - intros t IH W n x p. rewrite variant_newtype. mild. apply IH, W.
  - intros fs _ W n x p. cbn [de_variant]. cbn [wf_vty] in W. mild. apply andb_prop in W. apply resp_struct_mild, W.
Qed.
Lemma refuses_of {A} (r : res A) : safe r -> mild r -> refuses r.
Proof. destruct r as [a|[]| |]; cbn; intros S M; try contradiction; [left; eauto | right; reflexivity]. Qed.
End DecodeProofs.
