(** * The order of headers, query parameters and members of objects does not matter (C79). *)
From Coq Require Import Sorting.Permutation.
From Verif Require Import Base Utf8 Decimal DepUrl Serde Status Procedure SerHeader DePath DeQuery DeHeader DeRequest DeResponse Json JsonText JsonDe Problem.
From Verif Require Import ScalarSpec PathSpec FieldSpec JsonTypeSpec StatusSpec DecodeSpec ProblemSpec ProblemExactSpec TypeSpec FieldProofs HeaderProofs ValueInd JsonSpec JsonSound ProblemExact JsonType DecodeProofs DecodeExact OrderSpec.
Open Scope N_scope.

(** ** Fields by name *)
Section Order.
Context `{floatlib}.
Lemma perm_filter {A} (f : A -> bool) l l' : Permutation l l' -> Permutation (filter f l) (filter f l').
Proof.
  induction 1 as [|x l l' P IH|x y l|l l' l'' P IH P' IH']; cbn; [constructor | destruct (f x); [constructor|]; exact IH | | etransitivity; eassumption].
  destruct (f x), (f y); try reflexivity. apply perm_swap.
Qed.
Lemma relevant_perm ns hs hs' : same_headers hs hs' -> Permutation (relevant ns hs) (relevant ns hs').
Proof. intros P. apply perm_filter, P. Qed.
Lemma filled_perm {X} (read : ty -> X -> res value) fs asg asg' vs : Permutation asg asg' -> filled read fs asg vs -> filled read fs asg' vs.
Proof.
  intros P [D Fi]. split.
  - eapply Permutation_NoDup; [apply Permutation_map, P | exact D].
  - clear D. induction Fi as [|f v fs vs [Q C] Fi IH]; constructor; [|exact IH]. split; [exact Q|]. destruct C as [(x & I & R)|(N & O)].
    + left. exists x. split; [eapply Permutation_in; eassumption | exact R].
    + right. split; [|exact O]. intros x I. apply (N x). eapply Permutation_in; [symmetry; eassumption | exact I].
Qed.
Lemma walk_known ns l : (forall p, In p l -> In (fst p) ns) -> walk ns (flat l) = l.
Proof.
  induction l as [|[k v] l IH]; intros K; [reflexivity|]. cbn [flat walk]. rewrite (proj2 (smem_In _ _)) by (apply (K (k, v)); left; reflexivity).
  f_equal. apply IH. intros p I. apply K. right. exact I.
Qed.
(** A type read by name is no scalar. *)
Lemma named_query t ns : by_name t ns -> forall s v, query_read t s <> Ok v.
Proof. induction 1 as [|n t ns B IH|t ns B IH]; intros s v; cbn [query_read]; [discriminate| |]; (destruct (query_read t s) eqn:E; cbn [res_map]; [elim (IH _ _ E) | discriminate..]). Qed.
Lemma named_header t ns : by_name t ns -> forall s v, header_read t s <> Ok v.
Proof. induction 1 as [|n t ns B IH|t ns B IH]; intros s v; cbn [header_read]; [discriminate| |]; (destruct (header_read t s) eqn:E; cbn [res_map]; [elim (IH _ _ E) | discriminate..]). Qed.
Lemma pairs_mean_named {X} (read : ty -> X -> res value) (fill fill' : list (ustr * ty) -> list (ustr * value) -> Prop) l l' t ns : by_name t ns -> (forall t ns, by_name t ns -> forall x v, read t x <> Ok v) ->
  (forall fs vs, map fst fs = ns -> fill fs vs -> fill' fs vs) -> forall v, pairs_mean read fill l t v -> pairs_mean read fill' l' t v.
Proof.
  intros B R. induction B as [n fs|n t ns B IH|t ns B IH]; intros Fi v M; inversion M; subst;
    try (match goal with A : read ?t _ = Ok _ |- _ => exfalso; eapply (R t); [|exact A]; constructor; eassumption end).
  - constructor. apply Fi; [reflexivity | assumption].
  - constructor. apply IH; assumption.
  - constructor. apply IH; assumption.
Qed.
Lemma header_means_same hs hs' t ns v : by_name t ns -> same_headers hs hs' -> header_means hs t v -> header_means hs' t v.
Proof.
  intros B S. unfold header_means. apply (pairs_mean_named header_read _ _ _ _ t ns B named_header). intros fs vs _ Fi. eapply filled_perm; [apply relevant_perm, S | exact Fi].
Qed.
Lemma query_means_same l l' t ns v : by_name t ns -> (forall p, In p l -> In (fst p) ns) -> Permutation l l' -> query_means l t v -> query_means l' t v.
Proof.
  intros B K S. unfold query_means. apply (pairs_mean_named query_read _ _ _ _ t ns B named_query). intros fs vs -> Fi.
  rewrite (walk_known ns l K) in Fi. rewrite (walk_known ns l'); [eapply filled_perm; eassumption|]. intros p I. apply K. eapply Permutation_in; [symmetry; exact S | exact I].
Qed.
Lemma same_headers_nil hs hs' : same_headers hs hs' -> hs <> [] -> hs' <> [].
Proof. unfold same_headers. intros P N ->. apply Permutation_length in P. rewrite !map_length in P. destruct hs; [congruence | discriminate P]. Qed.
Lemma field_means_same (part part' : ustr -> option (ty -> value -> Prop)) fs vs :
  (forall f v, In f fs -> match part (fst f), part' (fst f) with Some m, Some m' => m (snd f) v -> m' (snd f) v | None, None => True | _, _ => False end) ->
  Forall2 (field_means part) fs vs -> Forall2 (field_means part') fs vs.
Proof.
  intros S Fi. induction Fi as [|f v fs vs Q Fi IH]; constructor.
  - destruct Q as [E M]. split; [exact E|]. specialize (S f (snd v) (or_introl eq_refl)). destruct (part (fst f)), (part' (fst f)); try contradiction; auto.
  - apply IH. intros f0 v0 I. apply S. right. exact I.
Qed.
Lemma request_means_same ep x x' hs hs' t v : u_path x = u_path x' -> Permutation (query_pairs x) (query_pairs x') -> same_headers hs hs' ->
  asks_by_name (query_pairs x) t -> request_means ep x hs t v -> request_means ep x' hs' t v.
Proof.
  intros Pa Q S A. revert v. induction A as [n fs Hh Hq|n t A IH]; intros v M; inversion M as [n0 fs0 vs Np Nh Fi| |]; subst.
  - constructor; [rewrite <- Pa; exact Np | intros I; apply (same_headers_nil hs hs' S), (Nh I)|].
    eapply field_means_same; [|exact Fi]. intros [k t] w I. cbn [fst snd]. unfold request_part.
    destruct (ustr_eqb_spec k (u "path")) as [->|]; [rewrite Pa; auto|].
    destruct (ustr_eqb_spec k (u "query")) as [->|]; [destruct (Hq t I) as (ns & B & K); apply (query_means_same _ _ t ns w B K Q)|].
    destruct (ustr_eqb_spec k (u "header")) as [->|]; [|exact Logic.I]. destruct (Hh t I) as (ns & B). apply (header_means_same hs hs' t ns w B S).
  - constructor. apply IH. assumption.
Qed.
Lemma asks_by_name_same l l' t : Permutation l l' -> asks_by_name l t -> asks_by_name l' t.
Proof.
  intros P. induction 1 as [n fs Hh Hq|n t A IH]; constructor; auto. intros t I. destruct (Hq t I) as (ns & B & K). exists ns. split; [exact B|].
  intros p Ip. apply K. eapply Permutation_in; [symmetry; exact P | exact Ip].
Qed.
Lemma same_result {A} (x y : res A) : refuses x -> refuses y -> (forall v, x = Ok v <-> y = Ok v) -> x = y.
Proof. intros [[a ->]| ->] [[b ->]| ->] E; auto; [symmetry; apply (E a) | symmetry; apply (E a) | apply (E b)]; reflexivity. Qed.
Theorem request_same ep x x' hs hs' t : names_ok hs = true -> names_ok hs' = true -> wf_ty t = true ->
  u_path x = u_path x' -> Permutation (query_pairs x) (query_pairs x') -> same_headers hs hs' -> asks_by_name (query_pairs x) t ->
  de_request ep x hs t = de_request ep x' hs' t.
Proof.
  intros N N' W Pa Q S A. apply same_result; [apply request_refuses; assumption..|]. intros v. rewrite (request_exact ep x hs N t W), (request_exact ep x' hs' N' t W). split; intros M.
  - apply (request_means_same ep x x' hs hs'); assumption.
  - apply (request_means_same ep x' x hs' hs); try assumption; [symmetry; assumption | symmetry; assumption | unfold same_headers; cbv zeta; symmetry; exact S|]. apply (asks_by_name_same (query_pairs x)); assumption.
Qed.
Lemma response_field_same code hs hs' i fs vs : same_headers hs hs' -> (forall t, In (u "header", t) fs -> exists ns, by_name t ns) ->
  Forall2 (field_means (response_part code hs i)) fs vs -> Forall2 (field_means (response_part code hs' i)) fs vs.
Proof.
  intros S Hh. apply field_means_same. intros [k t] w I. cbn [fst snd]. unfold response_part. destruct (_ && _)%bool; [auto|].
  destruct (ustr_eqb_spec k (u "header")) as [->|]; [|exact Logic.I]. destruct (Hh t I) as (ns & B). apply (header_means_same hs hs' t ns w B S).
Qed.
Lemma response_means_same code hs hs' named t : same_headers hs hs' -> replies_by_name t -> forall i v,
  response_means code hs named i t v -> response_means code hs' named i t v.
Proof.
  intros S. induction 1 as [n fs Hh|n t A IH|n vs A IH Hh]; intros i v M; inversion M; subst.
  - constructor; [intros I; apply (same_headers_nil hs hs' S); auto | eapply response_field_same; eassumption].
  - constructor. apply IH. assumption.
  - constructor; assumption.
  - econstructor; [eassumption | eassumption|]. match goal with X : assoc ?x vs = Some _ |- _ => apply (IH x _ (assoc_In _ _ _ X)) end. assumption.
  - econstructor; [eassumption | eassumption | intros I; apply (same_headers_nil hs hs' S); auto|].
    match goal with X : assoc ?x vs = Some _ |- _ => eapply response_field_same; [exact S | apply (fun t => Hh x _ t (assoc_In _ _ _ X)) | eassumption] end.
Qed.
Theorem response_same code hs hs' t : names_ok hs = true -> names_ok hs' = true -> wf_ty t = true -> same_headers hs hs' -> replies_by_name t ->
  de_response code hs t = de_response code hs' t.
Proof.
  intros N N' W S A. apply same_result; [apply response_refuses; assumption..|]. intros v. rewrite (response_exact code hs N t W), (response_exact code hs' N' t W).
  split; apply response_means_same; try assumption. unfold same_headers. cbv zeta. symmetry. exact S.
Qed.
End Order.

(** ** Members of objects *)
Lemma reordered_inv j j' : reordered j j' ->
  match j with
  | JArr l => exists l', j' = JArr l' /\ Forall2 reordered l l'
  | JObj l => exists l' l'', j' = JObj l'' /\ Forall2 (fun m m' => fst m = fst m' /\ reordered (snd m) (snd m')) l l' /\ Permutation l' l''
  | _ => j' = j
  end.
Proof.
  inversion 1; subst; eauto. destruct j'; try reflexivity.
  - exists l. split; [reflexivity|]. clear. induction l; constructor; [constructor | assumption].
  - exists l, l. split; [reflexivity|]. split; [|reflexivity]. clear. induction l; constructor; [split; [reflexivity | constructor] | assumption].
Qed.
Lemma once_perm l l' k : Permutation l l' -> at_most_once l k -> at_most_once l' k.
Proof. intros P. unfold at_most_once. rewrite (Permutation_length (perm_filter _ _ _ P)). auto. Qed.
Lemma assoc_perm (l l' : list (ustr * json)) k : Permutation l l' -> at_most_once l k -> assoc k l = assoc k l'.
Proof.
  induction 1 as [|[a x] l l' P IH|[a x] [b y] l|l l' l'' P IH P' IH']; intros O; [reflexivity| | |].
  - cbn [assoc]. destruct (ustr_eqb_spec k a) as [<-|D]; [reflexivity|]. apply IH. unfold at_most_once in *. cbn [filter fst] in O. destruct (ustr_eqb a k); [cbn [length] in O; lia | exact O].
  - cbn [assoc]. destruct (ustr_eqb_spec k a) as [<-|D], (ustr_eqb_spec k b) as [<-|D']; try reflexivity.
    unfold at_most_once in O. cbn [filter fst] in O. rewrite ustr_eqb_refl in O. cbn [length] in O. lia.
  - rewrite (IH O). apply IH'. apply (once_perm l l' k P O).
Qed.
Lemma renamed_once (l l' : list (ustr * json)) k : Forall2 (fun m m' => fst m = fst m' /\ reordered (snd m) (snd m')) l l' -> at_most_once l k -> at_most_once l' k.
Proof.
  unfold at_most_once. intros Fi. assert (E : length (filter (fun m => ustr_eqb (fst m) k) l) = length (filter (fun m => ustr_eqb (fst m) k) l')); [|rewrite E; auto].
  induction Fi as [|m m' l l' [E _] Fi IH]; [reflexivity|]. cbn [filter]. rewrite <- E. destruct (ustr_eqb (fst m) k); cbn [length]; congruence.
Qed.
Lemma renamed_assoc (l l' : list (ustr * json)) k : Forall2 (fun m m' => fst m = fst m' /\ reordered (snd m) (snd m')) l l' ->
  match assoc k l with Some j => exists j', assoc k l' = Some j' /\ reordered j j' | None => assoc k l' = None end.
Proof.
  induction 1 as [|[a x] [b y] l l' [E R] Fi IH]; [reflexivity|]. cbn [fst snd] in *. subst b. cbn [assoc]. destruct (ustr_eqb k a); [eauto | exact IH].
Qed.
Lemma member_same l l' l'' k : Forall2 (fun m m' => fst m = fst m' /\ reordered (snd m) (snd m')) l l' -> Permutation l' l'' ->
  (at_most_once l k -> at_most_once l'' k) /\
  (at_most_once l k -> forall j, assoc k l = Some j -> exists j', assoc k l'' = Some j' /\ reordered j j') /\
  (assoc k l = None -> assoc k l'' = None).
Proof.
  intros Fi P. pose proof (renamed_assoc l l' k Fi) as A. split; [intros O; apply (once_perm l' l'' k P), (renamed_once l l' k Fi O)|]. split.
  - intros O j E. rewrite E in A. rewrite <- (assoc_perm l' l'' k P) by (apply (renamed_once l l' k Fi O)). exact A.
  - intros E. rewrite E in A. apply assoc_None. intros a I. apply (Permutation_in _ (Permutation_sym P)) in I. revert a I. apply assoc_None. exact A.
Qed.

Section Json.
Context `{floatlib} `{jsonfloat}.
Definition movable (t : ty) : Prop := mapless t = true -> forall j j' v, reordered j j' -> means t j v -> means t j' v.
Lemma elements_same ts : Forall movable ts -> forallb mapless ts = true -> forall l l' vs, Forall2 reordered l l' -> elements ts l vs -> elements ts l' vs.
Proof.
  induction 1 as [|t ts M Fo IH]; intros B l l' vs R E; inversion E; subst; inversion R; subst; [constructor|]. cbn [forallb] in B. apply andb_true_iff in B. destruct B as [B1 B2].
  constructor; [eapply M; eassumption | eapply IH; eassumption].
Qed.
Lemma fields_same fs : Forall (fun f => movable (snd f)) fs -> forallb (fun f => mapless (snd f)) fs = true ->
  forall l l' l'' vs, Forall2 (fun m m' => fst m = fst m' /\ reordered (snd m) (snd m')) l l' -> Permutation l' l'' -> fields fs l vs -> fields fs l'' vs.
Proof.
  induction 1 as [|f fs M Fo IH]; intros B l l' l'' vs R P E; inversion E; subst; [constructor| |]; cbn [forallb snd] in B; apply andb_true_iff in B; destruct B as [B1 B2]; cbn [snd] in M.
  - destruct (member_same l l' l'' n R P) as (O & S & _). match goal with A : assoc n l = Some _ |- _ => destruct (S ltac:(assumption) _ A) as (j' & A' & Rj) end.
    econstructor; [apply O; assumption | exact A' | eapply M; eassumption | eapply IH; eassumption].
  - destruct (member_same l l' l'' n R P) as (_ & _ & N). constructor; [apply N; assumption | eapply IH; eassumption].
Qed.
Lemma members_same fs : Forall (fun f => movable (snd f)) fs -> forallb (fun f => mapless (snd f)) fs = true ->
  forall j j' vs, reordered j j' -> members fs j vs -> members fs j' vs.
Proof.
  intros M B j j' vs R E. inversion E; subst; apply reordered_inv in R.
  - destruct R as (l' & l'' & -> & R & P). constructor. eapply fields_same; eassumption.
  - destruct R as (l' & -> & R). constructor. apply (elements_same (map snd fs)) with (l := l); try assumption; [apply Forall_map; exact M|].
    clear - B. induction fs as [|f fs IH]; [reflexivity|]. cbn [map forallb] in *. apply andb_true_iff in B. destruct B as [-> B]. apply IH, B.
Qed.
Lemma seq_same t : movable t -> mapless t = true -> forall l l' vs, Forall2 reordered l l' -> Forall2 (means t) l vs -> Forall2 (means t) l' vs.
Proof. intros M B l l' vs R. revert vs. induction R as [|a b l l' Rab R IH]; intros vs E; inversion E; subst; constructor; [eapply M; eassumption | apply IH; assumption]. Qed.
Lemma ints_same b l' : Forall2 reordered (map (fun x => JInt (Z.of_N x)) b) l' -> l' = map (fun x => JInt (Z.of_N x)) b.
Proof. revert l'. induction b as [|x b IH]; intros l' R; inversion R; subst; [reflexivity|]. cbn [map]. f_equal; [|apply IH; assumption]. match goal with A : reordered (JInt _) _ |- _ => apply reordered_inv in A; exact A end. Qed.
Theorem means_same t : movable t.
Proof.
  induction t using ty_ind2 with (Q := fun t => vmapless t = true -> forall n x j j' v, reordered j j' -> variant_means t n x j v -> variant_means t n x j' v);
    try (intros B j j' v R M; inversion M; subst; apply reordered_inv in R; try (subst j'; constructor; assumption); fail).
  - (* bytes *) intros B j j' v R M. inversion M; subst; apply reordered_inv in R; [subst; constructor|]. destruct R as (l' & -> & R). apply ints_same in R. subst. constructor. assumption.
  - (* option *) intros B j j' v R M. inversion M; subst; [apply reordered_inv in R; subst; constructor|].
    constructor; [|eapply IHt; eassumption]. intros ->. apply reordered_inv in R. destruct j; try discriminate R; try congruence; [destruct R as (? & Q & _); discriminate Q | destruct R as (? & ? & Q & _); discriminate Q].
  - (* newtype *) intros B j j' v R M. inversion M; subst. constructor. eapply IHt; eassumption.
  - (* seq *) intros B j j' v R M. inversion M; subst. apply reordered_inv in R. destruct R as (l' & -> & R). constructor. eapply seq_same; eassumption.
  - intros B j j' v R M. inversion M; subst. apply reordered_inv in R. destruct R as (l' & -> & R). constructor. eapply elements_same; eassumption.
  - intros B j j' v R M. inversion M; subst. apply reordered_inv in R. destruct R as (l' & -> & R). constructor. eapply elements_same; eassumption.
  - intros B. discriminate B.
  - intros B j j' v R M. inversion M; subst. constructor. eapply members_same; eassumption.
  - intros B j j' w R M. inversion M; subst; apply reordered_inv in R; [subst; constructor; assumption|]. destruct R as (l' & l'' & -> & R & P).
    inversion R as [|? [y k] ? ? [E Rk] R']; subst. inversion R'; subst. apply Permutation_length_1_inv in P. subst l''. cbn [fst snd] in *. subst y.
    econstructor; [eassumption|]. match goal with A : assoc x vs = Some ?t |- _ => rewrite Forall_forall in H1; pose proof (H1 _ (assoc_In _ _ _ A)) as IH; cbn [snd] in IH; cbn [mapless] in B; rewrite forallb_forall in B; apply (IH (B _ (assoc_In _ _ _ A)) _ _ _ _ _ Rk) end. assumption.
  - intros B n x j j' v R M. inversion M; subst. apply reordered_inv in R. subst. constructor.
  - intros B n x j j' v R M. inversion M; subst. constructor. eapply IHt; eassumption.
  - intros B n x j j' v R M. inversion M; subst. apply reordered_inv in R. destruct R as (l' & -> & R). constructor. eapply elements_same; eassumption.
  - intros B n x j j' v R M. inversion M; subst. constructor. eapply members_same; eassumption.
Qed.

Lemma reordered_sym : forall j j', reordered j j' -> reordered j' j.
Proof.
  induction j as [| | | | |l IH|l IH] using json_ind2; intros j' R; apply reordered_inv in R; try (subst j'; constructor).
  - destruct R as (l' & -> & R). constructor. clear - IH R. induction R as [|a b l l' Rab R IHR]; constructor; inversion IH; subst; auto.
  - destruct R as (l' & l'' & -> & R & P).
    assert (R' : Forall2 (fun m m' => fst m = fst m' /\ reordered (snd m) (snd m')) l' l).
    { clear - IH R. induction R as [|a b l l' [E Rab] R IHR]; constructor; inversion IH; subst; [split; [symmetry; exact E|] | apply IHR]; auto. }
    destruct (Permutation_Forall2 P R') as (m & Pm & Rm). apply (RoObj l'' m l Rm). symmetry. exact Pm.
Qed.
Theorem tree_same t j j' : wf_ty t = true -> mapless t = true -> reordered j j' -> from_json t j = from_json t j'.
Proof.
  intros W B R. apply same_result; [apply from_json_refuses..|]. intros v. rewrite (from_json_exact t W j v), (from_json_exact t W j' v). split; apply (means_same t B); [exact R | apply reordered_sym, R].
Qed.
Theorem text_same t s s' j j' : wf_ty t = true -> mapless t = true -> json_document s j -> json_document s' j' -> reordered j j' -> from_json_str t s = from_json_str t s'.
Proof.
  intros W B D D' R. unfold from_json_str. apply parse_json_iff in D, D'. rewrite D, D'. apply (tree_same t j j' W B R).
Qed.
Lemma strings_same h l' : Forall2 reordered (map JStr h) l' -> l' = map JStr h.
Proof. revert l'. induction h as [|x b IH]; intros l' R; inversion R; subst; [reflexivity|]. cbn [map]. f_equal; [|apply IH; assumption]. match goal with A : reordered (JStr _) _ |- _ => apply reordered_inv in A; exact A end. Qed.
Lemma represents_same url_norm j j' p : reordered j j' -> represents url_norm j p -> represents url_norm j' p.
Proof.
  intros R [S E]. split; [exact S|]. apply reordered_inv in R. destruct j; try contradiction.
  - destruct R as (l' & -> & R).
    assert (N : forall n k, nth_error l n = Some k -> exists k', nth_error l' n = Some k' /\ reordered k k').
    { clear - R. induction R as [|a b l l' Rab R IH]; intros [|n] k Q; try discriminate Q; cbn in *; [injection Q as <-; eauto | apply IH, Q]. }
    destruct p as [title st|title st detail inst history]; cbn [listed] in E |- *.
    + subst l. repeat match goal with A : Forall2 reordered (_ :: _) _ |- _ => inversion A; clear A; subst | A : Forall2 reordered [] _ |- _ => inversion A; clear A; subst end.
      repeat match goal with A : reordered (JStr _) _ |- _ => apply reordered_inv in A | A : reordered (JInt _) _ |- _ => apply reordered_inv in A end. subst. reflexivity.
    + destruct E as (r & -> & L & D & H1 & I).
      inversion R as [|? a ? r1 Ra R1]; subst. inversion R1 as [|? b ? r2 Rb R2]; subst. inversion R2 as [|? c ? r3 Rc R3]; subst.
      apply reordered_inv in Ra, Rb, Rc. subst a b c. exists r3. split; [reflexivity|].
      assert (Ln : length r3 = length r) by (symmetry; clear - R3; induction R3; cbn; congruence).
      assert (T : forall n, match nth_error r n with Some k => exists k', nth_error r3 n = Some k' /\ reordered k k' | None => nth_error r3 n = None end).
      { clear - R3. induction R3 as [|a b l l' Rab R IH]; intros [|n]; cbn; eauto. apply IH. }
      assert (Nl : forall n, nth_error r n = None \/ nth_error r n = Some JNull -> nth_error r3 n = None \/ nth_error r3 n = Some JNull).
      { intros n [Q|Q]; specialize (T n); rewrite Q in T; [left; exact T|]. destruct T as (k' & Q' & Rk). apply reordered_inv in Rk. subst. right. exact Q'. }
      assert (St : forall n x, nth_error r n = Some (JStr x) -> nth_error r3 n = Some (JStr x)).
      { intros n x Q. specialize (T n). rewrite Q in T. destruct T as (k' & Q' & Rk). apply reordered_inv in Rk. subst. exact Q'. }
      split; [rewrite Ln; exact L|]. split; [destruct detail; cbn [elem_says] in *; auto|]. split.
      * destruct history as [h|]; cbn [elem_says] in *; [|auto]. specialize (T 2%nat). rewrite H1 in T. destruct T as (k' & Q' & Rk). apply reordered_inv in Rk. destruct Rk as (l' & -> & Rl). apply strings_same in Rl. subst. exact Q'.
      * destruct inst as [n|]; [|auto]. destruct I as (x & Q & Un). exists x. auto.
  - destruct R as (l' & l'' & -> & R & P). destruct E as [O D]. pose proof (fun k => member_same l l' l'' k R P) as M.
    split; [intros k I; apply (M k), O, I|].
    assert (N : forall k, assoc k l = None -> assoc k l'' = None) by (intros k; apply (M k)).
    assert (J : forall k j, In k (known p) -> (forall k, reordered j k -> k = j) -> assoc k l = Some j -> assoc k l'' = Some j).
    { intros k j I A Q. destruct (M k) as (_ & X & _). destruct (X (O k I) j Q) as (j' & Q' & Rj). rewrite (A _ Rj) in Q'. exact Q'. }
    assert (As : forall x k, reordered (JStr x) k -> k = JStr x) by (intros x k Q; apply reordered_inv in Q; exact Q).
    assert (Ai : forall x k, reordered (JInt x) k -> k = JInt x) by (intros x k Q; apply reordered_inv in Q; exact Q).
    assert (An : forall k, reordered JNull k -> k = JNull) by (intros k Q; apply reordered_inv in Q; exact Q).
    assert (Al : forall h k, reordered (JArr (map JStr h)) k -> k = JArr (map JStr h)) by (intros h k Q; apply reordered_inv in Q; destruct Q as (x & -> & Q); apply strings_same in Q; subst; reflexivity).
    destruct p as [title st|title st detail inst history]; cbn [describes] in D |- *; unfold describes in *.
    + destruct D as (D1 & D2 & D3). split; [apply J; [cbn; tauto | apply Ai | exact D1]|]. split; apply J; auto; cbn; tauto.
    + destruct D as (D1 & D2 & D3 & D4 & D5 & D6). split; [apply J; [cbn; tauto | apply Ai | exact D1]|]. split; [apply J; auto; cbn; tauto|]. split; [apply J; auto; cbn; tauto|].
      split; [destruct detail; cbn [says] in *; [apply J; auto; cbn; tauto | destruct D4; [left; auto | right; apply J; auto; cbn; tauto]]|].
      split; [destruct history; cbn [says] in *; [apply J; auto; cbn; tauto | destruct D5; [left; auto | right; apply J; auto; cbn; tauto]]|].
      destruct inst as [n|]; [|destruct D6; [left; auto | right; apply J; auto; cbn; tauto]]. destruct D6 as (x & Q & Un). exists x. split; [apply J; auto; cbn; tauto | exact Un].
Qed.
Theorem problem_same url_norm b b' s s' j j' : utf8_decode b = Some s -> utf8_decode b' = Some s' -> json_document s j -> json_document s' j' -> reordered j j' ->
  problem_read url_norm b = problem_read url_norm b'.
Proof.
  intros U U' D D' R. apply same_result; [apply problem_refuses..|]. intros p. rewrite !problem_read_exact. split; intros (s0 & j0 & U0 & D0 & E).
  - assert (s0 = s) by congruence. subst s0. assert (j0 = j) by (apply parse_json_iff in D, D0; congruence). subst j0. exists s', j'. split; [exact U'|]. split; [exact D'|]. eapply represents_same; eassumption.
  - assert (s0 = s') by congruence. subst s0. assert (j0 = j') by (apply parse_json_iff in D', D0; congruence). subst j0. exists s, j. split; [exact U|]. split; [exact D|]. eapply represents_same; [apply reordered_sym, R | eassumption].
Qed.
End Json.
