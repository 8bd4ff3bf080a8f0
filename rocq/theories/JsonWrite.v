(** * Writing JSON: the printers write exactly the texts of the specification. *)
From Verif Require Import Base Utf8 Decimal Serde ValueInd Json JsonText JsonSpec JsonProofs JsonTrip JsonField Problem ProblemSpec ProblemProofs JsonWriteSpec.
Open Scope N_scope.

Section Tree.
Context `{floatlib}.

Lemma json_key_cases v : json_key v = Err Invalid /\ (forall s, ~ key_text v s) \/ exists s, json_key v = Ok s /\ key_text v s.
Proof.
  induction v using value_ind2; try (left; split; [reflexivity | intros z Q; inversion Q]); try (right; eexists; split; [reflexivity | solve [constructor]]).
  cbn [json_key]. destruct IHv as [[E N]|(s & E & K)]; [left | right].
  - split; [exact E|]. intros s Q. inversion Q; subst. eapply N; eassumption.
  - exists s. split; [exact E | constructor; exact K].
Qed.
Lemma key_text_json v s : key_text v s -> json_key v = Ok s.
Proof. induction 1; cbn [json_key]; auto. Qed.

Definition wcase (v : value) : Prop := to_json v = Err Invalid /\ odd_key v \/ exists j, to_json v = Ok j /\ shown v j.

Lemma jlist_cases vs : Forall wcase vs ->
  jlist vs = Err Invalid /\ (exists w, In w vs /\ odd_key w) \/ exists js, jlist vs = Ok js /\ Forall2 shown vs js.
Proof.
  induction 1 as [|v vs [[E O]|(j & E & S)] _ IH]; [right; exists []; split; [reflexivity | constructor] | |]; cbn [jlist]; rewrite E; cbn [bind].
  - left. split; [reflexivity|]. exists v. split; [left; reflexivity | exact O].
  - destruct IH as [[E2 (w & I & O)]|(js & E2 & F)]; rewrite E2; cbn [bind].
    + left. split; [reflexivity|]. exists w. split; [right; exact I | exact O].
    + right. exists (j :: js). split; [reflexivity | constructor; assumption].
Qed.
Lemma jfields_cases fs : Forall (fun f => wcase (snd f)) fs ->
  jfields fs = Err Invalid /\ (exists w, In w (map snd fs) /\ odd_key w) \/
  exists js, jfields fs = Ok js /\ Forall2 (fun f m => fst f = fst m /\ shown (snd f) (snd m)) fs js.
Proof.
  induction 1 as [|[n v] fs [[E O]|(j & E & S)] _ IH]; [right; exists []; split; [reflexivity | constructor] | |]; cbn [jfields snd] in *; rewrite E; cbn [bind].
  - left. split; [reflexivity|]. exists v. split; [left; reflexivity | exact O].
  - destruct IH as [[E2 (w & I & O)]|(js & E2 & F)]; rewrite E2; cbn [bind].
    + left. split; [reflexivity|]. exists w. split; [right; exact I | exact O].
    + right. exists ((n, j) :: js). split; [reflexivity | constructor; [split; [reflexivity | exact S] | assumption]].
Qed.
Lemma jentries_cases kvs : Forall (fun f => wcase (snd f)) kvs ->
  jentries kvs = Err Invalid /\ odd_key (SMap kvs) \/
  exists js, jentries kvs = Ok js /\ Forall2 (fun f m => key_text (fst f) (fst m) /\ shown (snd f) (snd m)) kvs js.
Proof.
  induction 1 as [|[k v] kvs W _ IH]; [right; exists []; split; [reflexivity | constructor] |]. cbn [jentries snd] in *.
  destruct (json_key_cases k) as [[E0 N]|(s & E0 & K)]; rewrite E0; cbn [bind].
  { left. split; [reflexivity|]. apply (OddHere _ k v); [left; reflexivity | exact N]. }
  destruct W as [[E O]|(j & E & S)]; rewrite E; cbn [bind].
  - left. split; [reflexivity|]. apply (OddInside _ v); [left; reflexivity | exact O].
  - destruct IH as [[E2 O]|(js & E2 & F)]; rewrite E2; cbn [bind].
    + left. split; [reflexivity|]. inversion O as [? k' v' I N|? w I O']; subst; [apply (OddHere _ k' v'); [right; exact I | exact N]|].
      apply (OddInside _ w); [right; exact I | exact O'].
    + right. exists ((s, j) :: js). split; [reflexivity | constructor; [split; assumption | assumption]].
Qed.

Lemma bytes_shown b : Forall2 (fun x j => j = JInt (Z.of_N x)) b (map (fun x => JInt (Z.of_N x)) b).
Proof. induction b; constructor; auto. Qed.

Lemma to_json_cases v : wcase v.
Proof.
  induction v as [b|k z|x|x|c|s|b| |v IH| |n|e x|n v IH|e x v IH|vs IH|vs IH|n vs IH|e x vs IH|kvs IH|n fs IH|e x fs IH] using value_ind2; unfold wcase;
    try (right; eexists; split; [reflexivity | solve [constructor]]).
  - right. eexists. split; [reflexivity|]. constructor. apply bytes_shown.
  - cbn [to_json]. destruct IH as [[E O]|(j & E & S)]; [left; split; [exact E | apply (OddInside _ v); [left; reflexivity | exact O]] | right; exists j; split; [exact E | constructor; exact S]].
  - cbn [to_json]. destruct IH as [[E O]|(j & E & S)]; [left; split; [exact E | apply (OddInside _ v); [left; reflexivity | exact O]] | right; exists j; split; [exact E | constructor; exact S]].
  - cbn [to_json]. destruct IH as [[E O]|(j & E & S)]; rewrite E; cbn [bind]; [left; split; [reflexivity | apply (OddInside _ v); [left; reflexivity | exact O]] |].
    right; eexists; split; [reflexivity | constructor; exact S].
  - change (to_json (SSeq vs)) with (js <- jlist vs ;; Ok (JArr js)). destruct (jlist_cases vs IH) as [[E (w & I & O)]|(js & E & S)]; rewrite E; cbn [bind];
      [left; split; [reflexivity | eapply OddInside; [exact I | exact O]] | right; eexists; split; [reflexivity | constructor; exact S]].
  - change (to_json (STuple vs)) with (js <- jlist vs ;; Ok (JArr js)). destruct (jlist_cases vs IH) as [[E (w & I & O)]|(js & E & S)]; rewrite E; cbn [bind];
      [left; split; [reflexivity | eapply OddInside; [exact I | exact O]] | right; eexists; split; [reflexivity | constructor; exact S]].
  - change (to_json (STupleStruct n vs)) with (js <- jlist vs ;; Ok (JArr js)). destruct (jlist_cases vs IH) as [[E (w & I & O)]|(js & E & S)]; rewrite E; cbn [bind];
      [left; split; [reflexivity | eapply OddInside; [exact I | exact O]] | right; eexists; split; [reflexivity | constructor; exact S]].
  - change (to_json (STupleVariant e x vs)) with (js <- jlist vs ;; Ok (JObj [(x, JArr js)])). destruct (jlist_cases vs IH) as [[E (w & I & O)]|(js & E & S)]; rewrite E; cbn [bind];
      [left; split; [reflexivity | eapply OddInside; [exact I | exact O]] | right; eexists; split; [reflexivity | constructor; exact S]].
  - change (to_json (SMap kvs)) with (js <- jentries kvs ;; Ok (JObj js)).
    assert (IH' : Forall (fun f => wcase (snd f)) kvs) by (rewrite Forall_forall in *; intros p I; apply (IH p I)).
    destruct (jentries_cases kvs IH') as [[E O]|(js & E & S)]; rewrite E; cbn [bind]; [left; split; [reflexivity | exact O] | right; eexists; split; [reflexivity | constructor; exact S]].
  - change (to_json (SStruct n fs)) with (js <- jfields fs ;; Ok (JObj js)). destruct (jfields_cases fs IH) as [[E (w & I & O)]|(js & E & S)]; rewrite E; cbn [bind];
      [left; split; [reflexivity | eapply OddInside; [exact I | exact O]] | right; eexists; split; [reflexivity | constructor; exact S]].
  - change (to_json (SStructVariant e x fs)) with (js <- jfields fs ;; Ok (JObj [(x, JObj js)])). destruct (jfields_cases fs IH) as [[E (w & I & O)]|(js & E & S)]; rewrite E; cbn [bind];
      [left; split; [reflexivity | eapply OddInside; [exact I | exact O]] | right; eexists; split; [reflexivity | constructor; exact S]].
Qed.

(** One tree per value. *)
Lemma shown_list vs : Forall (fun v => forall j j', shown v j -> shown v j' -> j = j') vs -> forall js js', Forall2 shown vs js -> Forall2 shown vs js' -> js = js'.
Proof.
  induction 1 as [|v vs U _ IH]; intros js js' A B; inversion A; inversion B; subst; [reflexivity|]. f_equal; [eapply U; eassumption | apply IH; assumption].
Qed.
Lemma shown_pairs {K} (R : K -> ustr -> Prop) (fs : list (K * value)) : (forall k s s', R k s -> R k s' -> s = s') ->
  Forall (fun f => forall j j', shown (snd f) j -> shown (snd f) j' -> j = j') fs -> forall js js',
  Forall2 (fun f m => R (fst f) (fst m) /\ shown (snd f) (snd m)) fs js -> Forall2 (fun f m => R (fst f) (fst m) /\ shown (snd f) (snd m)) fs js' -> js = js'.
Proof.
  intros RU. induction 1 as [|[k v] fs U _ IH]; intros js js' A B; inversion A as [|? [a b] ? ? [X1 X2]]; inversion B as [|? [a' b'] ? ? [Y1 Y2]]; subst; [reflexivity|].
  cbn [fst snd] in *. f_equal; [f_equal; [eapply RU; eassumption | eapply U; eassumption] | apply IH; assumption].
Qed.
Lemma key_one k s s' : key_text k s -> key_text k s' -> s = s'.
Proof. intros A B. apply key_text_json in A, B. congruence. Qed.
Lemma shown_one v : forall j j', shown v j -> shown v j' -> j = j'.
Proof.
  induction v as [b|k z|x|x|c|s|b| |v IH| |n|e x|n v IH|e x v IH|vs IH|vs IH|n vs IH|e x vs IH|kvs IH|n fs IH|e x fs IH] using value_ind2; intros j j' A B;
    inversion A; inversion B; subst; try reflexivity; auto.
  - f_equal. match goal with H1 : Forall2 _ b ?x, H2 : Forall2 _ b ?y |- ?x = ?y => clear - H1 H2; revert y H2; induction H1; intros y H2; inversion H2; subst; f_equal; auto end.
  - repeat f_equal; auto.
  - f_equal. eapply shown_list; eassumption.
  - f_equal. eapply shown_list; eassumption.
  - f_equal. eapply shown_list; eassumption.
  - repeat f_equal. eapply shown_list; eassumption.
  - f_equal. eapply (shown_pairs key_text kvs key_one); try eassumption. rewrite Forall_forall in *. intros p I. apply (IH p I).
  - f_equal. eapply (shown_pairs (@eq ustr) fs); try eassumption. intros; congruence.
  - do 4 f_equal. eapply (shown_pairs (@eq ustr) fs); try eassumption. intros; congruence.
Qed.

Lemma shown_in_list vs js w : Forall2 shown vs js -> In w vs -> exists j, shown w j.
Proof. induction 1 as [|v j vs js S _ IH]; intros []; [subst; exists j; exact S | auto]. Qed.
Lemma shown_in_pairs {K} (R : K -> ustr -> Prop) (fs : list (K * value)) js w : Forall2 (fun f m => R (fst f) (fst m) /\ shown (snd f) (snd m)) fs js -> In w (map snd fs) -> exists j, shown w j.
Proof. induction 1 as [|v j vs js [_ S] _ IH]; intros []; [subst; exists (snd j); exact S | auto]. Qed.
Lemma odd_unshown v : odd_key v -> forall j, ~ shown v j.
Proof.
  induction 1 as [kvs k v I N|v w I _ IH]; intros j Q.
  - inversion Q as [| | | | | | | | | | | | | | | | | |? js F| |]; subst. clear Q. induction F as [|[k' v'] m kvs js [K S] F IH]; [destruct I|].
    destruct I as [[= -> ->]|I]; [exact (N _ K) | exact (IH I)].
  - enough (exists j, shown w j) as [j' S] by exact (IH j' S). destruct Q; cbn [inside] in I; try (destruct I; fail); try (destruct I as [<-|[]]; eexists; eassumption);
      try (eapply shown_in_list; eassumption); eapply shown_in_pairs; eassumption.
Qed.

Theorem to_json_exact v j : to_json v = Ok j <-> shown v j.
Proof.
  destruct (to_json_cases v) as [[E O]|(j' & E & S)]; rewrite E; split; intros Q; try discriminate.
  - destruct (odd_unshown v O j Q).
  - injection Q as <-. exact S.
  - f_equal. eapply shown_one; eassumption.
Qed.
Theorem to_json_refused v : to_json v = Err Invalid <-> odd_key v.
Proof.
  destruct (to_json_cases v) as [[E O]|(j & E & S)]; rewrite E; split; intros Q; auto; [discriminate|]. destruct (odd_unshown v Q j S).
Qed.
Theorem json_refusal v : (to_json v = Err Invalid <-> odd_key v) /\ ((exists j, shown v j) \/ odd_key v) /\ forall j, ~ (shown v j /\ odd_key v).
Proof.
  split; [apply to_json_refused|]. split.
  - destruct (to_json_cases v) as [[_ O]|(j & _ & S)]; eauto.
  - intros j [S O]. exact (odd_unshown v O j S).
Qed.
End Tree.

(** ** Texts *)
Lemma low_hex_is d c : d < 16 -> low_hex d c <-> c = hexlow d.
Proof.
  intros L. unfold low_hex, hexlow. destruct (d <? 10) eqn:E; [apply N.ltb_lt in E | apply N.ltb_ge in E]; split; intros Q; try lia.
Qed.
Ltac short := match goal with
  | |- context [if ?c =? ?n then _ else _] => destruct (N.eqb_spec c n); [| short]
  | _ => idtac
  end.
Lemma quoted_char_is c t : quoted_char c t <-> t = esc_char c.
Proof.
  split.
  - intros [c' e I|c' a b h l L N E A B|c' L N1 N2].
    + cbn in I. repeat (destruct I as [[= <- <-]|I]; [reflexivity|]). destruct I.
    + unfold esc_char. short; try (exfalso; apply N; cbn; intuition lia); try lia.
      destruct (c' <? 32) eqn:L2; [|apply N.ltb_ge in L2; lia].
      assert (a < 16 /\ b < 16) as [La Lb] by (unfold low_hex in *; lia). apply low_hex_is in A, B; try assumption. subst h l.
      assert (c' / 16 = a) as -> by (symmetry; apply (N.div_unique _ _ _ b); lia). assert (c' mod 16 = b) as -> by (symmetry; apply (N.mod_unique _ _ a); lia). reflexivity.
    + unfold esc_char. short; try lia. destruct (c' <? 32) eqn:L2; [apply N.ltb_lt in L2; lia | reflexivity].
  - intros ->. unfold esc_char. short; try (subst; apply QShort; cbn; tauto).
    destruct (c <? 32) eqn:L; [apply N.ltb_lt in L | apply N.ltb_ge in L; apply QPlain; assumption].
    assert (c / 16 < 16) by (apply N.div_lt_upper_bound; lia). assert (c mod 16 < 16) by (apply N.mod_lt; lia).
    apply (QCode c (c / 16) (c mod 16)); try (apply low_hex_is; auto); [exact L | | pose proof (N.div_mod c 16); lia].
    cbn. intros Q. repeat (destruct Q as [Q|Q]; [congruence|]). exact Q.
Qed.
Lemma quoted_is s t : quoted s t <-> t = quote s.
Proof.
  unfold quoted, quote. split.
  - intros (ts & F & ->). cbn [app]. f_equal. f_equal. induction F as [|c t' s ts Q F IH]; [reflexivity|]. apply quoted_char_is in Q. subst. cbn [concat flat_map]. rewrite IH. reflexivity.
  - intros ->. exists (map esc_char s). rewrite <- flat_map_concat_map. split; [|reflexivity]. induction s; constructor; [apply quoted_char_is; reflexivity | assumption].
Qed.

Definition print_as (o : layout) (j : json) : ustr := match o with Compact => print_json j | Pretty n => print_pretty n j end.
Lemma commas_join ts : commas ts = join [44] ts.
Proof. induction ts as [|t [|x r] IH]; try reflexivity. change (commas (t :: x :: r)) with (t ++ [44] ++ commas (x :: r)). rewrite IH. reflexivity. Qed.
Lemma print_arr o l : l <> [] -> print_as o (JArr l) = u "[" ++ commas (map (fun j => line (deeper o) ++ print_as (deeper o) j) l) ++ line o ++ u "]".
Proof. intros N. destruct l as [|j l]; [congruence|]. rewrite commas_join. destruct o; reflexivity. Qed.
Lemma print_obj o l : l <> [] -> print_as o (JObj l) = u "{" ++ commas (map (fun m => line (deeper o) ++ quote (fst m) ++ colon o ++ print_as (deeper o) (snd m)) l) ++ line o ++ u "}".
Proof. intros N. destruct l as [|j l]; [congruence|]. rewrite commas_join. destruct o; reflexivity. Qed.

Theorem spelled_is j : forall o t, spelled o j t <-> t = print_as o j.
Proof.
  induction j as [|b|z|t|s|l IH|l IH] using json_ind2; intros o x.
  - split; [intros Q; inversion Q; subst; destruct o; reflexivity | intros ->; destruct o; constructor].
  - split; [intros Q; inversion Q; subst; destruct o; reflexivity | intros ->; destruct o, b; constructor].
  - split; [intros Q; inversion Q; subst; destruct o; reflexivity | intros ->; destruct o; constructor].
  - split; [intros Q; inversion Q; subst; destruct o; reflexivity | intros ->; destruct o; constructor].
  - split.
    + intros Q; inversion Q as [| | | | |? ? ? S| | | |]; subst. apply quoted_is in S. subst. destruct o; reflexivity.
    + intros ->. replace (print_as o (JStr s)) with (quote s) by (destruct o; reflexivity). constructor. apply quoted_is. reflexivity.
  - destruct l as [|j l].
    { split; [intros Q; inversion Q; subst; [destruct o; reflexivity | congruence] | intros ->; destruct o; apply SpArr0]. }
    rewrite print_arr by discriminate. split.
    + intros Q. inversion Q as [| | | | | | |? ? ts N F| |]; subst. do 2 f_equal. f_equal. clear - F IH. revert IH. induction F as [|j' t l' ts (x & S & ->) F IHF]; intros IH; [reflexivity|].
      inversion IH as [|? ? Hj Hl]; subst. cbn [map]. f_equal; [|exact (IHF Hl)]. apply Hj in S. subst. reflexivity.
    + intros ->. apply SpArr; [discriminate|]. induction IH as [|j' l' Hj Hl IHl]; constructor; [|exact IHl]. exists (print_as (deeper o) j'). split; [apply Hj |]; reflexivity.
  - destruct l as [|j l].
    { split; [intros Q; inversion Q; subst; [destruct o; reflexivity | congruence] | intros ->; destruct o; apply SpObj0]. }
    rewrite print_obj by discriminate. split.
    + intros Q. inversion Q as [| | | | | | | | |? ? ts N F]; subst. do 2 f_equal. f_equal. clear - F IH. revert IH. induction F as [|j' t l' ts (k & x & K & S & ->) F IHF]; intros IH; [reflexivity|].
      inversion IH as [|? ? Hj Hl]; subst. cbn [map]. f_equal; [|exact (IHF Hl)]. apply Hj in S. apply quoted_is in K. subst. reflexivity.
    + intros ->. apply SpObj; [discriminate|]. induction IH as [|j' l' Hj Hl IHl]; constructor; [|exact IHl]. exists (quote (fst j')), (print_as (deeper o) (snd j')).
      split; [apply quoted_is; reflexivity|]. split; [apply Hj |]; reflexivity.
Qed.

Section Fields.
Context `{floatlib}.
Definition layout_of (c : codec) : layout := match c with AsJsonPretty => Pretty 0 | _ => Compact end.
Theorem json_text_exact c v s : json_text c v = Ok s <-> exists j, shown v j /\ spelled (layout_of c) j s.
Proof.
  assert (E : json_text c v = (j <- to_json v ;; Ok (print_as (layout_of c) j))) by (destruct c; reflexivity). rewrite E. clear E. split.
  - intros Q. apply bind_ok in Q. destruct Q as (j & E & [= <-]). exists j. split; [apply to_json_exact, E | apply spelled_is; reflexivity].
  - intros (j & S & P). apply to_json_exact in S. apply spelled_is in P. rewrite S, P. reflexivity.
Qed.
Theorem json_text_refused c v : json_text c v = Err Invalid <-> odd_key v.
Proof.
  rewrite <- to_json_refused. assert (E : json_text c v = (j <- to_json v ;; Ok (print_as (layout_of c) j))) by (destruct c; reflexivity). rewrite E.
  destruct (to_json v) as [|[]| |]; cbn [bind]; split; congruence.
Qed.
Theorem field_value_exact c v w : c <> Plain -> (field_value c v = Ok w <-> exists j s, shown v j /\ spelled (layout_of c) j s /\ w = SStr s).
Proof.
  intros C. assert (E : field_value c v = match json_text c v with Ok s => Ok (SStr s) | Err _ => Err Invalid | Panic => Panic | Diverge => Diverge end) by (destruct c; [congruence | |]; reflexivity).
  rewrite E. split.
  - destruct (json_text c v) as [s| | |] eqn:T; try discriminate. intros [= <-]. apply json_text_exact in T. destruct T as (j & S & P). eauto.
  - intros (j & s & S & P & ->). assert (T : json_text c v = Ok s) by (apply json_text_exact; eauto). rewrite T. reflexivity.
Qed.
Theorem field_value_refused c v : c <> Plain -> (field_value c v = Err Invalid <-> odd_key v).
Proof.
  intros C. rewrite <- (json_text_refused c). destruct (to_json_cases v) as [[T O]|(j & T & S)].
  - apply to_json_refused in O. clear T. apply to_json_refused in O. apply (json_text_refused c) in O. rewrite O. destruct c; [congruence | |]; cbn [field_value]; rewrite O; tauto.
  - assert (E : json_text c v = Ok (print_as (layout_of c) j)) by (destruct c; unfold json_text, to_json_string, to_json_string_pretty; rewrite T; reflexivity).
    destruct c; [congruence | |]; cbn [field_value]; rewrite E; split; discriminate.
Qed.
End Fields.

Theorem spelled_document `{jsonfloat} o j s : spelled o j s -> (forall s', spelled o j s' -> s' = s) /\ (numbers_ok j -> (nesting j < 128)%nat -> json_document s j).
Proof.
  intros S. apply spelled_is in S. subst s. split; [intros s' S'; apply spelled_is in S'; exact S'|]. intros N D. exists [], (print_as o j), []. rewrite app_nil_r.
  split; [reflexivity|]. split; [intros c []|]. split; [intros c []|]. split; [|exact D]. destruct o; [apply print_json_text, N | apply print_pretty_text, N].
Qed.
Theorem problem_body_exact `{floatlib} p b : problem_body p = Ok b <-> exists s, spelled (Pretty 0) (JObj (document p)) s /\ b = utf8_encode s.
Proof.
  rewrite problem_body_is. split.
  - intros [= <-]. eexists. split; [apply spelled_is; reflexivity | reflexivity].
  - intros (s & S & ->). apply spelled_is in S. subst. reflexivity.
Qed.
