(** * The JSON parser reads only texts of the grammar, as what they stand for (C53). *)
From Verif Require Import Base Decimal Serde Json JsonText JsonSpec ValueInd JsonProofs.
Open Scope N_scope.

Lemma skip_ws_split s : exists w, s = w ++ skip_ws s /\ ws w.
Proof.
  induction s as [|c s (w & E & W)]; [exists []; split; [reflexivity | intros c []]|]. cbn [skip_ws]. destruct (is_ws c) eqn:C.
  - exists (c :: w). split; [cbn; congruence|]. intros x [<-|I]; [apply is_ws_iff, C | apply W, I].
  - exists []. split; [reflexivity | intros x []].
Qed.
Lemma span_digits_split s d r : span_digits s = (d, r) -> s = d ++ r /\ forallb is_digit d = true.
Proof.
  revert d r. induction s as [|c s IH]; intros d r; cbn [span_digits]; [intros [= <- <-]; auto|]. destruct (is_digit c) eqn:D; [|intros [= <- <-]; auto].
  destruct (span_digits s) as [d' r']. intros [= <- <-]. destruct (IH d' r' eq_refl) as [-> Q]. cbn. rewrite D, Q. auto.
Qed.
Lemma literal_sound w : forall s r, literal w s = Some r -> s = w ++ r.
Proof.
  induction w as [|a w IH]; intros s r; [intros [= ->]; reflexivity|]. destruct s as [|b s]; [discriminate|]. cbn [literal].
  destruct (N.eqb_spec a b) as [->|]; [|discriminate]. intros E. apply IH in E. subst. reflexivity.
Qed.

Lemma simple_escape_sound e c : simple_escape e = Some c -> In (e, c) [(34, 34); (92, 92); (47, 47); (98, 8); (102, 12); (110, 10); (114, 13); (116, 9)].
Proof.
  unfold simple_escape. repeat match goal with |- context [?e =? ?k] => destruct (N.eqb_spec e k) as [->|]; [intros [= <-]; cbn; tauto|] end. discriminate.
Qed.
Theorem parse_str_sound : forall n s x r, (length s <= n)%nat -> parse_str s = Some (x, r) -> exists t, s = t ++ r /\ jstring x t.
Proof.
  assert (C : forall c o x (r : ustr), cons_str c o = Some (x, r) -> exists x', o = Some (x', r) /\ x = c :: x').
  { intros c [[x' r']|] x r; [|discriminate]. cbn. intros [= <- <-]. eauto. }
  induction n as [|n IH]; intros [|c s] x r L; cbn [length] in L; try discriminate; [lia|]. cbn [parse_str].
  destruct (N.eqb_spec c 34) as [->|N1]; [intros [= <- <-]; exists [34]; split; [reflexivity | constructor]|]. destruct (N.eqb_spec c 92) as [->|N2].
  - destruct s as [|e r1]; [discriminate|]. destruct (N.eqb_spec e 117) as [->|N3].
    + destruct r1 as [|h1 [|h2 [|h3 [|h4 r2]]]]; try discriminate. destruct (hex4 h1 h2 h3 h4) as [k|] eqn:K; [|discriminate]. apply hex4_iff in K.
      destruct ((56320 <=? k) && (k <? 57344)) eqn:K1; [discriminate|]. destruct ((55296 <=? k) && (k <? 56320)) eqn:K2.
      * destruct r2 as [|x1 [|y1 [|g1 [|g2 [|g3 [|g4 r3]]]]]]; try discriminate. destruct ((x1 =? 92) && (y1 =? 117)) eqn:Xy; [|discriminate].
        destruct (hex4 g1 g2 g3 g4) as [m|] eqn:M; [|discriminate]. apply hex4_iff in M. destruct ((56320 <=? m) && (m <? 57344)) eqn:M1; [|discriminate].
        intros E. apply C in E. destruct E as (x' & E & ->). apply IH in E; [|cbn [length] in *; lia]. destruct E as (t & -> & J).
        apply andb_true_iff in Xy. destruct Xy as [X Y]. apply N.eqb_eq in X, Y. subst.
        exists (92 :: 117 :: h1 :: h2 :: h3 :: h4 :: 92 :: 117 :: g1 :: g2 :: g3 :: g4 :: t). split; [reflexivity|]. apply js_pair; try assumption; lia.
      * intros E. apply C in E. destruct E as (x' & E & ->). apply IH in E; [|cbn [length] in *; lia]. destruct E as (t & -> & J).
        exists (92 :: 117 :: h1 :: h2 :: h3 :: h4 :: t). split; [reflexivity|]. apply js_hex; [exact K | lia | exact J].
    + destruct (simple_escape e) eqn:Es; [|discriminate]. intros E. apply C in E. destruct E as (x' & E & ->). apply IH in E; [|cbn [length] in *; lia]. destruct E as (t & -> & J).
      exists (92 :: e :: t). split; [reflexivity|]. apply js_escape; [apply simple_escape_sound, Es | exact J].
  - destruct (N.ltb_spec c 32); [discriminate|]. intros E. apply C in E. destruct E as (x' & E & ->). apply IH in E; [|cbn [length] in *; lia]. destruct E as (t & -> & J).
    exists (c :: t). split; [reflexivity|]. apply js_plain; assumption.
Qed.

Section Values.
Context `{jsonfloat}.

Lemma digits_val_some d n : digits_val d = Some n -> d <> [].
Proof. destruct d; [discriminate | discriminate]. Qed.
Lemma starts_zero_int d : digits1 d -> starts_zero d = false -> int_part d.
Proof.
  intros D S. split; [exact D|]. destruct D as [Ne D]. destruct d as [|c [|c' d]]; [congruence| |].
  - destruct (N.eqb_spec c 48) as [->|N]; [left; reflexivity | right; exact N].
  - cbn in S. right. cbn. lia.
Qed.
Lemma scan_fraction_sound s f r : scan_fraction s = Some (f, r) -> s = f ++ r /\ fraction f.
Proof.
  unfold scan_fraction. destruct s as [|c s]; [intros [= <- <-]; split; [reflexivity | left; reflexivity]|].
  destruct (N.eqb_spec c 46) as [->|]; [|intros [= <- <-]; split; [reflexivity | left; reflexivity]].
  destruct (span_digits s) as [d r'] eqn:E. apply span_digits_split in E. destruct E as [-> D]. destruct d as [|x d]; [discriminate|].
  intros [= <- <-]. split; [reflexivity|]. right. exists (x :: d). split; [reflexivity|]. split; [discriminate | exact D].
Qed.
Lemma scan_exponent_sound s e r : scan_exponent s = Some (e, r) -> s = e ++ r /\ exponent e.
Proof.
  unfold scan_exponent. destruct s as [|c s]; [intros [= <- <-]; split; [reflexivity | left; reflexivity]|].
  destruct ((c =? 101) || (c =? 69)) eqn:C; [|intros [= <- <-]; split; [reflexivity | left; reflexivity]].
  destruct (scan_exp_sign s) as [sg s1] eqn:Sg.
  assert (Q : s = sg ++ s1 /\ In sg [[]; [43]; [45]]).
  { unfold scan_exp_sign in Sg. destruct s as [|x s]; [injection Sg as <- <-; cbn; auto|]. destruct ((x =? 43) || (x =? 45)) eqn:X; injection Sg as <- <-; [|cbn; auto].
    split; [reflexivity|]. apply orb_true_iff in X. destruct X as [X|X]; apply N.eqb_eq in X; subst; cbn; auto. }
  destruct Q as [-> Q]. destruct (span_digits s1) as [d r'] eqn:E. apply span_digits_split in E. destruct E as [-> D]. destruct d as [|x d]; [discriminate|].
  intros [= <- <-]. split; [cbn; rewrite <- app_assoc; reflexivity|]. right. exists c, sg, (x :: d). split; [reflexivity|].
  split; [apply orb_true_iff in C; destruct C as [C|C]; apply N.eqb_eq in C; subst; cbn; auto|]. split; [exact Q|]. split; [discriminate | exact D].
Qed.

Theorem parse_number_sound s j r : parse_number s = Some (j, r) -> exists t, s = t ++ r /\ jtext j t /\ nesting j = 0%nat.
Proof.
  unfold parse_number. destruct (scan_sign s) as [sign s1] eqn:E1.
  assert (Q1 : s = sign ++ s1 /\ In sign [[]; [45]]).
  { unfold scan_sign in E1. destruct s as [|c s]; [injection E1 as <- <-; cbn; auto|]. destruct (N.eqb_spec c 45) as [->|]; injection E1 as <- <-; cbn; auto. }
  destruct Q1 as [-> Hs]. clear E1.
  destruct (span_digits s1) as [d s2] eqn:E2. apply span_digits_split in E2. destruct E2 as [-> D].
  destruct (digits_val d) as [n|] eqn:En; [|discriminate]. pose proof (digits_val_some d n En) as Nd.
  destruct (starts_zero d) eqn:Z; [discriminate|]. pose proof (starts_zero_int d (conj Nd D) Z) as Hd.
  destruct (scan_fraction s2) as [[f s3]|] eqn:E3; [|discriminate]. apply scan_fraction_sound in E3. destruct E3 as [-> Hf].
  destruct (scan_exponent s3) as [[e s4]|] eqn:E4; [|discriminate]. apply scan_exponent_sound in E4. destruct E4 as [-> He]. cbv zeta.
  assert (Fe : (f = [] /\ e = [] -> forall z, sign ++ d ++ f ++ e = show_int z -> ~ int64 z) -> float_or_error (sign ++ d ++ f ++ e) s4 = Some (j, r) ->
    exists t, sign ++ d ++ f ++ e ++ s4 = t ++ r /\ jtext j t /\ nesting j = 0%nat).
  { intros Big E. unfold float_or_error in E. destruct (jparse64 _) eqn:P; [|discriminate]. injection E as <- <-. exists (sign ++ d ++ f ++ e).
    split; [rewrite <- !app_assoc; reflexivity|]. split; [|reflexivity]. constructor; [|congruence]. exists sign, d, f, e. repeat (split; [assumption || reflexivity|]). exact Big. }
  pose proof (show_N_unique d n Hd En) as Ed.
  (* which integers such a text can be *)
  assert (Un : forall z, show_int z = d -> z = Z.of_N n).
  { intros z Ez. destruct z as [|p|p]; cbn [show_int] in Ez.
    - assert (V : digits_val (show_N 0) = Some 0) by apply show_N_digits. rewrite Ez, En in V. injection V as ->. reflexivity.
    - assert (V : digits_val (show_N (N.pos p)) = Some (N.pos p)) by apply show_N_digits. rewrite Ez, En in V. injection V as ->. reflexivity.
    - rewrite <- Ez in D. discriminate D. }
  assert (Ung : forall z, show_int z = 45 :: d -> n <> 0 -> z = (- Z.of_N n)%Z).
  { intros z Ez Nn. assert (G : forall m, show_N m <> 45 :: d).
    { intros m Em. destruct (show_N_digits m) as (_ & _ & B). rewrite Em in B. discriminate B. }
    destruct z as [|p|p]; cbn [show_int] in Ez; [elim (G _ Ez) | elim (G _ Ez)|]. injection Ez as Ez.
    assert (V : digits_val (show_N (N.pos p)) = Some (N.pos p)) by apply show_N_digits. rewrite Ez, En in V. injection V as ->. reflexivity. }
  destruct f as [|x f]; [|apply Fe; intros [Q _]; discriminate Q]. destruct e as [|x e]; [|apply Fe; intros [_ Q]; discriminate Q].
  cbn [app] in Fe |- *. rewrite app_nil_r in Fe |- *.
  destruct Hs as [<-|[<-|[]]]; cbn [app] in *.
  - destruct (N.leb_spec n 18446744073709551615).
    + intros [= <- <-]. exists d. split; [reflexivity|]. split; [|reflexivity]. replace d with (show_int (Z.of_N n)) by (rewrite Ed; destruct n; reflexivity).
      constructor. unfold int64. lia.
    + apply Fe. intros _ z Ez R. symmetry in Ez. apply Un in Ez. subst z. unfold int64 in R. lia.
  - destruct (N.leb_spec 1 n); [destruct (N.leb_spec n 9223372036854775808)|]; cbn [andb].
    + intros [= <- <-]. exists (45 :: d). split; [reflexivity|]. split; [|reflexivity]. replace (45 :: d) with (show_int (- Z.of_N n)) by (rewrite Ed; destruct n; [lia | reflexivity]).
      constructor. unfold int64. lia.
    + apply Fe. intros _ z Ez R. symmetry in Ez. apply Ung in Ez; [|lia]. subst z. unfold int64 in R. lia.
    + apply Fe. intros _ z Ez R. assert (n = 0) by lia. subst n. change (show_N 0) with [48] in Ed. subst d.
      assert (G : forall m, show_N m <> [45; 48]) by (intros m Em; destruct (show_N_digits m) as (_ & _ & B); rewrite Em in B; discriminate B).
      destruct z as [|p|p]; cbn [show_int] in Ez; [elim (G 0); auto | elim (G (N.pos p)); auto|].
      injection Ez as Ez. assert (V : digits_val (show_N (N.pos p)) = Some (N.pos p)) by apply show_N_digits. rewrite <- Ez in V. discriminate V.
Qed.

Definition from_value (depth : nat) (s : ustr) (j : json) (r : ustr) : Prop := exists w t, s = w ++ t ++ r /\ ws w /\ jtext j t /\ (nesting j < depth)%nat.
Definition from_items (depth : nat) (s : ustr) (l : list json) (r : ustr) : Prop :=
  exists t, s = t ++ 93 :: r /\ jitems l t /\ (fold_right (fun j n => Nat.max (nesting j) n) 0 l < depth)%nat.
Definition from_members (depth : nat) (s : ustr) (l : list (ustr * json)) (r : ustr) : Prop :=
  exists t, s = t ++ 125 :: r /\ jmembers l t /\ (fold_right (fun kv n => Nat.max (nesting (snd kv)) n) 0 l < depth)%nat.

Lemma items_ws w l t : ws w -> jitems l t -> jitems l (w ++ t).
Proof.
  intros W I. assert (Wa : forall w1, ws w1 -> ws (w ++ w1)) by (intros w1 W1 c Ic; apply in_app_or in Ic; destruct Ic; auto).
  inversion I; subst; rewrite app_assoc; constructor; auto.
Qed.
Lemma members_ws w l t : ws w -> jmembers l t -> jmembers l (w ++ t).
Proof.
  intros W I. assert (Wa : forall w1, ws w1 -> ws (w ++ w1)) by (intros w1 W1 c Ic; apply in_app_or in Ic; destruct Ic; auto).
  inversion I; subst; rewrite app_assoc; constructor; auto.
Qed.

Theorem parse_sound : forall fuel depth, (0 < depth)%nat ->
  (forall s j r, parse_value fuel depth s = Ok (j, r) -> from_value depth s j r) /\
  (forall s l r, parse_items fuel depth s = Ok (l, r) -> from_items depth s l r) /\
  (forall s l r, parse_members fuel depth s = Ok (l, r) -> from_members depth s l r).
Proof.
  induction fuel as [|fu IH]; intros depth Dp; [repeat split; intros; discriminate|].
  assert (Af : forall (a b : ustr), a ++ b = a ++ b) by reflexivity.
  split; [|split].
  - intros s j r E. rewrite parse_value_S in E. destruct (skip_ws_split s) as (w & Es & W). destruct (skip_ws s) as [|c s1]; [discriminate E|].
    assert (Sc : forall t, c :: s1 = t ++ r -> jtext j t -> (nesting j < depth)%nat -> from_value depth s j r).
    { intros t Et J N. exists w, t. rewrite Es, Et. auto. }
    destruct (N.eqb_spec c 110) as [->|]; [destruct (literal _ s1) as [s2|] eqn:L; [|discriminate E]; apply literal_sound in L; injection E as <- <-; subst s1; apply (Sc (u "null")); [reflexivity | constructor | exact Dp]|].
    destruct (N.eqb_spec c 116) as [->|]; [destruct (literal _ s1) as [s2|] eqn:L; [|discriminate E]; apply literal_sound in L; injection E as <- <-; subst s1; apply (Sc (u "true")); [reflexivity | constructor | exact Dp]|].
    destruct (N.eqb_spec c 102) as [->|]; [destruct (literal _ s1) as [s2|] eqn:L; [|discriminate E]; apply literal_sound in L; injection E as <- <-; subst s1; apply (Sc (u "false")); [reflexivity | constructor | exact Dp]|].
    destruct ((c =? 45) || is_digit c).
    { destruct (parse_number (c :: s1)) as [[j' r']|] eqn:P; [|discriminate E]. injection E as <- <-. apply parse_number_sound in P. destruct P as (t & Et & J & N). apply (Sc t Et J). lia. }
    destruct (N.eqb_spec c 34) as [->|].
    { destruct (parse_str s1) as [[x r']|] eqn:P; [|discriminate E]. injection E as <- <-. apply (parse_str_sound (length s1)) in P; [|lia]. destruct P as (t & -> & J).
      apply (Sc (34 :: t)); [reflexivity | constructor; exact J | exact Dp]. }
    destruct (N.eqb_spec c 91) as [->|].
    { destruct depth as [|[|d]]; try discriminate E. destruct (skip_ws_split s1) as (w1 & Es1 & W1). destruct (skip_ws s1) as [|c' s2]; [discriminate E|].
      destruct (N.eqb_spec c' 93) as [->|].
      - injection E as <- <-. apply (Sc (91 :: w1 ++ [93])); [rewrite Es1; cbn; rewrite <- app_assoc; reflexivity | constructor; exact W1 | cbn; lia].
      - destruct (parse_items fu (S d) (c' :: s2)) as [[l r']|k| |] eqn:P; cbn [bind] in E; try discriminate E. injection E as <- <-.
        apply (IH (S d) ltac:(lia)) in P. destruct P as (t & Et & J & N).
        apply (Sc (91 :: (w1 ++ t) ++ [93])); [rewrite Es1, Et; cbn; rewrite <- !app_assoc; reflexivity | constructor; apply items_ws; assumption | cbn [nesting]; lia]. }
    destruct (N.eqb_spec c 123) as [->|]; [|discriminate E].
    destruct depth as [|[|d]]; try discriminate E. destruct (skip_ws_split s1) as (w1 & Es1 & W1). destruct (skip_ws s1) as [|c' s2]; [discriminate E|].
    destruct (N.eqb_spec c' 125) as [->|].
    + injection E as <- <-. apply (Sc (123 :: w1 ++ [125])); [rewrite Es1; cbn; rewrite <- app_assoc; reflexivity | constructor; exact W1 | cbn; lia].
    + destruct (parse_members fu (S d) (c' :: s2)) as [[l r']|k| |] eqn:P; cbn [bind] in E; try discriminate E. injection E as <- <-.
      apply (IH (S d) ltac:(lia)) in P. destruct P as (t & Et & J & N).
      apply (Sc (123 :: (w1 ++ t) ++ [125])); [rewrite Es1, Et; cbn; rewrite <- !app_assoc; reflexivity | constructor; apply members_ws; assumption | cbn [nesting]; lia].
  - intros s l r E. rewrite parse_items_S in E. destruct (parse_value fu depth s) as [[j r1]|k| |] eqn:P; cbn [bind] in E; try discriminate E.
    apply (IH depth Dp) in P. destruct P as (w & t & -> & W & J & N). destruct (skip_ws_split r1) as (w1 & -> & W1). destruct (skip_ws r1) as [|c r2]; [discriminate E|].
    destruct (N.eqb_spec c 93) as [->|].
    + injection E as <- <-. exists (w ++ t ++ w1). split; [rewrite <- !app_assoc; reflexivity|]. split; [constructor; assumption | cbn [fold_right]; lia].
    + destruct (N.eqb_spec c 44) as [->|]; [|discriminate E]. destruct (parse_items fu depth r2) as [[l' r']|k| |] eqn:P2; cbn [bind] in E; try discriminate E. injection E as <- <-.
      apply (IH depth Dp) in P2. destruct P2 as (t2 & -> & J2 & N2). exists (w ++ t ++ w1 ++ [44] ++ t2). split; [rewrite <- !app_assoc; reflexivity|].
      split; [constructor; assumption | cbn [fold_right]; lia].
  - intros s l r E. rewrite parse_members_S in E. destruct (skip_ws_split s) as (w & Es & W). destruct (skip_ws s) as [|c s1]; [discriminate E|].
    destruct (N.eqb_spec c 34) as [->|]; [|discriminate E]. destruct (parse_str s1) as [[k r0]|] eqn:P0; [|discriminate E]. cbn [ok_or_invalid bind] in E.
    apply (parse_str_sound (length s1)) in P0; [|lia]. destruct P0 as (kt & -> & K).
    destruct (skip_ws_split r0) as (w1 & Er0 & W1). destruct (skip_ws r0) as [|c r1]; [discriminate E|]. destruct (N.eqb_spec c 58) as [->|]; [|discriminate E].
    destruct (parse_value fu depth r1) as [[j r2]|e| |] eqn:P; cbn [bind] in E; try discriminate E.
    apply (IH depth Dp) in P. destruct P as (w2 & t & -> & W2 & J & N). destruct (skip_ws_split r2) as (w3 & Er2 & W3). destruct (skip_ws r2) as [|c r3]; [discriminate E|].
    destruct (N.eqb_spec c 125) as [->|].
    + injection E as <- <-. exists (w ++ 34 :: kt ++ w1 ++ 58 :: w2 ++ t ++ w3). split; [rewrite Es, Er0, Er2; repeat (rewrite <- app_assoc; cbn [app]); reflexivity|].
      split; [constructor; assumption | cbn [fold_right snd]; lia].
    + destruct (N.eqb_spec c 44) as [->|]; [|discriminate E]. destruct (parse_members fu depth r3) as [[l' r']|e| |] eqn:P2; cbn [bind] in E; try discriminate E. injection E as <- <-.
      apply (IH depth Dp) in P2. destruct P2 as (t2 & -> & J2 & N2). exists (w ++ 34 :: kt ++ w1 ++ 58 :: w2 ++ t ++ w3 ++ [44] ++ t2).
      split; [rewrite Es, Er0, Er2; repeat (rewrite <- app_assoc; cbn [app]); reflexivity|]. split; [constructor; assumption | cbn [fold_right snd]; lia].
Qed.

Theorem parse_json_iff s j : parse_json s = Ok j <-> json_document s j.
Proof.
  split.
  - unfold parse_json. destruct (parse_value _ 128 s) as [[j' r]|k| |] eqn:P; cbn [bind]; try discriminate. destruct (skip_ws_split r) as (w' & Er & W'). destruct (skip_ws r); [|discriminate].
    intros [= <-]. apply parse_sound in P; [|lia]. destruct P as (w & t & -> & W & J & N). exists w, t, w'. rewrite Er, app_nil_r. auto.
  - intros (w & t & w' & -> & W & W' & J & N). apply parse_json_complete; assumption.
Qed.
Theorem parse_json_refuses s : (exists j, parse_json s = Ok j) \/ parse_json s = Err Invalid.
Proof. pose proof (parse_json_total s). destruct (parse_json s) as [j|k| |]; [left; eauto | right; congruence | contradiction | contradiction]. Qed.
End Values.
