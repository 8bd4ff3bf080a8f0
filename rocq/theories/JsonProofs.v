(** * The JSON parser reads every text of the grammar, within the nesting limit, and its fuel never runs out. *)
From Verif Require Import Base Decimal Serde Json JsonText JsonSpec ValueInd.
Open Scope N_scope.

(** ** White space and tokens *)
Lemma is_ws_iff c : is_ws c = true <-> In c [32; 9; 10; 13].
Proof. unfold is_ws. cbn. rewrite !orb_true_iff, !N.eqb_eq. intuition congruence. Qed.
Lemma skip_ws_app w s : ws w -> skip_ws (w ++ s) = skip_ws s.
Proof.
  induction w as [|c w IH]; intros W; [reflexivity|]. cbn [app skip_ws].
  replace (is_ws c) with true by (symmetry; apply is_ws_iff, W; left; reflexivity). apply IH. intros x I. apply W. right. exact I.
Qed.
Lemma skip_ws_idem s : skip_ws (skip_ws s) = skip_ws s.
Proof. induction s as [|c s IH]; [reflexivity|]. cbn [skip_ws]. destruct (is_ws c) eqn:E; [exact IH|]. cbn [skip_ws]. rewrite E. reflexivity. Qed.
Lemma skip_ws_len s : (length (skip_ws s) <= length s)%nat.
Proof. induction s as [|c s IH]; [apply le_n|]. cbn [skip_ws]. destruct (is_ws c); cbn [length]; lia. Qed.

Definition no_digit (s : ustr) : Prop := match s with [] => True | c :: _ => is_digit c = false end.
Lemma span_digits_app d s : forallb is_digit d = true -> no_digit s -> span_digits (d ++ s) = (d, s).
Proof.
  induction d as [|c d IH]; intros D N.
  - cbn [app]. destruct s as [|c s]; [reflexivity|]. cbn in N |- *. rewrite N. reflexivity.
  - cbn [forallb] in D. apply andb_true_iff in D. destruct D as [D1 D2]. cbn [app span_digits]. rewrite D1, (IH D2 N). reflexivity.
Qed.
Lemma span_digits_len s : (length (snd (span_digits s)) <= length s)%nat.
Proof. induction s as [|c s IH]; [apply le_n|]. cbn [span_digits]. destruct (is_digit c); [|apply le_n]. destruct (span_digits s). cbn in *. lia. Qed.

(** ** Decimal texts are unique *)
Lemma digits_acc_app s : forall a c, is_digit c = true ->
  digits_acc a (s ++ [c]) = match digits_acc a s with Some v => Some (v * 10 + (c - 48)) | None => None end.
Proof.
  induction s as [|x s IH]; intros a c D; cbn [app digits_acc].
  - rewrite D. reflexivity.
  - destruct (is_digit x); [apply IH, D | reflexivity].
Qed.
Lemma digits_acc_all s : forall a, forallb is_digit s = true -> digits_acc a s <> None.
Proof. induction s as [|x s IH]; intros a D; cbn [digits_acc forallb] in *; [discriminate|]. apply andb_true_iff in D. destruct D as [-> D]. apply IH, D. Qed.
Lemma digits_val_acc s : s <> [] -> digits_val s = digits_acc 0 s.
Proof. destruct s; [congruence | reflexivity]. Qed.
Lemma digits_f_more : forall f f' n, n < 2 ^ N.of_nat f -> (f <= f')%nat -> digits_f (S f') n = digits_f (S f) n.
Proof.
  induction f as [|f IH]; intros f' n B L.
  - assert (n = 0) as -> by (cbn in B; lia). rewrite !digits_f_S. reflexivity.
  - destruct f' as [|f']; [lia|]. rewrite (digits_f_S (S f')), (digits_f_S (S f)). destruct (n <? 10) eqn:E; [reflexivity|].
    rewrite (IH f' (n / 10)); [reflexivity| |lia]. rewrite Nat2N.inj_succ, N.pow_succ_r' in B. apply N.ltb_ge in E. lia.
Qed.
Lemma show_N_step n : show_N n = if n <? 10 then [48 + n] else show_N (n / 10) ++ [48 + n mod 10].
Proof.
  unfold show_N at 1. rewrite digits_f_S. destruct (n <? 10) eqn:E; [reflexivity|]. apply N.ltb_ge in E. unfold show_N. do 1 f_equal.
  assert (exists k, N.size_nat n = S k) as (k & Ek) by (destruct n as [|p]; [lia|]; cbn [N.size_nat]; destruct p; cbn; eauto).
  rewrite Ek. pose proof (size_nat_bound n) as B. rewrite Ek in B. rewrite Nat2N.inj_succ, N.pow_succ_r' in B.
  destruct (Nat.le_ge_cases k (N.size_nat (n / 10))) as [L|L].
  - symmetry. apply digits_f_more; [lia | exact L].
  - apply digits_f_more; [apply size_nat_bound | exact L].
Qed.
Theorem show_N_unique d n : int_part d -> digits_val d = Some n -> d = show_N n.
Proof.
  intros ((Ne & D) & Z) E. revert n E. induction d as [|c d IH] using rev_ind; intros n E; [contradiction|].
  rewrite digits_val_acc in E by exact Ne. rewrite forallb_app in D. apply andb_true_iff in D. destruct D as [D Dc]. cbn in Dc. rewrite andb_true_r in Dc.
  rewrite digits_acc_app in E by exact Dc. destruct d as [|x d].
  - cbn [digits_acc] in E. injection E as <-. rewrite show_N_step. unfold is_digit in Dc. replace (0 * 10 + (c - 48) <? 10) with true by lia. cbn [app]. f_equal. lia.
  - assert (Nx : x :: d <> []) by discriminate.
    rewrite <- digits_val_acc in E by exact Nx. destruct (digits_val (x :: d)) as [v|] eqn:Ev; [|discriminate]. injection E as <-.
    assert (Zx : x <> 48).
    { destruct Z as [Z|Z]; [|exact Z]. destruct d; discriminate. }
    assert (Ed : x :: d = show_N v) by (apply IH; [exact Nx | exact D | right; exact Zx | reflexivity]).
    assert (V : 1 <= v).
    { destruct (N.eq_dec v 0) as [->|]; [|lia]. change (show_N 0) with [48] in Ed. injection Ed as Ex _. exfalso. exact (Zx Ex). }
    rewrite show_N_step. unfold is_digit in Dc. replace (v * 10 + (c - 48) <? 10) with false by lia.
    replace ((v * 10 + (c - 48)) / 10) with v by lia. replace ((v * 10 + (c - 48)) mod 10) with (c - 48) by lia. rewrite <- Ed. do 2 f_equal. lia.
Qed.
Lemma show_N_int_part n : int_part (show_N n).
Proof.
  destruct (show_N_digits n) as (A & _ & B). split; [split; assumption|].
  destruct (N.ltb_spec n 1) as [L|L]; [left; assert (n = 0) as -> by lia; reflexivity|]. right.
  induction n as [n IH] using (well_founded_induction N.lt_wf_0). rewrite show_N_step. destruct (n <? 10) eqn:E; [cbn; lia|].
  apply N.ltb_ge in E. assert (Q : 1 <= n / 10) by lia. destruct (show_N_digits (n / 10)) as (A1 & _ & B1).
  specialize (IH (n / 10) ltac:(lia) A1 B1 Q). destruct (show_N (n / 10)); [congruence | exact IH].
Qed.
Lemma int_part_starts d : int_part d -> starts_zero d = false.
Proof. intros (_ & [->|Z]); [reflexivity|]. destruct d as [|c [|c' d]]; try reflexivity. cbn in Z |- *. lia. Qed.

(** ** Strings *)
Lemma simple_escape_ok e c : In (e, c) [(34, 34); (92, 92); (47, 47); (98, 8); (102, 12); (110, 10); (114, 13); (116, 9)] -> simple_escape e = Some c /\ e <> 117.
Proof. cbn. intros I. repeat (destruct I as [[= <- <-]|I]; [split; [reflexivity | discriminate]|]). contradiction. Qed.
Lemma hex_val_iff c v : hex_val c = Some v <-> hex_digit c v.
Proof.
  unfold hex_val, hex_digit, is_digit. split.
  - destruct ((48 <=? c) && (c <=? 57)) eqn:A; [intros [= <-]; lia|]. destruct ((97 <=? c) && (c <=? 102)) eqn:B; [intros [= <-]; lia|].
    destruct ((65 <=? c) && (c <=? 70)) eqn:C; [intros [= <-]; lia | discriminate].
  - intros [[R ->]|[[R ->]|[R ->]]].
    + replace ((48 <=? c) && (c <=? 57)) with true by lia. reflexivity.
    + replace ((48 <=? c) && (c <=? 57)) with false by lia. replace ((97 <=? c) && (c <=? 102)) with true by lia. f_equal. lia.
    + replace ((48 <=? c) && (c <=? 57)) with false by lia. replace ((97 <=? c) && (c <=? 102)) with false by lia. replace ((65 <=? c) && (c <=? 70)) with true by lia. f_equal. lia.
Qed.
Lemma hex4_iff h1 h2 h3 h4 n : hex4 h1 h2 h3 h4 = Some n <-> hex_code h1 h2 h3 h4 n.
Proof.
  unfold hex4, hex_code. split.
  - destruct (hex_val h1) as [a|] eqn:A; [|discriminate]. destruct (hex_val h2) as [b|] eqn:B; [|discriminate].
    destruct (hex_val h3) as [c|] eqn:C; [|discriminate]. destruct (hex_val h4) as [d|] eqn:D; [|discriminate].
    intros [= <-]. exists a, b, c, d. rewrite <- !hex_val_iff. repeat (split; [assumption|]). lia.
  - intros (a & b & c & d & A & B & C & D & ->). apply hex_val_iff in A, B, C, D. rewrite A, B, C, D. f_equal. lia.
Qed.
Theorem parse_str_complete s t rest : jstring s t -> parse_str (t ++ rest) = Some (s, rest).
Proof.
  induction 1 as [|c s t N1 N2 L J IH|c e s t I J IH|c h1 h2 h3 h4 s t Hx N J IH|n m h1 h2 h3 h4 g1 g2 g3 g4 s t Hn Hm Rn Rm J IH]; cbn [app parse_str].
  - reflexivity.
  - replace (c =? 34) with false by lia. replace (c =? 92) with false by lia. replace (c <? 32) with false by lia. rewrite IH. reflexivity.
  - destruct (simple_escape_ok e c I) as [E Ne]. replace (e =? 117) with false by lia. rewrite E, IH. reflexivity.
  - apply hex4_iff in Hx. cbn [N.eqb Pos.eqb]. rewrite Hx. replace ((56320 <=? c) && (c <? 57344)) with false by lia. replace ((55296 <=? c) && (c <? 56320)) with false by lia.
    rewrite IH. reflexivity.
  - apply hex4_iff in Hn, Hm. cbn [N.eqb Pos.eqb andb]. rewrite Hn. replace ((56320 <=? n) && (n <? 57344)) with false by lia. replace ((55296 <=? n) && (n <? 56320)) with true by lia.
    rewrite Hm. replace ((56320 <=? m) && (m <? 57344)) with true by lia. rewrite IH. reflexivity.
Qed.
Lemma parse_str_len : forall n s x r, (length s <= n)%nat -> parse_str s = Some (x, r) -> (length r < length s)%nat.
Proof.
  assert (C : forall c o x (r : ustr), cons_str c o = Some (x, r) -> exists x', o = Some (x', r)).
  { intros c [[x' r']|] x r; [|discriminate]. cbn. intros [= _ <-]. eauto. }
  induction n as [|n IH]; intros [|c s] x r L; cbn [length] in L; try discriminate; [lia|]. cbn [parse_str].
  destruct (c =? 34); [intros [= _ <-]; cbn; lia|]. destruct (c =? 92).
  - destruct s as [|e r1]; [discriminate|]. destruct (e =? 117).
    + destruct r1 as [|h1 [|h2 [|h3 [|h4 r2]]]]; try discriminate. destruct (hex4 h1 h2 h3 h4) as [k|]; [|discriminate].
      destruct (_ && _); [discriminate|]. destruct (_ && _).
      * destruct r2 as [|x1 [|y1 [|g1 [|g2 [|g3 [|g4 r3]]]]]]; try discriminate. destruct (_ && _); [|discriminate].
        destruct (hex4 g1 g2 g3 g4) as [m|]; [|discriminate]. destruct (_ && _); [|discriminate]. intros E. apply C in E. destruct E as (x' & E).
        apply IH in E; cbn [length] in *; lia.
      * intros E. apply C in E. destruct E as (x' & E). apply IH in E; cbn [length] in *; lia.
    + destruct (simple_escape e); [|discriminate]. intros E. apply C in E. destruct E as (x' & E). apply IH in E; cbn [length] in *; lia.
  - destruct (c <? 32); [discriminate|]. intros E. apply C in E. destruct E as (x' & E). apply IH in E; cbn [length] in *; lia.
Qed.

(** ** Numbers *)
(** What may follow a number. *)
Definition stops (s : ustr) : Prop := match s with [] => True | c :: _ => is_digit c = false /\ c <> 46 /\ c <> 101 /\ c <> 69 end.
Lemma stops_no_digit s : stops s -> no_digit s.
Proof. destruct s; [auto|]. cbn. tauto. Qed.

Section Numbers.
Context `{jsonfloat}.
Lemma parse_number_parts sign d f e rest n : In sign [[]; [45]] -> int_part d -> fraction f -> exponent e -> stops rest -> digits_val d = Some n ->
  parse_number (sign ++ d ++ f ++ e ++ rest) =
    let t := sign ++ d ++ f ++ e in
    match f, e with
    | [], [] => match sign with
                | [] => if n <=? 18446744073709551615 then Some (JInt (Z.of_N n), rest) else float_or_error t rest
                | _ => if (1 <=? n) && (n <=? 9223372036854775808) then Some (JInt (- Z.of_N n), rest) else float_or_error t rest
                end
    | _, _ => float_or_error t rest
    end.
Proof.
  intros Hs Hd Hf He St En. pose proof Hd as ((Nd & Dd) & _). unfold parse_number.
  assert (S1 : scan_sign (sign ++ d ++ f ++ e ++ rest) = (sign, d ++ f ++ e ++ rest)).
  { destruct Hs as [<-|[<-|[]]]; [|reflexivity]. cbn [app]. destruct d as [|c d]; [congruence|]. cbn [app scan_sign]. cbn in Dd. apply andb_true_iff in Dd. unfold is_digit in Dd.
    replace (c =? 45) with false by lia. reflexivity. }
  rewrite S1. clear S1.
  assert (Ne : no_digit (e ++ rest)).
  { destruct He as [->|(c & sg & x & -> & Ic & _)]; [apply stops_no_digit, St|]. cbn. destruct Ic as [<-|[<-|[]]]; reflexivity. }
  assert (Nf : no_digit (f ++ e ++ rest)).
  { destruct Hf as [->|(x & -> & _)]; [exact Ne | reflexivity]. }
  rewrite (span_digits_app d _ Dd Nf), En, (int_part_starts d Hd).
  assert (F1 : scan_fraction (f ++ e ++ rest) = Some (f, e ++ rest)).
  { destruct Hf as [->|(x & -> & (Nx & Dx))].
    - cbn [app]. destruct He as [->|(c & sg & y & -> & Ic & _)]; cbn [app scan_fraction].
      + destruct rest as [|c r]; [reflexivity|]. cbn in St. cbn [scan_fraction]. replace (c =? 46) with false by lia. reflexivity.
      + destruct Ic as [<-|[<-|[]]]; reflexivity.
    - cbn [app scan_fraction N.eqb Pos.eqb]. rewrite (span_digits_app x _ Dx Ne). destruct x; [congruence | reflexivity]. }
  rewrite F1. clear F1.
  assert (E1 : scan_exponent (e ++ rest) = Some (e, rest)).
  { destruct He as [->|(c & sg & y & -> & Ic & Isg & (Ny & Dy))]; cbn [app scan_exponent].
    - destruct rest as [|c r]; [reflexivity|]. cbn in St. cbn [scan_exponent]. replace (c =? 101) with false by lia. replace (c =? 69) with false by lia. reflexivity.
    - replace ((c =? 101) || (c =? 69)) with true by (destruct Ic as [<-|[<-|[]]]; reflexivity).
      assert (Sg : scan_exp_sign ((sg ++ y) ++ rest) = (sg, y ++ rest)).
      { destruct Isg as [<-|[<-|[<-|[]]]]; try reflexivity. cbn [app]. destruct y as [|z y]; [congruence|]. cbn [app scan_exp_sign]. cbn in Dy. apply andb_true_iff in Dy. unfold is_digit in Dy.
        replace ((z =? 43) || (z =? 45)) with false by lia. reflexivity. }
      rewrite Sg, (span_digits_app y _ Dy (stops_no_digit _ St)). destruct y; [congruence | reflexivity]. }
  rewrite E1. reflexivity.
Qed.

Theorem parse_number_int z rest : int64 z -> stops rest -> parse_number (show_int z ++ rest) = Some (JInt z, rest).
Proof.
  unfold int64. intros R St. destruct z as [|p|p]; cbn [show_int].
  - exact (parse_number_parts [] (show_N 0) [] [] rest 0 (or_introl eq_refl) (show_N_int_part 0) (or_introl eq_refl) (or_introl eq_refl) St eq_refl).
  - destruct (show_N_digits (N.pos p)) as (_ & V & _).
    pose proof (parse_number_parts [] (show_N (N.pos p)) [] [] rest _ (or_introl eq_refl) (show_N_int_part _) (or_introl eq_refl) (or_introl eq_refl) St V) as Q.
    cbn [app] in Q. rewrite Q. cbv zeta. replace (N.pos p <=? 18446744073709551615) with true by lia. reflexivity.
  - destruct (show_N_digits (N.pos p)) as (_ & V & _).
    pose proof (parse_number_parts [45] (show_N (N.pos p)) [] [] rest _ (or_intror (or_introl eq_refl)) (show_N_int_part _) (or_introl eq_refl) (or_introl eq_refl) St V) as Q.
    cbn [app] in Q |- *. rewrite Q. cbv zeta. replace ((1 <=? N.pos p) && (N.pos p <=? 9223372036854775808)) with true by lia. reflexivity.
Qed.
Theorem parse_number_float t rest : float_text t -> jparse64 t <> None -> stops rest -> parse_number (t ++ rest) = Some (JFloat t, rest).
Proof.
  intros (sign & d & f & e & -> & Hs & Hd & Hf & He & Big) Fl St. pose proof Hd as ((Nd & Dd) & _).
  destruct (digits_val d) as [n|] eqn:En; [|rewrite digits_val_acc in En by exact Nd; elim (digits_acc_all d 0 Dd En)].
  rewrite <- !app_assoc, (parse_number_parts sign d f e rest n Hs Hd Hf He St En). cbv zeta.
  assert (Fe : float_or_error (sign ++ d ++ f ++ e) rest = Some (JFloat (sign ++ d ++ f ++ e), rest)).
  { unfold float_or_error. destruct (jparse64 _); [reflexivity | congruence]. }
  destruct f as [|x f]; [|exact Fe]. destruct e as [|x e]; [|exact Fe]. specialize (Big (conj eq_refl eq_refl)). cbn [app] in *. rewrite app_nil_r in *.
  pose proof (show_N_unique d n Hd En) as Ed. destruct Hs as [<-|[<-|[]]]; cbn [app] in *.
  - destruct (N.leb_spec n 18446744073709551615); [|exact Fe]. elim (Big (Z.of_N n)); [rewrite Ed; destruct n; reflexivity | unfold int64; lia].
  - destruct (N.leb_spec 1 n); [|exact Fe]. destruct (N.leb_spec n 9223372036854775808); [|exact Fe]. cbn [andb].
    elim (Big (- Z.of_N n)%Z); [rewrite Ed; destruct n; [lia | reflexivity] | unfold int64; lia].
Qed.
Lemma parse_number_len s j r : parse_number s = Some (j, r) -> (length r < length s)%nat.
Proof.
  unfold parse_number. intros E.
  destruct (scan_sign s) as [sign s1] eqn:E1. unfold scan_sign in E1.
  assert (L1 : (length s1 <= length s)%nat) by (destruct s as [|c s0]; [injection E1 as _ <-; lia|]; destruct (c =? 45); injection E1 as _ <-; cbn; lia).
  destruct (span_digits s1) as [ip s2] eqn:E2.
  assert (L2 : digits_val ip <> None -> (length s2 < length s1)%nat).
  { intros Nn. destruct s1 as [|c s1]; cbn [span_digits] in E2; [injection E2 as <- <-; cbn in Nn; congruence|].
    destruct (is_digit c); [|injection E2 as <- <-; cbn in Nn; congruence]. pose proof (span_digits_len s1) as L. destruct (span_digits s1). injection E2 as _ <-. cbn in *. lia. }
  destruct (digits_val ip) as [n|]; [|discriminate]. specialize (L2 ltac:(discriminate)).
  destruct (starts_zero ip); [discriminate|].
  destruct (scan_fraction s2) as [[frac s3]|] eqn:E3; [|discriminate]. unfold scan_fraction in E3.
  assert (L3 : (length s3 <= length s2)%nat).
  { destruct s2 as [|c s2]; [injection E3 as _ <-; lia|]. destruct (c =? 46); [|injection E3 as _ <-; lia]. pose proof (span_digits_len s2) as L. destruct (span_digits s2) as [[|? ?] ?]; [discriminate|].
    injection E3 as _ <-. cbn in *. lia. }
  destruct (scan_exponent s3) as [[ex s4]|] eqn:E4; [|discriminate]. unfold scan_exponent in E4.
  assert (L4 : (length s4 <= length s3)%nat).
  { destruct s3 as [|c s3]; [injection E4 as _ <-; lia|]. destruct ((c =? 101) || (c =? 69)); [|injection E4 as _ <-; lia].
    destruct (scan_exp_sign s3) as [sg s3'] eqn:E5. unfold scan_exp_sign in E5.
    assert (L5 : (length s3' <= length s3)%nat) by (destruct s3 as [|y s3]; [injection E5 as _ <-; lia|]; destruct ((y =? 43) || (y =? 45)); injection E5 as _ <-; cbn; lia).
    pose proof (span_digits_len s3') as L. destruct (span_digits s3') as [[|? ?] ?]; [discriminate|]. injection E4 as _ <-. cbn in *. lia. }
  assert (R : r = s4).
  { unfold float_or_error in E. destruct frac; [destruct ex; [destruct sign; destruct (_ <=? _); try (destruct (_ <=? _))|]|]; cbn [andb] in E;
      try (injection E as _ <-; reflexivity); destruct (jparse64 _); try discriminate; injection E as _ <-; reflexivity. }
  subst r. lia.
Qed.
End Numbers.

(** ** Values *)
Section Values.
Context `{jsonfloat}.

Lemma parse_value_ws fuel depth s : parse_value fuel depth (skip_ws s) = parse_value fuel depth s.
Proof. destruct fuel; [reflexivity|]. cbn [parse_value]. rewrite skip_ws_idem. reflexivity. Qed.
Lemma parse_items_ws fuel depth s : parse_items fuel depth (skip_ws s) = parse_items fuel depth s.
Proof. destruct fuel; [reflexivity|]. cbn [parse_items]. rewrite parse_value_ws. reflexivity. Qed.
Lemma parse_members_ws fuel depth s : parse_members fuel depth (skip_ws s) = parse_members fuel depth s.
Proof. destruct fuel; [reflexivity|]. cbn [parse_members]. rewrite skip_ws_idem. reflexivity. Qed.

(** The first character of a value. *)
Lemma show_int_head z : exists c r, show_int z = c :: r /\ ((c =? 45) || is_digit c) = true.
Proof.
  assert (G : forall n, exists c r, show_N n = c :: r /\ ((c =? 45) || is_digit c) = true).
  { intros n. destruct (show_N_digits n) as (A & _ & B). destruct (show_N n) as [|c r]; [congruence|]. cbn in B. apply andb_true_iff in B. exists c, r.
    split; [reflexivity|]. destruct B as [-> _]. apply orb_true_r. }
  destruct z; cbn [show_int]; try apply G. eexists _, _. split; reflexivity.
Qed.
Lemma float_head t : float_text t -> exists c r, t = c :: r /\ ((c =? 45) || is_digit c) = true.
Proof.
  intros (sign & d & f & e & -> & Hs & ((Nd & Dd) & _) & _). destruct Hs as [<-|[<-|[]]]; [|eexists _, _; split; reflexivity].
  destruct d as [|c d]; [congruence|]. cbn in Dd. apply andb_true_iff in Dd. eexists _, _. split; [reflexivity|]. destruct Dd as [-> _]. apply orb_true_r.
Qed.
Lemma jtext_head j t : jtext j t -> exists c r, t = c :: r /\ is_ws c = false /\ c <> 93 /\ c <> 125.
Proof.
  assert (Num : forall t, (exists c r, t = c :: r /\ ((c =? 45) || is_digit c) = true) -> exists c r, t = c :: r /\ is_ws c = false /\ c <> 93 /\ c <> 125).
  { intros t0 (c & r & -> & Q). exists c, r. split; [reflexivity|]. unfold is_digit in Q. unfold is_ws. repeat split; lia. }
  destruct 1 as [| | |z R|t' F P|s t' J|w W|l t' I|w W|l t' I]; try (eexists _, _; split; [reflexivity|]; repeat split; discriminate).
  - apply Num, show_int_head.
  - apply Num, float_head, F.
Qed.

Lemma literal_app w s : literal w (w ++ s) = Some s.
Proof. induction w as [|a w IH]; [reflexivity|]. cbn [app literal]. rewrite N.eqb_refl. exact IH. Qed.

Lemma parse_number_value f depth s c r j rest : s = c :: r -> ((c =? 45) || is_digit c) = true -> parse_number s = Some (j, rest) ->
  parse_value (S f) depth s = Ok (j, rest).
Proof.
  intros -> Hc E. cbn [parse_value skip_ws]. unfold is_digit in Hc. replace (is_ws c) with false by (unfold is_ws; lia). cbv iota.
  replace (c =? 110) with false by lia. replace (c =? 116) with false by lia. replace (c =? 102) with false by lia. fold (is_digit c) in Hc. rewrite Hc, E. reflexivity.
Qed.

Lemma ws_stops w c r : ws w -> In c [44; 93; 125] -> stops (w ++ c :: r).
Proof.
  intros W I. destruct w as [|x w]; cbn.
  - cbn in I. repeat (destruct I as [<-|I]; [repeat split; discriminate|]). contradiction.
  - specialize (W x (or_introl eq_refl)). cbn in W. repeat (destruct W as [<-|W]; [repeat split; discriminate|]). contradiction.
Qed.

Scheme jtext_mut := Minimality for jtext Sort Prop
  with jitems_mut := Minimality for jitems Sort Prop
  with jmembers_mut := Minimality for jmembers Sort Prop.

Definition reads_value (j : json) (t : ustr) : Prop := forall (fuel depth : nat) (rest : ustr),
  (nesting j < depth)%nat -> (2 * length (t ++ rest) < fuel)%nat -> stops rest -> parse_value fuel depth (t ++ rest) = Ok (j, rest).
Definition reads_items (l : list json) (t : ustr) : Prop := forall (fuel depth : nat) (rest : ustr),
  (fold_right (fun j n => Nat.max (nesting j) n) 0 l < depth)%nat -> (2 * length (t ++ 93%N :: rest) + 1 < fuel)%nat -> parse_items fuel depth (t ++ 93 :: rest) = Ok (l, rest).
Definition reads_members (l : list (ustr * json)) (t : ustr) : Prop := forall (fuel depth : nat) (rest : ustr),
  (fold_right (fun kv n => Nat.max (nesting (snd kv)) n) 0 l < depth)%nat -> (2 * length (t ++ 125%N :: rest) + 1 < fuel)%nat -> parse_members fuel depth (t ++ 125 :: rest) = Ok (l, rest).

Ltac lens := repeat (rewrite app_length in * || cbn [length] in * ); lia.

Theorem parse_value_complete j t : jtext j t -> reads_value j t.
Proof.
  revert j t. apply (jtext_mut _ reads_value reads_items reads_members).
  - intros [|f] depth rest _ L _; [lia|]. reflexivity.
  - intros [|f] depth rest _ L _; [lia|]. reflexivity.
  - intros [|f] depth rest _ L _; [lia|]. reflexivity.
  - intros z R [|f] depth rest _ L St; [lia|]. destruct (show_int_head z) as (c & r & E & Hc).
    apply (parse_number_value f depth _ c (r ++ rest)); [rewrite E; reflexivity | exact Hc | apply parse_number_int; assumption].
  - intros t0 F P [|f] depth rest _ L St; [lia|]. destruct (float_head t0 F) as (c & r & E & Hc).
    apply (parse_number_value f depth _ c (r ++ rest)); [rewrite E; reflexivity | exact Hc | apply parse_number_float; assumption].
  - intros s t0 J [|f] depth rest _ L _; [lia|]. cbn [app parse_value skip_ws]. change (is_ws 34) with false. cbv iota.
    cbn [N.eqb Pos.eqb orb]. change (is_digit 34) with false. cbv iota. rewrite (parse_str_complete s t0 rest J). reflexivity.
  - intros w W [|f] depth rest D L _; [lia|]. cbn [nesting fold_right] in D. destruct depth as [|[|d]]; try lia. cbn [app parse_value skip_ws].
    change (is_ws 91) with false. cbn [N.eqb Pos.eqb orb]. change (is_digit 91) with false. cbv iota. rewrite <- app_assoc, (skip_ws_app w _ W). reflexivity.
  - intros l t0 I IH [|f] depth rest D L _; [lia|]. cbn [nesting] in D. destruct depth as [|[|d]]; try lia. cbn [app parse_value skip_ws].
    change (is_ws 91) with false. cbn [N.eqb Pos.eqb orb]. change (is_digit 91) with false. cbv iota. rewrite <- app_assoc. cbn [app].
    assert (Hd : exists c r, skip_ws (t0 ++ 93 :: rest) = c :: r /\ c <> 93).
    { destruct I as [w j t1 w' W J W'|w j t1 w' l r W J W' I]; rewrite <- app_assoc, (skip_ws_app w _ W); destruct (jtext_head j t1 J) as (c & r0 & -> & Ws & N & _);
        cbn [app skip_ws]; rewrite Ws; eauto. }
    destruct Hd as (c & r & E & N). rewrite E. replace (c =? 93) with false by lia. rewrite <- E, parse_items_ws, IH; [reflexivity|lia|].
    lens.
  - intros w W [|f] depth rest D L _; [lia|]. cbn [nesting fold_right] in D. destruct depth as [|[|d]]; try lia. cbn [app parse_value skip_ws].
    change (is_ws 123) with false. cbn [N.eqb Pos.eqb orb]. change (is_digit 123) with false. cbv iota. rewrite <- app_assoc, (skip_ws_app w _ W). reflexivity.
  - intros l t0 I IH [|f] depth rest D L _; [lia|]. cbn [nesting] in D. destruct depth as [|[|d]]; try lia. cbn [app parse_value skip_ws].
    change (is_ws 123) with false. cbn [N.eqb Pos.eqb orb]. change (is_digit 123) with false. cbv iota. rewrite <- app_assoc. cbn [app].
    assert (Hd : exists r, skip_ws (t0 ++ 125 :: rest) = 34 :: r).
    { destruct I as [w k kt w1 w2 j t1 w' W K W1 W2 J W'|w k kt w1 w2 j t1 w' l r W K W1 W2 J W' I]; rewrite <- app_assoc, (skip_ws_app w _ W); cbn [app skip_ws];
        change (is_ws 34) with false; eauto. }
    destruct Hd as (r & E). rewrite E. cbn [N.eqb Pos.eqb]. rewrite <- E, parse_members_ws, IH; [reflexivity|lia|].
    lens.
  - intros w j0 t0 w' W J IH W' [|f] depth rest D L; [lia|]. cbn [fold_right] in D. cbn [parse_items].
    rewrite <- parse_value_ws, <- !app_assoc, (skip_ws_app w _ W), parse_value_ws. rewrite IH; [|lia| |apply ws_stops; [exact W' | cbn; tauto]].
    + cbn [bind]. rewrite (skip_ws_app w' _ W'). reflexivity.
    + lens.
  - intros w j0 t0 w' l r W J IH W' I IHl [|f] depth rest D L; [lia|]. cbn [fold_right] in D. cbn [parse_items].
    rewrite <- parse_value_ws, <- !app_assoc, (skip_ws_app w _ W), parse_value_ws. rewrite IH; [|lia| |apply ws_stops; [exact W' | cbn; tauto]].
    + cbn [bind]. rewrite (skip_ws_app w' _ W'). cbn [app skip_ws]. change (is_ws 44) with false. cbn [N.eqb Pos.eqb].
      rewrite IHl; [reflexivity|lia|]. destruct (jtext_head j0 t0 J) as (c & r0 & -> & _). lens.
    + lens.
  - intros w k kt w1 w2 j0 t0 w' W K W1 W2 J IH W' [|f] depth rest D L; [lia|]. cbn [fold_right snd] in D. cbn [parse_members].
    rewrite <- !app_assoc, (skip_ws_app w _ W). cbn [app skip_ws]. change (is_ws 34) with false. cbn [N.eqb Pos.eqb].
    rewrite <- !app_assoc, (parse_str_complete k kt _ K). cbn [ok_or_invalid bind]. rewrite (skip_ws_app w1 _ W1). cbn [app skip_ws]. change (is_ws 58) with false. cbn [N.eqb Pos.eqb].
    rewrite <- !app_assoc. rewrite <- parse_value_ws, (skip_ws_app w2 _ W2), parse_value_ws. rewrite IH; [|lia| |apply ws_stops; [exact W' | cbn; tauto]].
    + cbn [bind]. rewrite (skip_ws_app w' _ W'). reflexivity.
    + lens.
  - intros w k kt w1 w2 j0 t0 w' l r W K W1 W2 J IH W' I IHl [|f] depth rest D L; [lia|]. cbn [fold_right snd] in D. cbn [parse_members].
    rewrite <- !app_assoc, (skip_ws_app w _ W). cbn [app skip_ws]. change (is_ws 34) with false. cbn [N.eqb Pos.eqb].
    rewrite <- !app_assoc, (parse_str_complete k kt _ K). cbn [ok_or_invalid bind]. rewrite (skip_ws_app w1 _ W1). cbn [app skip_ws]. change (is_ws 58) with false. cbn [N.eqb Pos.eqb].
    rewrite <- !app_assoc. rewrite <- parse_value_ws, (skip_ws_app w2 _ W2), parse_value_ws. rewrite IH; [|lia| |apply ws_stops; [exact W' | cbn; tauto]].
    + cbn [bind]. rewrite (skip_ws_app w' _ W'). cbn [app skip_ws]. change (is_ws 44) with false. cbn [N.eqb Pos.eqb].
      rewrite IHl; [reflexivity|lia|]. lens.
    + lens.
Qed.

Theorem parse_json_complete j t w w' : jtext j t -> ws w -> ws w' -> (nesting j < 128)%nat -> parse_json (w ++ t ++ w') = Ok j.
Proof.
  intros J W W' D. unfold parse_json. rewrite <- parse_value_ws, (skip_ws_app w _ W), parse_value_ws.
  rewrite (parse_value_complete j t J _ 128%nat w').
  - cbn [bind]. rewrite <- (app_nil_r w'), (skip_ws_app w' [] W'). reflexivity.
  - exact D.
  - lens.
  - destruct w' as [|c r]; [exact I|]. specialize (W' c (or_introl eq_refl)). cbn in W'. repeat (destruct W' as [<-|W']; [repeat split; discriminate|]). contradiction.
Qed.

(** ** The fuel is enough *)
Lemma parse_value_S f depth s : parse_value (S f) depth s =

      match skip_ws s with
      | [] => Err Invalid
      | c :: r =>
          if c =? 110 then match literal (u "ull") r with Some r => Ok (JNull, r) | None => Err Invalid end
          else if c =? 116 then match literal (u "rue") r with Some r => Ok (JBool true, r) | None => Err Invalid end
          else if c =? 102 then match literal (u "alse") r with Some r => Ok (JBool false, r) | None => Err Invalid end
          else if (c =? 45) || is_digit c then ok_or_invalid (parse_number (c :: r))
          else if c =? 34 then '(x, r) <- ok_or_invalid (parse_str r) ;; Ok (JStr x, r)
          else if c =? 91 then
            match depth with
            | S (S d) =>
                match skip_ws r with
                | [] => Err Invalid
                | c' :: r' => if c' =? 93 then Ok (JArr [], r') else '(l, r) <- parse_items f (S d) (c' :: r') ;; Ok (JArr l, r)
                end
            | _ => Err Invalid                                     
            end
          else if c =? 123 then
            match depth with
            | S (S d) =>
                match skip_ws r with
                | [] => Err Invalid
                | c' :: r' => if c' =? 125 then Ok (JObj [], r') else '(l, r) <- parse_members f (S d) (c' :: r') ;; Ok (JObj l, r)
                end
            | _ => Err Invalid
            end
          else Err Invalid
      end.
Proof. reflexivity. Qed.
Lemma parse_items_S f depth s : parse_items (S f) depth s =

      '(j, r) <- parse_value f depth s ;;
      match skip_ws r with
      | [] => Err Invalid
      | c :: r => if c =? 93 then Ok ([j], r)
                  else if c =? 44 then '(l, r) <- parse_items f depth r ;; Ok (j :: l, r)
                  else Err Invalid
      end.
Proof. reflexivity. Qed.
Lemma parse_members_S f depth s : parse_members (S f) depth s =

      match skip_ws s with
      | [] => Err Invalid
      | q :: r =>
          if q =? 34 then
            '(k, r) <- ok_or_invalid (parse_str r) ;;
            match skip_ws r with
            | [] => Err Invalid
            | c :: r =>
                if c =? 58 then
                  '(j, r) <- parse_value f depth r ;;
                  match skip_ws r with
                  | [] => Err Invalid
                  | c :: r => if c =? 125 then Ok ([(k, j)], r)
                              else if c =? 44 then '(l, r) <- parse_members f depth r ;; Ok ((k, j) :: l, r)
                              else Err Invalid
                  end
                else Err Invalid
            end
          else Err Invalid                                         
      end.
Proof. reflexivity. Qed.
Lemma parse_fuel : forall fuel depth s,
  ((2 * length s < fuel)%nat -> match parse_value fuel depth s with Ok (_, r) => (length r < length s)%nat | Err k => k = Invalid | _ => False end) /\
  ((2 * length s + 1 < fuel)%nat -> match parse_items fuel depth s with Ok (_, r) => (length r < length s)%nat | Err k => k = Invalid | _ => False end) /\
  ((2 * length s + 1 < fuel)%nat -> match parse_members fuel depth s with Ok (_, r) => (length r < length s)%nat | Err k => k = Invalid | _ => False end).
Proof.
  induction fuel as [|f IH]; intros depth s; [repeat split; lia|].
  assert (Lit : forall w s x, literal w s = Some x -> (length x <= length s)%nat).
  { induction w as [|a w IHw]; intros [|b s0] x; cbn [literal]; try discriminate; try (intros [= <-]; apply le_n).
    destruct (a =? b); [|discriminate]. intros E. apply IHw in E. cbn. lia. }
  repeat split; intros L.
  - rewrite parse_value_S. pose proof (skip_ws_len s) as Ls. destruct (skip_ws s) as [|c r]; [reflexivity|]. cbn [length] in Ls.
    destruct (c =? 110). { destruct (literal (u "ull") r) eqn:E; [|reflexivity]. apply Lit in E. lia. }
    destruct (c =? 116). { destruct (literal (u "rue") r) eqn:E; [|reflexivity]. apply Lit in E. lia. }
    destruct (c =? 102). { destruct (literal (u "alse") r) eqn:E; [|reflexivity]. apply Lit in E. lia. }
    destruct ((c =? 45) || is_digit c). { destruct (parse_number (c :: r)) as [[j r']|] eqn:E; [|reflexivity]. apply parse_number_len in E. cbn [length ok_or_invalid] in *. lia. }
    destruct (c =? 34). { destruct (parse_str r) as [[x r']|] eqn:E; [|reflexivity]. apply (parse_str_len (length r)) in E; [|lia]. cbn. lia. }
    destruct (c =? 91).
    { destruct depth as [|[|d]]; try reflexivity. pose proof (skip_ws_len r) as Lr. destruct (skip_ws r) as [|c' r']; [reflexivity|]. cbn [length] in Lr.
      destruct (c' =? 93); [lia|]. destruct (IH (S d) (c' :: r')) as (_ & Q & _). cbn [length] in Q. specialize (Q ltac:(lia)). revert Q. destruct (parse_items f (S d) (c' :: r')) as [[l r2]|k| |]; cbn [bind]; intros Q; auto. lia. }
    destruct (c =? 123).
    { destruct depth as [|[|d]]; try reflexivity. pose proof (skip_ws_len r) as Lr. destruct (skip_ws r) as [|c' r']; [reflexivity|]. cbn [length] in Lr.
      destruct (c' =? 125); [lia|]. destruct (IH (S d) (c' :: r')) as (_ & _ & Q). cbn [length] in Q. specialize (Q ltac:(lia)). revert Q. destruct (parse_members f (S d) (c' :: r')) as [[l r2]|k| |]; cbn [bind]; intros Q; auto. lia. }
    reflexivity.
  - rewrite parse_items_S. destruct (IH depth s) as (Q & _). specialize (Q ltac:(lia)). revert Q. destruct (parse_value f depth s) as [[j r]|k| |]; cbn [bind]; intros Q; auto.
    pose proof (skip_ws_len r) as Lr. destruct (skip_ws r) as [|c r']; [reflexivity|]. cbn [length] in Lr. destruct (c =? 93); [lia|]. destruct (c =? 44); [|reflexivity].
    destruct (IH depth r') as (_ & Q2 & _). specialize (Q2 ltac:(lia)). revert Q2. destruct (parse_items f depth r') as [[l r2]|k| |]; cbn [bind]; intros Q2; auto. lia.
  - rewrite parse_members_S. pose proof (skip_ws_len s) as Ls. destruct (skip_ws s) as [|q r]; [reflexivity|]. cbn [length] in Ls. destruct (q =? 34); [|reflexivity].
    destruct (parse_str r) as [[k r1]|] eqn:E; [|reflexivity]. apply (parse_str_len (length r)) in E; [|lia]. cbn [ok_or_invalid bind].
    pose proof (skip_ws_len r1) as L1. destruct (skip_ws r1) as [|c r2]; [reflexivity|]. cbn [length] in L1. destruct (c =? 58); [|reflexivity].
    destruct (IH depth r2) as (Q & _). specialize (Q ltac:(lia)). revert Q. destruct (parse_value f depth r2) as [[j r3]|e| |]; cbn [bind]; intros Q; auto.
    pose proof (skip_ws_len r3) as L3. destruct (skip_ws r3) as [|c' r4]; [reflexivity|]. cbn [length] in L3. destruct (c' =? 125); [lia|]. destruct (c' =? 44); [|reflexivity].
    destruct (IH depth r4) as (_ & _ & Q2). specialize (Q2 ltac:(lia)). revert Q2. destruct (parse_members f depth r4) as [[l r5]|e| |]; cbn [bind]; intros Q2; auto. lia.
Qed.
Theorem parse_json_total s : match parse_json s with Ok _ => True | Err k => k = Invalid | _ => False end.
Proof.
  unfold parse_json. destruct (parse_fuel (S (S (2 * length s))) 128 s) as (Q & _). specialize (Q ltac:(lia)). revert Q. destruct (parse_value _ 128 s) as [[j r]|k| |]; cbn [bind]; intros Q; auto. destruct (skip_ws r); auto.
Qed.
End Values.

(** ** The printers write texts of the grammar *)
Lemma hex_val_low n : n < 16 -> hex_val (hexlow n) = Some n.
Proof.
  intros L. assert (In n [0;1;2;3;4;5;6;7;8;9;10;11;12;13;14;15]) by (cbn; lia).
  cbn in H. repeat (destruct H as [<-|H]; [reflexivity|]). contradiction.
Qed.
Lemma quote_jstring s : jstring s (flat_map esc_char s ++ [34]).
Proof.
  induction s as [|c s IH]; [constructor|]. cbn [flat_map]. rewrite <- app_assoc. unfold esc_char at 1.
  destruct (N.eqb_spec c 34) as [->|N1]; [apply (js_escape 34 34); [cbn; tauto | exact IH]|].
  destruct (N.eqb_spec c 92) as [->|N2]; [apply (js_escape 92 92); [cbn; tauto | exact IH]|].
  destruct (N.eqb_spec c 8) as [->|N3]; [apply (js_escape 8 98); [cbn; tauto | exact IH]|].
  destruct (N.eqb_spec c 9) as [->|N4]; [apply (js_escape 9 116); [cbn; tauto | exact IH]|].
  destruct (N.eqb_spec c 10) as [->|N5]; [apply (js_escape 10 110); [cbn; tauto | exact IH]|].
  destruct (N.eqb_spec c 12) as [->|N6]; [apply (js_escape 12 102); [cbn; tauto | exact IH]|].
  destruct (N.eqb_spec c 13) as [->|N7]; [apply (js_escape 13 114); [cbn; tauto | exact IH]|].
  destruct (N.ltb_spec c 32) as [L|L].
  - apply js_hex; [|lia|exact IH]. apply hex4_iff. unfold hex4. change (hex_val 48) with (Some 0).
    rewrite !hex_val_low by (try apply N.mod_upper_bound; try apply N.div_lt_upper_bound; lia). f_equal.
    pose proof (N.div_mod c 16 ltac:(lia)). lia.
  - apply js_plain; assumption.
Qed.

Section Printers.
Context `{jsonfloat}.
Lemma ws_nil : ws [].
Proof. intros c []. Qed.
Lemma ws_newline n : ws (newline n).
Proof. intros c [<-|I]; [cbn; tauto|]. apply repeat_spec in I. subst c. cbn. tauto. Qed.

(** Separators around the elements: none, or new lines. *)
Lemma items_text pr w w' l : ws w -> ws w' -> Forall (fun j => jtext j (pr j)) l -> l <> [] -> jitems l (join [44] (map (fun x => w ++ pr x) l) ++ w').
Proof.
  intros W W' F. induction F as [|j l J F IH]; [congruence|]. intros _. destruct l as [|j2 l].
  - cbn [map join]. rewrite <- app_assoc. apply ji_one; assumption.
  - change (join [44] (map (fun x => w ++ pr x) (j :: j2 :: l))) with ((w ++ pr j) ++ [44] ++ join [44] (map (fun x => w ++ pr x) (j2 :: l))).
    rewrite <- !app_assoc. apply (ji_more w j (pr j) [] (j2 :: l)); [exact W | exact J | apply ws_nil | apply IH; discriminate].
Qed.
Lemma members_text pr w w1 w' l : ws w -> ws w1 -> ws w' -> Forall (fun kv => jtext (snd kv) (pr (snd kv))) l -> l <> [] ->
  jmembers l (join [44] (map (fun kv => w ++ quote (fst kv) ++ 58 :: w1 ++ pr (snd kv)) l) ++ w').
Proof.
  intros W W1 W' F. induction F as [|[k j] l J F IH]; [congruence|]. intros _. destruct l as [|j2 l].
  - cbn [map join fst snd]. pose proof (jm_one w k _ [] w1 j (pr j) w' W (quote_jstring k) ws_nil W1 J W') as Q.
    unfold quote. repeat (rewrite <- app_assoc in * || cbn [app] in * ). exact Q.
  - change (join [44] (map (fun kv => w ++ quote (fst kv) ++ 58 :: w1 ++ pr (snd kv)) ((k, j) :: j2 :: l)))
      with ((w ++ quote k ++ 58 :: w1 ++ pr j) ++ [44] ++ join [44] (map (fun kv => w ++ quote (fst kv) ++ 58 :: w1 ++ pr (snd kv)) (j2 :: l))).
    specialize (IH ltac:(discriminate)).
    pose proof (jm_more w k _ [] w1 j (pr j) [] _ _ W (quote_jstring k) ws_nil W1 J ws_nil IH) as Q. clear IH. unfold quote at 1.
    repeat (rewrite <- app_assoc in * || cbn [app] in * ). exact Q.
Qed.

Lemma fold_numbers l : fold_right (fun j P => numbers_ok j /\ P) True l -> Forall numbers_ok l.
Proof. induction l; cbn; constructor; tauto. Qed.
Lemma fold_numbers_obj l : fold_right (fun kv P => numbers_ok (snd kv) /\ P) True l -> Forall (fun kv : ustr * json => numbers_ok (snd kv)) l.
Proof. induction l; cbn; constructor; tauto. Qed.

Theorem print_json_text j : numbers_ok j -> jtext j (print_json j).
Proof.
  induction j as [|b|z|t|s|l IH|l IH] using json_ind2; intros N.
  - constructor.
  - destruct b; constructor.
  - constructor. exact N.
  - constructor; apply N.
  - constructor. apply quote_jstring.
  - cbn [numbers_ok] in N. apply fold_numbers in N. destruct l as [|j l]; [apply (jt_arr0 []), ws_nil|].
    change (print_json (JArr (j :: l))) with (91 :: join [44] (map print_json (j :: l)) ++ [93]). apply jt_arr.
    pose proof (items_text print_json [] [] (j :: l) ws_nil ws_nil) as Q. rewrite app_nil_r in Q. apply Q; [|discriminate].
    rewrite Forall_forall in *. auto.
  - cbn [numbers_ok] in N. apply fold_numbers_obj in N. destruct l as [|j l]; [apply (jt_obj0 []), ws_nil|].
    change (print_json (JObj (j :: l))) with (123 :: join [44] (map (fun kv => quote (fst kv) ++ [58] ++ print_json (snd kv)) (j :: l)) ++ [125]). apply jt_obj.
    pose proof (members_text print_json [] [] [] (j :: l) ws_nil ws_nil ws_nil) as Q. rewrite app_nil_r in Q. apply Q; [|discriminate].
    rewrite Forall_forall in *. auto.
Qed.

Theorem print_pretty_text j : numbers_ok j -> forall ind, jtext j (print_pretty ind j).
Proof.
  induction j as [|b|z|t|s|l IH|l IH] using json_ind2; intros N ind; try (apply (print_json_text _ N)).
  - cbn [numbers_ok] in N. apply fold_numbers in N. destruct l as [|j l]; [apply (jt_arr0 []), ws_nil|].
    change (print_pretty ind (JArr (j :: l))) with (91 :: join [44] (map (fun x => newline (S ind) ++ print_pretty (S ind) x) (j :: l)) ++ newline ind ++ [93]).
    rewrite app_assoc. apply jt_arr. apply items_text; try apply ws_newline; [|discriminate]. rewrite Forall_forall in *. auto.
  - cbn [numbers_ok] in N. apply fold_numbers_obj in N. destruct l as [|j l]; [apply (jt_obj0 []), ws_nil|].
    change (print_pretty ind (JObj (j :: l))) with (123 :: join [44] (map (fun kv => newline (S ind) ++ quote (fst kv) ++ 58 :: [32] ++ print_pretty (S ind) (snd kv)) (j :: l)) ++ newline ind ++ [125]).
    rewrite app_assoc. apply jt_obj. apply members_text; try apply ws_newline; [|rewrite Forall_forall in *; auto|discriminate].
    intros c [<-|[]]. cbn. tauto.
Qed.
End Printers.
