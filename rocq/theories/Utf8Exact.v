(** * The model's encoder and decoders follow the definition of UTF-8. *)
From Verif Require Import Base Utf8 Utf8Spec.
Open Scope N_scope.

Lemma utf8_exact c bs : is_scalar c = true -> (utf8 c bs <-> bs = utf8_char c).
Proof.
  intros Hs. split.
  - intros Q. unfold utf8_char. destruct Q as [a La|a b La Lb L|a b d La Lb Lc L Ns|a b d e La Lb Lc Ld L].
    + replace (a <? 128) with true by lia. reflexivity.
    + replace (_ <? 128) with false by lia. replace (_ <? 0x800) with true by lia. repeat f_equal; lia.
    + replace (_ <? 128) with false by lia. replace (_ <? 0x800) with false by lia. replace (_ <? 0x10000) with true by lia. repeat f_equal; lia.
    + replace (_ <? 128) with false by lia. replace (_ <? 0x800) with false by lia. replace (_ <? 0x10000) with false by lia. repeat f_equal; lia.
  - intros ->. unfold utf8_char, is_scalar in *. destruct (c <? 128) eqn:E1; [|destruct (c <? 0x800) eqn:E2; [|destruct (c <? 0x10000) eqn:E3]].
    + constructor. lia.
    + replace c with (64 * (c / 64) + c mod 64) at 1 by lia. constructor; lia.
    + replace c with (4096 * (c / 4096) + 64 * ((c / 64) mod 64) + c mod 64) at 1 by lia. constructor; lia.
    + replace c with (262144 * (c / 262144) + 4096 * ((c / 4096) mod 64) + 64 * ((c / 64) mod 64) + c mod 64) at 1 by lia. constructor; lia.
Qed.
Lemma utf8_scalar c bs : utf8 c bs -> is_scalar c = true.
Proof. unfold is_scalar. intros Q. destruct Q; lia. Qed.
Lemma text_bytes_exact t b : text_bytes t b -> str_ok t = true /\ b = utf8_encode t.
Proof.
  intros Q. induction Q as [|c bs t b U Q [IH1 IH2]]; [auto|]. pose proof (utf8_scalar c bs U) as Hc. apply utf8_exact in U; [|exact Hc]. subst. unfold str_ok in *. cbn [forallb]. rewrite Hc, IH1. auto.
Qed.
Lemma text_bytes_iff t b : text_bytes t b <-> str_ok t = true /\ b = utf8_encode t.
Proof.
  split; [apply text_bytes_exact|]. intros [Ht ->]. induction t as [|c t IH]; [constructor|]. unfold str_ok in *. cbn [forallb] in Ht. apply andb_true_iff in Ht. destruct Ht as [Hc Ht].
  cbn [utf8_encode flat_map]. apply TbChar; [apply utf8_exact; auto | apply IH, Ht].
Qed.

(** ** One step of the decoder *)
Lemma dec1_char c bs r b0 r0 : utf8 c bs -> bs ++ r = b0 :: r0 -> dec1 b0 r0 = (Some c, r).
Proof.
  intros U E. pose proof (utf8_scalar c bs U) as Hc. apply utf8_exact in U; [|exact Hc]. subst bs.
  destruct (utf8_char_head c r Hc) as (b & s & E' & D). rewrite E in E'. injection E' as -> ->. exact D.
Qed.
Lemma dec1_some b0 r c r' : dec1 b0 r = (Some c, r') -> exists bs, utf8 c bs /\ b0 :: r = bs ++ r'.
Proof.
  unfold dec1, cont. destruct (b0 <? 128) eqn:E0; [intros [= <- <-]; exists [b0]; split; [constructor; lia | reflexivity]|].
  destruct ((194 <=? b0) && (b0 <? 224)) eqn:E1.
  { destruct r as [|b1 r]; [discriminate|]. destruct ((128 <=? b1) && (b1 <? 192)) eqn:C1; [|discriminate]. intros [= <- <-]. exists [b0; b1]. split; [|reflexivity].
    replace [b0; b1] with [192 + (b0 - 192); 128 + (b1 - 128)] by (repeat f_equal; lia). replace ((b0 - 192) * 64 + (b1 - 128)) with (64 * (b0 - 192) + (b1 - 128)) by lia. constructor; lia. }
  destruct ((224 <=? b0) && (b0 <? 240)) eqn:E2.
  { destruct r as [|b1 r]; [discriminate|]. destruct ((_ <=? b1) && (b1 <? _)) eqn:C1; [|discriminate]. destruct r as [|b2 r]; [discriminate|]. destruct ((128 <=? b2) && (b2 <? 192)) eqn:C2; [|discriminate].
    intros [= <- <-]. exists [b0; b1; b2]. split; [|reflexivity].
    replace [b0; b1; b2] with [224 + (b0 - 224); 128 + (b1 - 128); 128 + (b2 - 128)] by (destruct (b0 =? 224), (b0 =? 237); repeat f_equal; lia).
    replace ((b0 - 224) * 4096 + (b1 - 128) * 64 + (b2 - 128)) with (4096 * (b0 - 224) + 64 * (b1 - 128) + (b2 - 128)) by lia.
    destruct (b0 =? 224) eqn:Ea, (b0 =? 237) eqn:Eb; constructor; lia. }
  destruct ((240 <=? b0) && (b0 <? 245)) eqn:E3; [|discriminate].
  destruct r as [|b1 r]; [discriminate|]. destruct ((_ <=? b1) && (b1 <? _)) eqn:C1; [|discriminate]. destruct r as [|b2 r]; [discriminate|]. destruct ((128 <=? b2) && (b2 <? 192)) eqn:C2; [|discriminate].
  destruct r as [|b3 r]; [discriminate|]. destruct ((128 <=? b3) && (b3 <? 192)) eqn:C3; [|discriminate].
  intros [= <- <-]. exists [b0; b1; b2; b3]. split; [|reflexivity].
  replace [b0; b1; b2; b3] with [240 + (b0 - 240); 128 + (b1 - 128); 128 + (b2 - 128); 128 + (b3 - 128)] by (destruct (b0 =? 240), (b0 =? 244); repeat f_equal; lia).
  replace ((b0 - 240) * 262144 + (b1 - 128) * 4096 + (b2 - 128) * 64 + (b3 - 128)) with (262144 * (b0 - 240) + 4096 * (b1 - 128) + 64 * (b2 - 128) + (b3 - 128)) by lia.
  destruct (b0 =? 240) eqn:Ea, (b0 =? 244) eqn:Eb; constructor; lia.
Qed.

(** What a character with given first bytes looks like. *)
Lemma shape c l : utf8 c l ->
  (exists a, l = [a] /\ a < 128) \/ (exists a b, l = [a; b] /\ 194 <= a < 224 /\ 128 <= b < 192) \/
  (exists a b d, l = [a; b; d] /\ 224 <= a < 240 /\ 128 <= b < 192 /\ 128 <= d < 192 /\ (a = 224 -> 160 <= b) /\ (a = 237 -> b < 160)) \/
  (exists a b d e, l = [a; b; d; e] /\ 240 <= a < 245 /\ 128 <= b < 192 /\ 128 <= d < 192 /\ 128 <= e < 192 /\ (a = 240 -> 144 <= b) /\ (a = 244 -> b < 144)).
Proof.
  intros U. destruct U as [a L|a b La Lb L|a b d La Lb Ld L Ns|a b d e La Lb Ld Le L].
  - left. eauto.
  - right; left. eexists _, _. split; [reflexivity|]. lia.
  - right; right; left. eexists _, _, _. split; [reflexivity|]. lia.
  - right; right; right. eexists _, _, _, _. split; [reflexivity|]. lia.
Qed.
Ltac shapes U := apply shape in U; destruct U as [(?a & U & ?)|[(?a & ?b & U & ?)|[(?a & ?b & ?d & U & ?)|(?a & ?b & ?d & ?e & U & ?)]]]; try discriminate U; cbn [app] in U; injection U as ? ?; subst.
Lemma dec1_none b0 r r' : dec1 b0 r = (None, r') ->
  exists p, b0 :: r = p ++ r' /\ (length p = 1%nat \/ (p <> [] /\ begins p)) /\ (forall p' s, r' = p' ++ s -> p' <> [] -> ~ begins (p ++ p')).
Proof.
  unfold dec1, cont. destruct (b0 <? 128) eqn:E0; [discriminate|].
  destruct ((194 <=? b0) && (b0 <? 224)) eqn:E1.
  { intros D. exists [b0]. assert (r' = r /\ match r with [] => True | b1 :: _ => ~ (128 <= b1 < 192) end) as [-> C].
    { destruct r as [|b1 r]; [injection D as <-; auto|]. destruct ((128 <=? b1) && (b1 <? 192)) eqn:C1; [discriminate|]. injection D as <-. split; [reflexivity | lia]. }
    split; [reflexivity|]. split; [left; reflexivity|]. intros p' s -> N (c & q & U). destruct p' as [|b1 p']; [congruence|]. cbn [app] in U, C.
    shapes U; lia. }
  destruct ((224 <=? b0) && (b0 <? 240)) eqn:E2.
  { set (lo := if b0 =? 224 then 160 else 128). set (hi := if b0 =? 237 then 160 else 192). cbv zeta.
    assert (Bd : (b0 = 224 -> lo = 160) /\ (b0 <> 224 -> lo = 128) /\ (b0 = 237 -> hi = 160) /\ (b0 <> 237 -> hi = 192)) by (unfold lo, hi; destruct (N.eqb_spec b0 224), (N.eqb_spec b0 237); lia).
    clearbody lo hi. intros D. destruct r as [|b1 r]; [exists [b0]; injection D as <-; split; [reflexivity|]; split; [left; reflexivity|]; intros p' s E N; destruct p'; [congruence | discriminate]|].
    destruct ((lo <=? b1) && (b1 <? hi)) eqn:C1.
    - exists [b0; b1]. assert (r' = r /\ match r with [] => True | b2 :: _ => ~ (128 <= b2 < 192) end) as [-> C].
      { destruct r as [|b2 r]; [injection D as <-; auto|]. destruct ((128 <=? b2) && (b2 <? 192)) eqn:C2; [discriminate|]. injection D as <-. split; [reflexivity | lia]. }
      split; [reflexivity|]. split.
      + right. split; [discriminate|]. exists (4096 * (b0 - 224) + 64 * (b1 - 128) + 0), [128]. cbn [app].
        replace [b0; b1; 128] with [224 + (b0 - 224); 128 + (b1 - 128); 128 + 0] by (repeat f_equal; lia). constructor; lia.
      + intros p' s -> N (c & q & U). destruct p' as [|b2 p']; [congruence|]. cbn [app] in U, C. shapes U; lia.
    - exists [b0]. injection D as <-. split; [reflexivity|]. split; [left; reflexivity|]. intros p' s E N (c & q & U). destruct p' as [|b1' p']; [congruence|]. injection E as <- ->. cbn [app] in U. shapes U; lia. }
  destruct ((240 <=? b0) && (b0 <? 245)) eqn:E3.
  { set (lo := if b0 =? 240 then 144 else 128). set (hi := if b0 =? 244 then 144 else 192). cbv zeta.
    assert (Bd : (b0 = 240 -> lo = 144) /\ (b0 <> 240 -> lo = 128) /\ (b0 = 244 -> hi = 144) /\ (b0 <> 244 -> hi = 192)) by (unfold lo, hi; destruct (N.eqb_spec b0 240), (N.eqb_spec b0 244); lia).
    clearbody lo hi. intros D. destruct r as [|b1 r]; [exists [b0]; injection D as <-; split; [reflexivity|]; split; [left; reflexivity|]; intros p' s E N; destruct p'; [congruence | discriminate]|].
    destruct ((lo <=? b1) && (b1 <? hi)) eqn:C1; cycle 1.
    { exists [b0]. injection D as <-. split; [reflexivity|]. split; [left; reflexivity|]. intros p' s E N (c & q & U). destruct p' as [|b1' p']; [congruence|]. injection E as <- ->. cbn [app] in U. shapes U; lia. }
    assert (B2 : forall q, q = [128; 128] -> begins [b0; b1]).
    { intros q _. exists (262144 * (b0 - 240) + 4096 * (b1 - 128) + 64 * 0 + 0), [128; 128]. cbn [app].
      replace [b0; b1; 128; 128] with [240 + (b0 - 240); 128 + (b1 - 128); 128 + 0; 128 + 0] by (repeat f_equal; lia). constructor; lia. }
    destruct r as [|b2 r]; [exists [b0; b1]; injection D as <-; split; [reflexivity|]; split; [right; split; [discriminate | apply (B2 _ eq_refl)]|]; intros p' s E N; destruct p'; [congruence | discriminate]|].
    destruct ((128 <=? b2) && (b2 <? 192)) eqn:C2.
    - exists [b0; b1; b2]. assert (r' = r /\ match r with [] => True | b3 :: _ => ~ (128 <= b3 < 192) end) as [-> C].
      { destruct r as [|b3 r]; [injection D as <-; auto|]. destruct ((128 <=? b3) && (b3 <? 192)) eqn:C3; [discriminate|]. injection D as <-. split; [reflexivity | lia]. }
      split; [reflexivity|]. split.
      + right. split; [discriminate|]. exists (262144 * (b0 - 240) + 4096 * (b1 - 128) + 64 * (b2 - 128) + 0), [128]. cbn [app].
        replace [b0; b1; b2; 128] with [240 + (b0 - 240); 128 + (b1 - 128); 128 + (b2 - 128); 128 + 0] by (repeat f_equal; lia). constructor; lia.
      + intros p' s -> N (c & q & U). destruct p' as [|b3 p']; [congruence|]. cbn [app] in U, C. shapes U; lia.
    - exists [b0; b1]. injection D as <-. split; [reflexivity|]. split; [right; split; [discriminate | apply (B2 _ eq_refl)]|]. intros p' s E N (c & q & U). destruct p' as [|b2' p']; [congruence|]. injection E as <- ->. cbn [app] in U. shapes U; lia. }
  intros [= <-]. exists [b0]. split; [reflexivity|]. split; [left; reflexivity|]. intros p' s -> N (c & q & U). destruct p' as [|b1 p']; [congruence|]. cbn [app] in U. shapes U; lia.
Qed.

(** ** The decoders *)
Lemma utf8_nonempty c bs : utf8 c bs -> bs <> [].
Proof. destruct 1; discriminate. Qed.
Lemma decode_exact f : forall b t, (length b <= f)%nat -> (utf8_decode_f f b = Some t <-> text_bytes t b).
Proof.
  induction f as [|f IH]; intros b t L.
  - destruct b; [|cbn in L; lia]. cbn. split; [intros [= <-]; constructor|]. intros T. inversion T as [|c bs s b U T' E1 E2]; [reflexivity|]. apply app_eq_nil in E2. apply utf8_nonempty in U. tauto.
  - destruct b as [|b0 r]; cbn [utf8_decode_f].
    { split; [intros [= <-]; constructor|]. intros T. inversion T as [|c bs s b U T' E1 E2]; [reflexivity|]. apply app_eq_nil in E2. apply utf8_nonempty in U. tauto. }
    cbn [length] in L. destruct (dec1 b0 r) as [[c|] r'] eqn:D.
    + destruct (dec1_some b0 r c r' D) as (bs & U & E). assert (Lr : (length r' <= f)%nat).
      { apply (f_equal (@length N)) in E. cbn [length] in E. rewrite app_length in E. pose proof (utf8_nonempty c bs U). destruct bs; [congruence|]. cbn [length] in E. lia. }
      split.
      * destruct (utf8_decode_f f r') as [s|] eqn:Es; [|discriminate]. intros [= <-]. rewrite E. constructor; [exact U|]. apply IH; assumption.
      * intros T. inversion T as [|c' bs' s b U' T' E1 E2]; subst. rewrite (dec1_char c' bs' b b0 r U' E2) in D. injection D as <- <-. apply IH in T'; [|exact Lr]. rewrite T'. reflexivity.
    + split; [discriminate|]. intros T. inversion T as [|c' bs' s b U' T' E1 E2]; subst. rewrite (dec1_char c' bs' b b0 r U' E2) in D. discriminate.
Qed.
Theorem utf8_decode_iff b t : utf8_decode b = Some t <-> text_bytes t b.
Proof. apply decode_exact. reflexivity. Qed.

Lemma lossy_run f : forall b, (length b <= f)%nat -> lossy b (utf8_lossy_f f b).
Proof.
  induction f as [|f IH]; intros b L; [destruct b; [constructor | cbn in L; lia]|]. destruct b as [|b0 r]; cbn [utf8_lossy_f]; [constructor|]. cbn [length] in L.
  destruct (dec1 b0 r) as [[c|] r'] eqn:D.
  - destruct (dec1_some b0 r c r' D) as (bs & U & E). rewrite E. constructor; [exact U|]. apply IH. apply (f_equal (@length N)) in E. cbn [length] in E. rewrite app_length in E. pose proof (utf8_nonempty c bs U). destruct bs; [congruence|]. cbn [length] in E. lia.
  - destruct (dec1_none b0 r r' D) as (p & E & S & M). rewrite E. apply LsBad; [|exact S | exact M|].
    + intros c bs s U Q. rewrite <- E in Q. symmetry in Q. rewrite (dec1_char c bs s b0 r U Q) in D. discriminate.
    + apply IH. apply (f_equal (@length N)) in E. cbn [length] in E. rewrite app_length in E. assert (p <> []) by (destruct S as [S|[S _]]; [destruct p; [discriminate | discriminate] | exact S]). destruct p; [congruence|]. cbn [length] in E. lia.
Qed.
Lemma common_prefix {A} (p q a b : list A) : p ++ a = q ++ b -> exists d, (p = q ++ d /\ b = d ++ a) \/ (q = p ++ d /\ a = d ++ b).
Proof.
  revert q. induction p as [|x p IH]; intros q E.
  - exists q. right. auto.
  - destruct q as [|y q]; [exists (x :: p); left; auto|]. cbn in E. injection E as -> E. destruct (IH q E) as (d & [[-> ->]|[-> ->]]); exists d; auto.
Qed.
Lemma lossy_nil b t : lossy b t -> b = [] -> t = [].
Proof.
  intros T. destruct T as [|c bs b t U T|p b t No S M T]; [reflexivity | |]; intros E; apply app_eq_nil in E; destruct E as [E _]; exfalso.
  - apply (utf8_nonempty c bs U E).
  - subst p. destruct S as [S|[S _]]; [discriminate | apply S; reflexivity].
Qed.
Lemma lossy_unique b t : lossy b t -> forall t', lossy b t' -> t = t'.
Proof.
  induction 1 as [|c bs b t U T IH|p b t No S M T IH]; intros t' T'.
  - symmetry. apply (lossy_nil [] t' T' eq_refl).
  - inversion T' as [E|c2 bs2 b2 t2 U2 T2 E|p b2 t2 No S M T2 E].
    + symmetry in E. apply app_eq_nil in E. apply utf8_nonempty in U. tauto.
    + destruct bs as [|b0 r0]; [apply utf8_nonempty in U; congruence|]. cbn [app] in E. pose proof (dec1_char c (b0 :: r0) b b0 (r0 ++ b) U eq_refl) as D1. rewrite (dec1_char c2 bs2 b2 b0 (r0 ++ b) U2 E) in D1. injection D1 as -> ->. f_equal. apply IH, T2.
    + elim (No c bs b U E).
  - inversion T' as [E|c2 bs2 b2 t2 U2 T2 E|p2 b2 t2 No2 S2 M2 T2 E].
    + symmetry in E. apply app_eq_nil in E. destruct E as [-> _]. destruct S as [S|[S _]]; [discriminate | elim S; reflexivity].
    + symmetry in E. elim (No c2 bs2 b2 U2 E).
    + assert (Q : p2 = p /\ b2 = b).
      { destruct (common_prefix _ _ _ _ E) as (d & [[-> ->]|[-> ->]]).
        - destruct d as [|x d]; [rewrite app_nil_r; auto|]. elim (M (x :: d) b2 eq_refl); [discriminate|]. destruct S2 as [S2|[_ S2]]; [|exact S2].
          rewrite app_length in S2. cbn [length] in S2. destruct p; [destruct S as [S|[S _]]; [discriminate | match goal with X : _ <> _ |- _ => elim X; reflexivity end] | cbn [length] in S2; lia].
        - destruct d as [|x d]; [rewrite app_nil_r; auto|]. elim (M2 (x :: d) b eq_refl); [discriminate|]. destruct S as [S|[_ S]]; [|exact S].
          rewrite app_length in S. cbn [length] in S. destruct p2; [destruct S2 as [S2|[S2 _]]; [discriminate | match goal with X : _ <> _ |- _ => elim X; reflexivity end] | cbn [length] in S; lia]. }
      destruct Q as [-> ->]. f_equal. apply IH, T2.
Qed.
Theorem utf8_lossy_iff b t : lossy b t <-> utf8_lossy b = t.
Proof.
  split.
  - intros T. apply (lossy_unique b (utf8_lossy b)); [apply lossy_run; reflexivity | exact T].
  - intros <-. apply lossy_run. reflexivity.
Qed.
