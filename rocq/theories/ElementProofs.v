(** * Proofs about numbers, names and addresses. *)
From Verif Require Import Base Decimal Utf8 SerHeader DeHeader DepHttp Procedure Router RouterProofs Pool PoolProofs ScalarSpec JsonSpec JsonProofs ElementSpec.
Open Scope N_scope.

Lemma numeral_last s n : numeral s n -> (exists d, d < 10 /\ s = [48 + d] /\ n = d) \/ (exists t m d, numeral t m /\ d < 10 /\ s = t ++ [48 + d] /\ n = 10 * m + d).
Proof. destruct 1 as [d L|s n d Q L]; [left; eauto | right; exists s, n, d; auto]. Qed.
Lemma no_zero_front t x : t <> [] -> no_leading_zero (t ++ [x]) -> no_leading_zero t.
Proof. intros N Q r ->. apply (Q (r ++ [x])). rewrite <- app_assoc. reflexivity. Qed.
Lemma no_zero_pos s n : numeral s n -> no_leading_zero s -> 0 < n.
Proof.
  induction 1 as [d L|s n d Q IH L]; intros Z.
  - destruct (N.eq_dec d 0) as [->|N]; [elim (Z []); reflexivity | lia].
  - pose proof (IH (no_zero_front s _ (numeral_nonempty s n Q) Z)). lia.
Qed.
Lemma numeral_unique s n : numeral s n -> no_leading_zero s -> forall t, numeral t n -> no_leading_zero t -> s = t.
Proof.
  induction 1 as [d L|s n d Q IH L]; intros Z t T Zt; apply numeral_last in T; destruct T as [(e & Le & -> & En)|(t' & m & e & T & Le & -> & En)].
  - subst. reflexivity.
  - pose proof (no_zero_pos t' m T (no_zero_front t' _ (numeral_nonempty t' m T) Zt)). lia.
  - pose proof (no_zero_pos s n Q (no_zero_front s _ (numeral_nonempty s n Q) Z)). lia.
  - assert (m = n /\ e = d) as [-> ->] by lia. f_equal. apply IH; [apply (no_zero_front s _ (numeral_nonempty s n Q) Z) | exact T | apply (no_zero_front t' _ (numeral_nonempty t' n T) Zt)].
Qed.
Lemma show_N_numeral n : numeral (show_N n) n.
Proof. apply digits_val_spec, show_N_digits. Qed.
Lemma show_N_no_zero p : no_leading_zero (show_N (Npos p)).
Proof.
  intros r E. destruct (show_N_int_part (Npos p)) as [_ [Z|Z]].
  - assert (X : numeral [48] (Npos p)) by (rewrite <- Z; apply show_N_numeral). apply digits_val_spec in X. discriminate X.
  - rewrite E in Z. cbn in Z. lia.
Qed.
Theorem decimal_exact z s : decimal z s <-> s = show_int z.
Proof.
  split.
  - intros Q. destruct Q as [|s n Q Z|s n Q Z].
    + reflexivity.
    + pose proof (no_zero_pos s n Q Z). destruct n as [|p]; [lia|]. cbn [Z.of_N show_int]. apply (numeral_unique s _ Q Z); [apply show_N_numeral | apply show_N_no_zero].
    + pose proof (no_zero_pos s n Q Z). destruct n as [|p]; [lia|]. cbn [Z.of_N Z.opp show_int]. change (u "-" ++ s) with (45 :: s). f_equal. apply (numeral_unique s _ Q Z); [apply show_N_numeral | apply show_N_no_zero].
  - intros ->. destruct z as [|p|p]; cbn [show_int].
    + exact DecZero.
    + apply (DecPos (show_N (Npos p)) (Npos p)); [apply show_N_numeral | apply show_N_no_zero].
    + apply (DecNeg (show_N (Npos p)) (Npos p)); [apply show_N_numeral | apply show_N_no_zero].
Qed.
Lemma show_N_decimal n s : decimal (Z.of_N n) s <-> s = show_N n.
Proof. rewrite decimal_exact. destruct n; reflexivity. Qed.

(** ** Names *)
Lemma capital_exact c d : capital c d <-> 65 <= c <= 90 /\ d = c + 32.
Proof.
  split.
  - intros (i & C & D). assert (L : (i < 26)%nat) by (change 26%nat with (length (u "ABCDEFGHIJKLMNOPQRSTUVWXYZ")); apply nth_error_Some; congruence).
    do 26 (destruct i as [|i]; [injection C as <-; injection D as <-; vm_compute; intuition discriminate|]). lia.
  - intros [L ->]. exists (N.to_nat (c - 65)). assert (X : exists i, (i < 26)%nat /\ c = 65 + N.of_nat i) by (exists (N.to_nat (c - 65)); lia). destruct X as (i & Li & ->).
    replace (N.to_nat (65 + N.of_nat i - 65)) with i by lia. do 26 (destruct i as [|i]; [split; reflexivity|]). lia.
Qed.
Theorem lowercase_exact s t : Forall2 small s t <-> t = lowercase s.
Proof.
  assert (C : forall c d, small c d <-> d = lower c).
  { intros c d. unfold small, lower. rewrite capital_exact. destruct ((65 <=? c) && (c <=? 90)) eqn:E.
    - split; [intros [[_ ->]|[-> N]]; [reflexivity|]; elim (N (c + 32)); apply capital_exact; lia|]. intros ->. left. split; [lia | reflexivity].
    - split; [intros [[L _]|[-> _]]; [lia | reflexivity]|]. intros ->. right. split; [reflexivity|]. intros e Q. apply capital_exact in Q. lia. }
  revert t. induction s as [|c s IH]; intros t; cbn [lowercase map].
  - split; [intros Q; inversion Q; reflexivity | intros ->; constructor].
  - split; [intros Q; inversion Q; subst; f_equal; [apply C; assumption | apply IH; assumption]|]. intros ->. constructor; [apply C; reflexivity | apply IH; reflexivity].
Qed.
Lemma method_eqb_eq a b : method_eqb a b = true <-> a = b.
Proof. unfold method_eqb. destruct (method_eq_dec a b); split; congruence. Qed.

(** ** Addresses *)
Lemma saddr_eqb_eq a b : saddr_eqb a b = true <-> a = b.
Proof. destruct (saddr_eqb_spec a b); split; congruence. Qed.
Lemma sooner_cons x y a b : sooner (x :: a) (y :: b) <-> x < y \/ (x = y /\ sooner a b).
Proof.
  split.
  - intros (pre & p & q & r & r' & E & E' & L). destruct pre as [|z pre]; cbn in *; injection E as -> ->; injection E' as -> ->; [left; exact L|]. right. split; [reflexivity|]. exists pre, p, q, r, r'. auto.
  - intros [L|[-> (pre & p & q & r & r' & -> & -> & L)]]; [exists [], x, y, a, b; auto|]. exists (y :: pre), p, q, r, r'. auto.
Qed.
Lemma sooner_nil b : ~ sooner [] b.
Proof. intros (pre & p & q & r & r' & E & _). destruct pre; discriminate. Qed.
Lemma sooner_lt x y : sooner (places x) (places y) <-> cid_lt x y.
Proof.
  unfold places, cid_lt. destruct x as [[i p|i p f s] n], y as [[i' p'|i' p' f' s'] n']; cbn [id_addr id_seq ip_fam ip_of port_of];
    rewrite !sooner_cons; pose proof (sooner_nil []); tauto.
Qed.
Theorem cid_cmp_exact x y : (cid_cmp x y = Lt <-> sooner (places x) (places y)) /\ (cid_cmp x y = Eq <-> places x = places y) /\ (cid_cmp x y = Gt <-> sooner (places y) (places x)).
Proof.
  rewrite !sooner_lt. assert (E : places x = places y <-> cid_eqv x y).
  { unfold places, cid_eqv. destruct x as [[i p|i p f s] n], y as [[i' p'|i' p' f' s'] n']; cbn [id_addr id_seq ip_fam ip_of port_of]; (split; [intros Q; injection Q; intros; subst; repeat split; try lia; auto | intros (A & B & C & D); try discriminate A; subst; reflexivity]). }
  rewrite E. pose proof (cid_cmp_spec x y) as S. assert (I1 : ~ (cid_lt x y /\ cid_lt y x)) by (unfold cid_lt; lia). assert (I2 : ~ (cid_lt x y /\ cid_eqv x y)) by (unfold cid_lt, cid_eqv; lia). assert (I3 : ~ (cid_lt y x /\ cid_eqv x y)) by (unfold cid_lt, cid_eqv; lia).
  destruct (cid_cmp x y); intuition congruence.
Qed.

(** ** The length of a body *)
From Verif Require Import DepUrl Serde Procedure PathSpec FieldSpec SerHeader SerRequest RequestSpec RequestProofs SerResponse ResponseSpec ResponseProofs.
Lemma request_length `{urlenv} `{floatlib} ep v len r : encode_request ep v len = Ok r ->
  exists hs s, rb_headers r = hs ++ [(u "Content-Length", s)] /\ decimal (Z.of_N len) s.
Proof.
  intros E. apply encode_ok_iff in E. destruct E as (b & _ & S). destruct S as [ps q hs tss ql ls _ _ _ _|ts _]; cbn [rb_headers].
  - exists (concat ls), (show_N len). split; [reflexivity | apply show_N_decimal; reflexivity].
  - exists [], (show_N len). split; [reflexivity | apply show_N_decimal; reflexivity].
Qed.
Lemma response_length `{floatlib} v len r : encode_response v len = Ok r ->
  exists hs s, pb_headers r = hs ++ [(u "Content-Length", s)] /\ decimal (Z.of_N len) s.
Proof. intros E. apply encode_response_iff in E. destruct E as (st & hs & _ & ->). exists hs, (show_N len). split; [reflexivity | apply show_N_decimal; reflexivity]. Qed.

(** ** Headers that HTTP carries *)
Lemma token_char_iff c : token_char c = true <-> In c token_chars.
Proof.
  assert (T : forallb (fun c => Bool.eqb (token_char c) (mem c token_chars)) (map N.of_nat (seq 0 128)) = true) by (vm_compute; reflexivity).
  assert (B : forallb (fun c => c <? 128) token_chars = true) by (vm_compute; reflexivity).
  rewrite forallb_forall in T. rewrite forallb_forall in B. destruct (N.ltb_spec c 128) as [L|L].
  - assert (I : In c (map N.of_nat (seq 0 128))).
    { apply in_map_iff. exists (N.to_nat c). split; [lia|]. apply in_seq. lia. }
    specialize (T c I). apply Bool.eqb_prop in T. rewrite T. apply mem_In.
  - split.
    + intros E. assert (A : all_ascii [c] = true) by (apply token_ascii; cbn [forallb]; rewrite E; reflexivity).
      unfold all_ascii, is_ascii in A. cbn [forallb] in A. lia.
    + intros I. specialize (B c I). cbv beta in B. lia.
Qed.
Lemma value_byte_iff c : value_byte c = true <-> c = 9 \/ 32 <= c <= 126 \/ 128 <= c <= 255.
Proof. unfold value_byte. lia. Qed.
Lemma edge_blank_iff v : edge_blank v = false <-> (forall c r, v = c :: r -> c <> 32 /\ c <> 9) /\ (forall c r, v = r ++ [c] -> c <> 32 /\ c <> 9).
Proof.
  assert (Bl : forall c, blank c = false <-> c <> 32 /\ c <> 9) by (intros c; unfold blank; lia).
  destruct v as [|c v]; cbn [edge_blank].
  - split; [|reflexivity]. intros _. split; [discriminate|]. intros c r E. destruct r; discriminate E.
  - rewrite orb_false_iff, !Bl. destruct (@exists_last _ (c :: v) ltac:(discriminate)) as (r & x & E). assert (La : last (c :: v) 0 = x) by (rewrite E; apply last_last). rewrite La. split.
    + intros [H1 H2]. split; [intros c' r' [= <- <-]; exact H1|]. intros c' r' E'. rewrite E in E'. apply app_inj_tail in E'. destruct E' as [_ <-]. exact H2.
    + intros [H1 H2]. split; [apply (H1 c v); reflexivity | apply (H2 x r); exact E].
Qed.
Theorem safe_header_iff h : safe_header h = true <-> travels h.
Proof.
  unfold safe_header, travels. rewrite !andb_true_iff, !negb_true_iff, !forallb_forall, !Forall_forall, edge_blank_iff.
  assert (E : match fst h with [] => true | _ => false end = false <-> fst h <> []) by (destruct (fst h); split; congruence).
  rewrite E. split.
  - intros (((H1 & H2) & H3) & H4). split; [exact H1|]. split; [intros c I; apply token_char_iff, H2, I|]. split; [intros c I; apply value_byte_iff, H3, I | exact H4].
  - intros (H1 & H2 & H3 & H4). split; [|exact H4]. split; [split; [exact H1|]|]; intros c I; [apply token_char_iff, H2, I | apply value_byte_iff, H3, I].
Qed.
