(** * Decimal text of integers (std [ToString] and [FromStr]).

    Dependency: Rust std.  [to_string] is called at src/serializers/url_path.rs:85,97,
    src/serializers/url_query.rs:62,75 and src/serializers/http_header.rs:62,75; [parse] at
    src/deserializers/url_path.rs:336, src/deserializers/url_query.rs:331,
    src/deserializers/http_header.rs:349 and src/serializers/rpc_response.rs:206. *)
From Verif Require Import Base.
Open Scope N_scope.

(** The integer types of the serde data model that the serializers implement.
    src/serializers/url_path.rs:75-98 and likewise in the other serializers and deserializers. *)
Inductive ikind := I8 | I16 | I32 | I64 | U8 | U16 | U32 | U64.

(** Rust's integer types, see src/serializers/url_path.rs:75-98. *)
Definition signed (k : ikind) : bool :=
  match k with I8 | I16 | I32 | I64 => true | _ => false end.
(** Rust's integer types, see src/serializers/url_path.rs:75-98. *)
Definition imin (k : ikind) : Z :=
  match k with
  | I8 => - 2 ^ 7 | I16 => - 2 ^ 15 | I32 => - 2 ^ 31 | I64 => - 2 ^ 63
  | _ => 0
  end%Z.
(** Rust's integer types, see src/serializers/url_path.rs:75-98. *)
Definition imax (k : ikind) : Z :=
  match k with
  | I8 => 2 ^ 7 - 1 | I16 => 2 ^ 15 - 1 | I32 => 2 ^ 31 - 1 | I64 => 2 ^ 63 - 1
  | U8 => 2 ^ 8 - 1 | U16 => 2 ^ 16 - 1 | U32 => 2 ^ 32 - 1 | U64 => 2 ^ 64 - 1
  end%Z.
(** Rust's integer types, see src/serializers/url_path.rs:75-98. *)
Definition in_range (k : ikind) (z : Z) : bool := (imin k <=? z)%Z && (z <=? imax k)%Z.

(** Not in the code: which of the methods src/deserializers/url_path.rs:87-158 a type asks for. *)
Definition ikind_eqb (a b : ikind) : bool :=
  match a, b with
  | I8, I8 | I16, I16 | I32, I32 | I64, I64 | U8, U8 | U16, U16 | U32, U32 | U64, U64 => true
  | _, _ => false
  end.

Lemma ikind_eqb_eq a b : ikind_eqb a b = true <-> a = b.
Proof. destruct a, b; cbn; split; congruence. Qed.

(** Decimal digits of a natural number, most significant first, no leading zero. For [to_string] at src/serializers/url_path.rs:85,97. *)
Fixpoint digits_f (fuel : nat) (n : N) : ustr :=
  match fuel with
  | O => []
  | S f => if n <? 10 then [48 + n] else digits_f f (n / 10) ++ [48 + n mod 10]
  end.
(** [to_string] of a [u64], src/serializers/url_path.rs:97, and of the length at src/serializers/rpc_request.rs:42. *)
Definition show_N (n : N) : ustr := digits_f (S (N.size_nat n)) n.

(** [to_string] of an integer. src/serializers/url_path.rs:85,97, src/serializers/url_query.rs:62,75, src/serializers/http_header.rs:62,75. *)
Definition show_int (z : Z) : ustr :=
  match z with
  | Z0 => show_N 0
  | Zpos p => show_N (Npos p)
  | Zneg p => 45 :: show_N (Npos p)
  end.

(** For [parse] at src/deserializers/url_path.rs:336. *)
Definition is_digit (c : N) : bool := (48 <=? c) && (c <=? 57).

(** For [parse] at src/deserializers/url_path.rs:336. *)
Fixpoint digits_acc (acc : N) (s : ustr) : option N :=
  match s with
  | [] => Some acc
  | c :: r => if is_digit c then digits_acc (acc * 10 + (c - 48)) r else None
  end.
(** A non-empty run of decimal digits. For [parse] at src/deserializers/url_path.rs:336. *)
Definition digits_val (s : ustr) : option N :=
  match s with [] => None | _ => digits_acc 0 s end.

(** [str::parse::<iN/uN>()]: optional '+', '-' only for signed types, at least one digit, value in range.
    Simplification: std detects overflow while accumulating, the model at the end; the accumulation is
    monotone, so the outcomes agree.
    src/deserializers/url_path.rs:336, src/deserializers/url_query.rs:331, src/deserializers/http_header.rs:349, src/serializers/rpc_response.rs:206. *)
Definition parse_int (k : ikind) (s : ustr) : option Z :=
  let r :=
    match s with
    | 43 :: r => option_map Z.of_N (digits_val r)
    | 45 :: r => if signed k then option_map (fun n => - Z.of_N n)%Z (digits_val r) else None
    | _ => option_map Z.of_N (digits_val s)
    end in
  match r with
  | Some z => if in_range k z then Some z else None
  | None => None
  end.

(** ** Facts *)
Lemma digits_f_S f n :
  digits_f (S f) n = if n <? 10 then [48 + n] else digits_f f (n / 10) ++ [48 + n mod 10].
Proof. reflexivity. Qed.

Lemma digits_f_ok : forall f n, n < 2 ^ N.of_nat f -> digits_f (S f) n <> [] /\
  (forall acc, digits_acc acc (digits_f (S f) n) =
     Some (acc * 10 ^ N.of_nat (length (digits_f (S f) n)) + n)) /\
  forallb is_digit (digits_f (S f) n) = true.
Proof.
  induction f as [|f IH]; intros n Hn.
  - change (2 ^ N.of_nat 0) with 1 in Hn. assert (n = 0) by lia. subst.
    split; [discriminate|]. split; [|reflexivity].
    intros acc. change (digits_f 1 0) with [48]. cbn [length digits_acc]. change (is_digit 48) with true. cbv iota. reflexivity.
  - rewrite (digits_f_S (S f) n). destruct (n <? 10) eqn:E.
    + repeat split; try discriminate.
      * intros acc. cbn [digits_acc length]. unfold is_digit.
        replace ((48 <=? 48 + n) && (48 + n <=? 57)) with true by lia.
        f_equal. change (N.of_nat 1) with 1. rewrite N.pow_1_r. lia.
      * cbn. unfold is_digit. replace ((48 <=? 48 + n) && (48 + n <=? 57)) with true by lia. reflexivity.
    + assert (Hd : n / 10 < 2 ^ N.of_nat f).
      { rewrite Nat2N.inj_succ, N.pow_succ_r' in Hn. lia. }
      destruct (IH (n / 10) Hd) as (H1 & H2 & H3).
      set (d := digits_f (S f) (n / 10)) in *.
      repeat split.
      * intros E0; apply app_eq_nil in E0; destruct E0; discriminate.
      * intros acc.
        assert (G : forall s a, digits_acc a (s ++ [48 + n mod 10]) =
                     match digits_acc a s with Some v => Some (v * 10 + n mod 10) | None => None end).
        { clear. induction s as [|c s IHs]; intros a; cbn [app digits_acc].
          - unfold is_digit. replace ((48 <=? 48 + n mod 10) && (48 + n mod 10 <=? 57)) with true by lia.
            f_equal. lia.
          - destruct (is_digit c); [apply IHs | reflexivity]. }
        rewrite G, H2. f_equal. rewrite app_length. cbn [length].
        replace (N.of_nat (length d + 1)) with (N.succ (N.of_nat (length d))) by lia.
        rewrite N.pow_succ_r'. generalize (10 ^ N.of_nat (length d)). intros p.
        rewrite N.mul_add_distr_r. pose proof (N.div_mod n 10). lia.
      * rewrite forallb_app, H3. cbn. unfold is_digit.
        replace ((48 <=? 48 + n mod 10) && (48 + n mod 10 <=? 57)) with true by lia. reflexivity.
Qed.

Lemma size_nat_bound n : n < 2 ^ N.of_nat (N.size_nat n).
Proof.
  destruct n as [|p]; [cbn; lia|]. cbn [N.size_nat].
  induction p as [p IH|p IH|]; cbn [Pos.size_nat].
  - rewrite Nat2N.inj_succ, N.pow_succ_r'. change (N.pos p~1) with (2 * N.pos p + 1). lia.
  - rewrite Nat2N.inj_succ, N.pow_succ_r'. change (N.pos p~0) with (2 * N.pos p). lia.
  - cbn. lia.
Qed.

Lemma show_N_digits n : show_N n <> [] /\ digits_val (show_N n) = Some n /\ forallb is_digit (show_N n) = true.
Proof.
  unfold show_N. destruct (digits_f_ok (N.size_nat n) n (size_nat_bound n)) as (H1 & H2 & H3).
  repeat split; [exact H1 | | exact H3].
  unfold digits_val. destruct (digits_f (S (N.size_nat n)) n) as [|c r] eqn:E; [contradiction|].
  rewrite H2. reflexivity.
Qed.

Lemma digit_head s : forallb is_digit s = true -> s <> [] ->
  exists c r, s = c :: r /\ c <> 43 /\ c <> 45.
Proof.
  destruct s as [|c r]; intros H Hn; [contradiction|].
  exists c, r. cbn in H. apply andb_true_iff in H. destruct H as [H _].
  unfold is_digit in H. repeat split; lia.
Qed.

Lemma parse_int_digits k s : forallb is_digit s = true -> s <> [] ->
  parse_int k s = match digits_val s with
                  | Some n => if in_range k (Z.of_N n) then Some (Z.of_N n) else None
                  | None => None
                  end.
Proof.
  intros H Hn. destruct (digit_head s H Hn) as (c & r & -> & Hc1 & Hc2).
  unfold parse_int.
  assert (E : match c :: r with
    | 43 :: r => option_map Z.of_N (digits_val r)
    | 45 :: r => if signed k then option_map (fun n => - Z.of_N n)%Z (digits_val r) else None
    | _ => option_map Z.of_N (digits_val (c :: r))
    end = option_map Z.of_N (digits_val (c :: r))).
  { clear H. destruct c as [|p]; [reflexivity|].
    do 6 (destruct p as [p|p|]; try reflexivity); congruence. }
  rewrite E. destruct (digits_val (c :: r)); reflexivity.
Qed.

Theorem parse_show_int k z : in_range k z = true -> parse_int k (show_int z) = Some z.
Proof.
  intros Hr. destruct z as [|p|p]; cbn [show_int].
  - destruct (show_N_digits 0) as (H1 & H2 & H3). rewrite parse_int_digits by assumption.
    rewrite H2. change (Z.of_N 0) with 0%Z. rewrite Hr. reflexivity.
  - destruct (show_N_digits (N.pos p)) as (H1 & H2 & H3). rewrite parse_int_digits by assumption.
    rewrite H2. change (Z.of_N (N.pos p)) with (Z.pos p). rewrite Hr. reflexivity.
  - destruct (show_N_digits (N.pos p)) as (H1 & H2 & H3).
    unfold parse_int. rewrite H2.
    assert (Hs : signed k = true).
    { destruct k; try reflexivity; unfold in_range in Hr; cbn [imin] in Hr; lia. }
    rewrite Hs. cbn [option_map]. change (- Z.of_N (N.pos p))%Z with (Z.neg p). rewrite Hr. reflexivity.
Qed.

Lemma show_int_chars z : forallb (fun c => is_digit c || (c =? 45)) (show_int z) = true.
Proof.
  assert (G : forall n, forallb (fun c => is_digit c || (c =? 45)) (show_N n) = true).
  { intros n. destruct (show_N_digits n) as (_ & _ & H).
    revert H. apply forallb_impl. intros x ->. reflexivity. }
  destruct z; cbn [show_int]; try apply G.
Qed.

Lemma show_int_nonempty z : show_int z <> [].
Proof.
  destruct z; cbn [show_int]; try discriminate; apply show_N_digits.
Qed.
