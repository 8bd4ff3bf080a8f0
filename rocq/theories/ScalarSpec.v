(** * The text of a scalar, as the protocol defines it, independently of where it is written. *)
From Verif Require Import Base Decimal Serde.
Open Scope N_scope.

(** Decimal numerals by place value, leading zeros allowed. *)
Inductive numeral : ustr -> N -> Prop :=
| NumDigit d : d < 10 -> numeral [48 + d] d
| NumSnoc s n d : numeral s n -> d < 10 -> numeral (s ++ [48 + d]) (10 * n + d).

(** The texts Rust accepts for an integer of a given type, and their value. *)
Definition int_bounds (k : ikind) : Z * Z :=
  match k with
  | I8 => (-128, 127) | I16 => (-32768, 32767) | I32 => (-2147483648, 2147483647)
  | I64 => (-9223372036854775808, 9223372036854775807)
  | U8 => (0, 255) | U16 => (0, 65535) | U32 => (0, 4294967295) | U64 => (0, 18446744073709551615)
  end%Z.
Definition int_text (k : ikind) (s : ustr) (z : Z) : Prop :=
  (fst (int_bounds k) <= z <= snd (int_bounds k))%Z /\
  ((exists n, numeral s n /\ z = Z.of_N n) \/
   (exists r n, s = u "+" ++ r /\ numeral r n /\ z = Z.of_N n) \/
   (exists r n, s = u "-" ++ r /\ numeral r n /\ z = (- Z.of_N n)%Z /\ (fst (int_bounds k) < 0)%Z)).

Lemma in_range_bounds k z : in_range k z = true <-> (fst (int_bounds k) <= z <= snd (int_bounds k))%Z.
Proof. unfold in_range. destruct k; cbn -[Z.leb]; lia. Qed.
Lemma signed_bounds k : signed k = true <-> (fst (int_bounds k) < 0)%Z.
Proof. destruct k; cbn; split; (lia || congruence || reflexivity). Qed.

Lemma digits_acc_snoc s : forall a d, digits_acc a (s ++ [d]) =
  match digits_acc a s with Some v => if is_digit d then Some (v * 10 + (d - 48)) else None | None => None end.
Proof.
  induction s as [|c s IH]; intros a d; cbn [app digits_acc]; [reflexivity|].
  destruct (is_digit c); [apply IH | reflexivity].
Qed.

Lemma digits_val_acc s : s <> [] -> digits_val s = digits_acc 0 s.
Proof. destruct s; [contradiction | reflexivity]. Qed.

Lemma numeral_nonempty s n : numeral s n -> s <> [].
Proof. intros H. destruct H; [discriminate|]. intros E. apply app_eq_nil in E. destruct E; discriminate. Qed.

Lemma digits_val_spec s n : digits_val s = Some n <-> numeral s n.
Proof.
  split.
  - revert n. induction s as [|d s IH] using rev_ind; intros n E; [discriminate|].
    rewrite digits_val_acc, digits_acc_snoc in E by (destruct s; discriminate).
    destruct (digits_acc 0 s) as [v|] eqn:A; [|discriminate]. destruct (is_digit d) eqn:D; [|discriminate].
    unfold is_digit in D. injection E as <-. replace d with (48 + (d - 48)) at 1 by lia.
    replace (v * 10 + (d - 48)) with (10 * v + (d - 48)) by lia.
    destruct s as [|c s].
    + injection A as <-. cbn [app]. replace (10 * 0 + (d - 48)) with (d - 48) by lia. apply NumDigit. lia.
    + apply NumSnoc; [|lia]. apply IH. rewrite digits_val_acc by discriminate. exact A.
  - intros H. induction H as [d L|s n d H IH L].
    + cbn [digits_val digits_acc]. unfold is_digit. replace ((48 <=? 48 + d) && (48 + d <=? 57)) with true by lia.
      f_equal. lia.
    + rewrite digits_val_acc, digits_acc_snoc by (destruct s; discriminate).
      rewrite digits_val_acc in IH by (apply (numeral_nonempty _ _ H)). rewrite IH.
      unfold is_digit. replace ((48 <=? 48 + d) && (48 + d <=? 57)) with true by lia. f_equal. lia.
Qed.

Lemma numeral_head c s n : numeral (c :: s) n -> 48 <= c <= 57.
Proof.
  intros H. apply digits_val_spec in H. cbn [digits_val digits_acc] in H. unfold is_digit in H.
  destruct ((48 <=? c) && (c <=? 57)) eqn:E; [lia | discriminate].
Qed.

Lemma parse_int_unfold k s : parse_int k s =
  match (match s with
         | c :: r => if c =? 43 then option_map Z.of_N (digits_val r)
                     else if c =? 45 then (if signed k then option_map (fun n => - Z.of_N n)%Z (digits_val r) else None)
                     else option_map Z.of_N (digits_val s)
         | [] => None end) with
  | Some z => if in_range k z then Some z else None
  | None => None
  end.
Proof.
  unfold parse_int. destruct s as [|c r]; [reflexivity|].
  destruct (c =? 43) eqn:E1; [assert (c = 43) by lia; subst; reflexivity|].
  destruct (c =? 45) eqn:E2; [assert (c = 45) by lia; subst; reflexivity|].
  assert (G : forall A (x y z : A), match c with 43 => x | 45 => y | _ => z end = z).
  { intros. destruct c as [|p]; [reflexivity|]. do 6 (destruct p as [p|p|]; try reflexivity); lia. }
  rewrite <- (G _ (option_map Z.of_N (digits_val r))
    (if signed k then option_map (fun n => - Z.of_N n)%Z (digits_val r) else None)
    (option_map Z.of_N (digits_val (c :: r)))).
  destruct c as [|p]; [reflexivity|]. do 6 (destruct p as [p|p|]; try reflexivity).
Qed.

Theorem parse_int_spec k s z : parse_int k s = Some z <-> int_text k s z.
Proof.
  rewrite parse_int_unfold. unfold int_text. split.
  - intros E. destruct s as [|c r]; [discriminate|].
    destruct (c =? 43) eqn:E1.
    + assert (c = 43) by lia. subst c. destruct (digits_val r) as [n|] eqn:D; cbn [option_map] in E; [|discriminate].
      destruct (in_range k (Z.of_N n)) eqn:R; [|discriminate]. injection E as <-.
      split; [apply in_range_bounds, R|]. right; left. exists r, n. repeat split. apply digits_val_spec, D.
    + destruct (c =? 45) eqn:E2.
      * assert (c = 45) by lia. subst c. destruct (signed k) eqn:S; [|discriminate].
        destruct (digits_val r) as [n|] eqn:D; cbn [option_map] in E; [|discriminate].
        destruct (in_range k (- Z.of_N n)) eqn:R; [|discriminate]. injection E as <-.
        split; [apply in_range_bounds, R|]. right; right. exists r, n. repeat split; [apply digits_val_spec, D|].
        apply signed_bounds, S.
      * destruct (digits_val (c :: r)) as [n|] eqn:D; cbn [option_map] in E; [|discriminate].
        destruct (in_range k (Z.of_N n)) eqn:R; [|discriminate]. injection E as <-.
        split; [apply in_range_bounds, R|]. left. exists n. split; [apply digits_val_spec, D | reflexivity].
  - intros [R [(n & D & ->) | [(r & n & -> & D & ->) | (r & n & -> & D & -> & S)]]]; apply in_range_bounds in R.
    + destruct s as [|c r]; [apply numeral_nonempty in D; contradiction|].
      pose proof (numeral_head _ _ _ D) as Hd. replace (c =? 43) with false by lia. replace (c =? 45) with false by lia.
      apply digits_val_spec in D. rewrite D. cbn [option_map]. rewrite R. reflexivity.
    + cbn [u app]. change (u "+") with [43]. cbn [app]. change (43 =? 43) with true. cbv iota.
      apply digits_val_spec in D. rewrite D. cbn [option_map]. rewrite R. reflexivity.
    + change (u "-") with [45]. cbn [app]. change (45 =? 43) with false. change (45 =? 45) with true. cbv iota.
      apply signed_bounds in S. rewrite S. apply digits_val_spec in D. rewrite D. cbn [option_map]. rewrite R. reflexivity.
Qed.

Lemma int_text_unique k s z z' : int_text k s z -> int_text k s z' -> z = z'.
Proof. intros A B. apply parse_int_spec in A. apply parse_int_spec in B. congruence. Qed.

Section ScalarSpec.
Context `{floatlib}.

(** The text a client writes for a scalar value.  [true] is written as "ture": the code's behaviour, see C13. *)
Fixpoint scalar_text (v : value) : option ustr :=
  match v with
  | SBool true => Some (u "ture")
  | SBool false => Some (u "false")
  | SInt _ z => Some (show_int z)
  | SF32 x => Some (fshow (fwiden x))
  | SF64 x => Some (fshow x)
  | SChar c => Some [c]
  | SStr s => Some s
  | SUnitVariant _ x => Some x
  | SNewtypeStruct _ v | SNewtypeVariant _ _ v => scalar_text v
  | _ => None
  end.

(** The value a server reads from a text for a scalar type; [None]: the text is refused. *)
Fixpoint read_scalar (t : ty) (s : ustr) : option value :=
  match t with
  | TBool => if ustr_eqb s (u "true") then Some (SBool true)
             else if ustr_eqb s (u "false") then Some (SBool false) else None
  | TInt k => option_map (SInt k) (parse_int k s)
  | TF32 => option_map SF32 (fparse32 s)
  | TF64 => option_map SF64 (fparse64 s)
  | TStr => Some (SStr s)
  | TNewtype n t => option_map (SNewtypeStruct n) (read_scalar t s)
  | _ => None
  end.

(** The scalar types a server can read. *)
Fixpoint readable (t : ty) : bool :=
  match t with
  | TBool | TInt _ | TF32 | TF64 | TStr => true
  | TNewtype _ t => readable t
  | _ => false
  end.

(** A scalar value of a readable type that survives: any integer of its type, any string, [false],
    any float whose printed text parses back, and newtypes of these. *)
Fixpoint faithful (t : ty) (v : value) : Prop :=
  match t, v with
  | TBool, SBool b => b = false
  | TInt k, SInt k' z => k = k' /\ in_range k z = true
  | TF32, SF32 x => fparse32 (fshow (fwiden x)) = Some x
  | TF64, SF64 x => fparse64 (fshow x) = Some x
  | TStr, SStr s => str_ok s = true
  | TNewtype n t, SNewtypeStruct n' v => n = n' /\ faithful t v
  | _, _ => False
  end.

Lemma faithful_text t : forall v, faithful t v -> exists s, scalar_text v = Some s /\ read_scalar t s = Some v.
Proof.
  induction t; intros v F; destruct v; cbn [faithful] in F; try contradiction.
  - subst b. eexists. split; reflexivity.
  - destruct F as [-> F]. exists (show_int z). split; [reflexivity|]. cbn [read_scalar].
    rewrite (parse_show_int _ _ F). reflexivity.
  - eexists. split; [reflexivity|]. cbn [read_scalar]. rewrite F. reflexivity.
  - eexists. split; [reflexivity|]. cbn [read_scalar]. rewrite F. reflexivity.
  - eexists. split; reflexivity.
  - destruct F as [-> F]. destruct (IHt v F) as (s & E1 & E2). exists s. split; [exact E1|].
    cbn [read_scalar]. rewrite E2. reflexivity.
Qed.
End ScalarSpec.

(** Booleans, possibly inside options and newtypes, and [true] of such a type. *)
Inductive boolish : ty -> value -> Prop :=
| BTrue : boolish TBool (SBool true)
| BSome t v : boolish t v -> boolish (TOption t) (SSome v)
| BNew n t v : boolish t v -> boolish (TNewtype n t) (SNewtypeStruct n v).
