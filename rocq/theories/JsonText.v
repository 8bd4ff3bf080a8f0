(** * Reading JSON text, as serde_json (through serdeconv) does, and pretty printing.

    Dependency: serdeconv 0.4 / serde_json 1.  [from_json_str] is called at src/json.rs:32 and [from_json_slice] at
    src/rfc7807.rs:50, [to_json_string_pretty] at src/rfc7807.rs:46 and src/json_pretty.rs:18.
    Simplification: the text is read into a [json] tree first and the tree is then decoded (JsonDe.v), where serde_json
    decodes while reading; the two differ only for values skipped while reading (not nested deeper than allowed, no range
    check of floats, surrogates unchecked in serde_json). *)
From Verif Require Import Base Decimal Serde Json.
Open Scope N_scope.

(** How serde_json reads a number with a fraction, an exponent or too many digits as [f64]/[f32]; left open.
    For [from_json_str] at src/json.rs:32 and [from_json_slice] at src/rfc7807.rs:50. *)
Class jsonfloat := {
  jparse64 : ustr -> option N;   (** [None]: out of range *)
  jparse32 : ustr -> option N
}.

(** Token scanning. For [from_json_str] at src/json.rs:32 and [from_json_slice] at src/rfc7807.rs:50. *)
Definition is_ws (c : N) : bool := (c =? 32) || (c =? 10) || (c =? 9) || (c =? 13).
(** For [from_json_str] at src/json.rs:32 and [from_json_slice] at src/rfc7807.rs:50. *)
Fixpoint skip_ws (s : ustr) : ustr := match s with c :: r => if is_ws c then skip_ws r else s | [] => [] end.
(** For [from_json_str] at src/json.rs:32 and [from_json_slice] at src/rfc7807.rs:50. *)
Fixpoint span_digits (s : ustr) : ustr * ustr :=
  match s with
  | c :: r => if is_digit c then let (d, r) := span_digits r in (c :: d, r) else ([], s)
  | [] => ([], [])
  end.
(** [parse_ident]: the rest of a literal name. For [from_json_str] at src/json.rs:32 and [from_json_slice] at src/rfc7807.rs:50. *)
Fixpoint literal (w s : ustr) : option ustr :=
  match w, s with
  | [], s => Some s
  | a :: w, b :: s => if a =? b then literal w s else None
  | _ :: _, [] => None
  end.

(** serde_json read.rs [parse_escape], [decode_hex_escape]. For [from_json_str] at src/json.rs:32 and [from_json_slice] at src/rfc7807.rs:50. *)
Definition hex_val (c : N) : option N :=
  if is_digit c then Some (c - 48)
  else if (97 <=? c) && (c <=? 102) then Some (c - 87)
  else if (65 <=? c) && (c <=? 70) then Some (c - 55)
  else None.
(** For [from_json_str] at src/json.rs:32 and [from_json_slice] at src/rfc7807.rs:50. *)
Definition hex4 (a b c d : N) : option N :=
  match hex_val a, hex_val b, hex_val c, hex_val d with
  | Some a, Some b, Some c, Some d => Some (((a * 16 + b) * 16 + c) * 16 + d)
  | _, _, _, _ => None
  end.
(** For [from_json_str] at src/json.rs:32 and [from_json_slice] at src/rfc7807.rs:50. *)
Definition simple_escape (c : N) : option N :=
  if c =? 34 then Some 34 else if c =? 92 then Some 92 else if c =? 47 then Some 47 else if c =? 98 then Some 8
  else if c =? 102 then Some 12 else if c =? 110 then Some 10 else if c =? 114 then Some 13 else if c =? 116 then Some 9
  else None.
(** For [from_json_str] at src/json.rs:32 and [from_json_slice] at src/rfc7807.rs:50. *)
Definition cons_str (c : N) (o : option (ustr * ustr)) : option (ustr * ustr) :=
  match o with Some (s, r) => Some (c :: s, r) | None => None end.

(** serde_json read.rs [parse_str], after the opening quote: the string and what follows the closing quote.
    For [from_json_str] at src/json.rs:32 and [from_json_slice] at src/rfc7807.rs:50. *)
Fixpoint parse_str (s : ustr) : option (ustr * ustr) :=
  match s with
  | [] => None
  | c :: r =>
      if c =? 34 then Some ([], r)
      else if c =? 92 then
        match r with
        | [] => None
        | e :: r1 =>
            if e =? 117 then
              match r1 with
              | h1 :: h2 :: h3 :: h4 :: r2 =>
                  match hex4 h1 h2 h3 h4 with
                  | None => None
                  | Some n =>
                      if (0xDC00 <=? n) && (n <? 0xE000) then None
                      else if (0xD800 <=? n) && (n <? 0xDC00) then
                        match r2 with
                        | x :: y :: g1 :: g2 :: g3 :: g4 :: r3 =>
                            if (x =? 92) && (y =? 117) then
                              match hex4 g1 g2 g3 g4 with
                              | Some m => if (0xDC00 <=? m) && (m <? 0xE000)
                                          then cons_str (0x10000 + (n - 0xD800) * 1024 + (m - 0xDC00)) (parse_str r3)
                                          else None
                              | None => None
                              end
                            else None
                        | _ => None
                        end
                      else cons_str n (parse_str r2)
                  end
              | _ => None
              end
            else match simple_escape e with Some x => cons_str x (parse_str r1) | None => None end
        end
      else if c <? 32 then None
      else cons_str c (parse_str r)
  end.

(** The parts of a number: sign, fraction, exponent. For [from_json_str] at src/json.rs:32 and [from_json_slice] at src/rfc7807.rs:50. *)
Definition scan_sign (s : ustr) : ustr * ustr := match s with c :: r => if c =? 45 then ([45], r) else ([], s) | [] => ([], s) end.
(** For [from_json_str] at src/json.rs:32 and [from_json_slice] at src/rfc7807.rs:50. *)
Definition scan_fraction (s : ustr) : option (ustr * ustr) :=
  match s with
  | c :: r => if c =? 46 then let (f, r) := span_digits r in match f with [] => None | _ => Some (46 :: f, r) end else Some ([], s)
  | [] => Some ([], s)
  end.
(** For [from_json_str] at src/json.rs:32 and [from_json_slice] at src/rfc7807.rs:50. *)
Definition scan_exp_sign (s : ustr) : ustr * ustr :=
  match s with c :: r => if (c =? 43) || (c =? 45) then ([c], r) else ([], s) | [] => ([], s) end.
(** For [from_json_str] at src/json.rs:32 and [from_json_slice] at src/rfc7807.rs:50. *)
Definition scan_exponent (s : ustr) : option (ustr * ustr) :=
  match s with
  | c :: r =>
      if (c =? 101) || (c =? 69) then
        let (sg, r) := scan_exp_sign r in
        let (e, r) := span_digits r in match e with [] => None | _ => Some (c :: sg ++ e, r) end
      else Some ([], s)
  | [] => Some ([], s)
  end.
(** For [from_json_str] at src/json.rs:32 and [from_json_slice] at src/rfc7807.rs:50. *)
Definition starts_zero (d : ustr) : bool := match d with c :: _ :: _ => c =? 48 | _ => false end.

Section Parse.
Context `{jsonfloat}.

(** For [from_json_str] at src/json.rs:32 and [from_json_slice] at src/rfc7807.rs:50. *)
Definition float_or_error (t : ustr) (r : ustr) : option (json * ustr) :=
  match jparse64 t with Some _ => Some (JFloat t, r) | None => None end.

(** serde_json de.rs [parse_any_number] and below: integers up to 64 bits, "-0" and everything else as floats.
    For [from_json_str] at src/json.rs:32 and [from_json_slice] at src/rfc7807.rs:50. *)
Definition parse_number (s : ustr) : option (json * ustr) :=
  let (sign, s1) := scan_sign s in
  let (ip, s2) := span_digits s1 in
  match digits_val ip with
  | None => None
  | Some n =>
      if starts_zero ip then None
      else
        match scan_fraction s2 with
        | None => None
        | Some (frac, s3) =>
            match scan_exponent s3 with
            | None => None
            | Some (ex, s4) =>
                let t := sign ++ ip ++ frac ++ ex in
                match frac, ex with
                | [], [] =>
                    match sign with
                    | [] => if n <=? 18446744073709551615 then Some (JInt (Z.of_N n), s4) else float_or_error t s4
                    | _ => if (1 <=? n) && (n <=? 9223372036854775808) then Some (JInt (- Z.of_N n), s4) else float_or_error t s4
                    end
                | _, _ => float_or_error t s4
                end
            end
        end
  end.

(** serde_json de.rs [deserialize_any], [SeqAccess], [MapAccess].  [depth] is [remaining_depth].  The fuel is more than the
    recursion can need (JsonProofs.v). For [from_json_str] at src/json.rs:32 and [from_json_slice] at src/rfc7807.rs:50. *)
Fixpoint parse_value (fuel depth : nat) (s : ustr) {struct fuel} : res (json * ustr) :=
  match fuel with
  | O => Diverge
  | S f =>
      match skip_ws s with
      | [] => Err Invalid
      | c :: r =>
          if c =? 110 then match literal (u "ull") r with Some r => Ok (JNull, r) | None => Err Invalid end
          else if c =? 116 then match literal (u "rue") r with Some r => Ok (JBool true, r) | None => Err Invalid end
          else if c =? 102 then match literal (u "alse") r with Some r => Ok (JBool false, r) | None => Err Invalid end
          else if (c =? 45) || is_digit c then ok_or_invalid (parse_number (c :: r))
          else if c =? 34 then '(x, r) <- ok_or_invalid (parse_str r) ;; Ok (JStr x, r)
          else if c =? 91 then
            match depth with
            | S (S d) =>
                match skip_ws r with
                | [] => Err Invalid
                | c' :: r' => if c' =? 93 then Ok (JArr [], r') else '(l, r) <- parse_items f (S d) (c' :: r') ;; Ok (JArr l, r)
                end
            | _ => Err Invalid                                     (* recursion limit exceeded *)
            end
          else if c =? 123 then
            match depth with
            | S (S d) =>
                match skip_ws r with
                | [] => Err Invalid
                | c' :: r' => if c' =? 125 then Ok (JObj [], r') else '(l, r) <- parse_members f (S d) (c' :: r') ;; Ok (JObj l, r)
                end
            | _ => Err Invalid
            end
          else Err Invalid
      end
  end
(** One element and what follows it; after a comma there must be another one.
    For [from_json_str] at src/json.rs:32 and [from_json_slice] at src/rfc7807.rs:50. *)
with parse_items (fuel depth : nat) (s : ustr) {struct fuel} : res (list json * ustr) :=
  match fuel with
  | O => Diverge
  | S f =>
      '(j, r) <- parse_value f depth s ;;
      match skip_ws r with
      | [] => Err Invalid
      | c :: r => if c =? 93 then Ok ([j], r)
                  else if c =? 44 then '(l, r) <- parse_items f depth r ;; Ok (j :: l, r)
                  else Err Invalid
      end
  end
(** For [from_json_str] at src/json.rs:32 and [from_json_slice] at src/rfc7807.rs:50. *)
with parse_members (fuel depth : nat) (s : ustr) {struct fuel} : res (list (ustr * json) * ustr) :=
  match fuel with
  | O => Diverge
  | S f =>
      match skip_ws s with
      | [] => Err Invalid
      | q :: r =>
          if q =? 34 then
            '(k, r) <- ok_or_invalid (parse_str r) ;;
            match skip_ws r with
            | [] => Err Invalid
            | c :: r =>
                if c =? 58 then
                  '(j, r) <- parse_value f depth r ;;
                  match skip_ws r with
                  | [] => Err Invalid
                  | c :: r => if c =? 125 then Ok ([(k, j)], r)
                              else if c =? 44 then '(l, r) <- parse_members f depth r ;; Ok ((k, j) :: l, r)
                              else Err Invalid
                  end
                else Err Invalid
            end
          else Err Invalid                                         (* keys must be strings *)
      end
  end.

(** [serde_json::from_str] up to the decoding: one value, then only white space.
    For [from_json_str] at src/json.rs:32 and [from_json_slice] at src/rfc7807.rs:50. *)
Definition parse_json (s : ustr) : res json :=
  '(j, r) <- parse_value (S (S (2 * length s))) 128 s ;;
  match skip_ws r with [] => Ok j | _ => Err Invalid end.
End Parse.

(** serde_json's PrettyFormatter: two spaces per level. For [to_json_string_pretty] at src/json_pretty.rs:18 and src/rfc7807.rs:46. *)
Definition newline (ind : nat) : ustr := 10 :: repeat 32 (2 * ind).
(** For [to_json_string_pretty] at src/json_pretty.rs:18 and src/rfc7807.rs:46. *)
Fixpoint print_pretty (ind : nat) (j : json) : ustr :=
  match j with
  | JArr ((_ :: _) as l) =>
      [91] ++ join [44] (map (fun x => newline (S ind) ++ print_pretty (S ind) x) l) ++ newline ind ++ [93]
  | JObj ((_ :: _) as l) =>
      [123] ++ join [44] (map (fun kv => newline (S ind) ++ quote (fst kv) ++ [58; 32] ++ print_pretty (S ind) (snd kv)) l) ++ newline ind ++ [125]
  | _ => print_json j
  end.
(** [serdeconv::to_json_string_pretty] on a value. src/json_pretty.rs:18, src/rfc7807.rs:46. *)
Definition to_json_string_pretty `{floatlib} (v : value) : res ustr := j <- to_json v ;; Ok (print_pretty 0 j).
