(** * [UrlPathDeserializer].  Models src/deserializers/url_path.rs. *)
From Verif Require Import Base Decimal DepUrl Serde Procedure.
Open Scope N_scope.

(** Models src/deserializers/url_path.rs:13-19.  [pd_segs] are the URL segments not yet read, [pd_rest]
    stands for [entry_point.segments()\[index..\]], [pd_free] is [free_vars]. *)
Record pde := mkPde { pd_in_seq : bool; pd_segs : list ustr; pd_rest : list segment; pd_free : nat }.

(** Models src/deserializers/url_path.rs:22-33 [new]. *)
Definition pde_new (ep : entry_point) (x : url) : res pde :=
  segs <- ok_or_invalid (u_path x) ;; Ok (mkPde false segs ep (var_count ep)).

(** Models src/deserializers/url_path.rs:37-49 [finish]; the index is not advanced. *)
Fixpoint finish_loop (rest : list segment) (segs : list ustr) : res (list ustr) :=
  match rest with
  | [] => Ok segs
  | sg :: r =>
      expected <- ok_or_invalid (as_option sg) ;;
      match segs with
      | [] => Err Invalid
      | actual :: segs' =>
          _ <- assert_invalid (ustr_eqb actual expected) ;; finish_loop r segs'
      end
  end.
(** Models src/deserializers/url_path.rs:37-49 [finish]. *)
Definition pde_finish (s : pde) : res pde :=
  segs <- finish_loop (pd_rest s) (pd_segs s) ;; Ok (mkPde (pd_in_seq s) segs (pd_rest s) (pd_free s)).

(** Models src/deserializers/url_path.rs:50-67 [next_value].  [free_vars -= 1] on 0 is a [Panic]
    (overflow check of debug builds). *)
Fixpoint next_value_loop (rest : list segment) (segs : list ustr) (free : nat)
    : res (ustr * (list ustr * (list segment * nat))) :=
  match rest with
  | [] => Err Invalid
  | sg :: r =>
      match segs with
      | [] => Err Invalid
      | s :: segs' =>
          match as_option sg with
          | Some expected => _ <- assert_invalid (ustr_eqb s expected) ;; next_value_loop r segs' free
          | None => match free with
                    | O => Panic
                    | S f => Ok (s, (segs', (r, f)))
                    end
          end
      end
  end.
(** Models src/deserializers/url_path.rs:50-67 [next_value]; it calls itself at most once per segment. *)
Definition next_value (s : pde) : res (ustr * pde) :=
  '(t, (segs, (rest, free))) <- next_value_loop (pd_rest s) (pd_segs s) (pd_free s) ;;
  Ok (t, mkPde (pd_in_seq s) segs rest free).

(** Models [u32::from_str_radix(&format!("{h0}{h1}"), 16)] at src/deserializers/url_path.rs:351: a leading
    '+' is accepted. *)
Definition hex_pair (h0 h1 : N) : option N :=
  if h0 =? 43 then hexval h1
  else match hexval h0, hexval h1 with
       | Some a, Some b => Some (a * 16 + b)
       | _, _ => None
       end.

(** Models src/deserializers/url_path.rs:340-361 [percent_decode]: each escape becomes one character;
    [char::from_u32] cannot fail on two hexadecimal digits. *)
Fixpoint percent_decode (s : ustr) : res ustr :=
  match s with
  | [] => Ok []
  | c :: r =>
      if c =? 37 then
        match r with
        | h0 :: h1 :: r2 =>
            code <- ok_or_invalid (hex_pair h0 h1) ;;
            d <- percent_decode r2 ;; Ok (code :: d)
        | _ => Err Invalid
        end
      else d <- percent_decode r ;; Ok (c :: d)
  end.

(** [str::parse::<bool>()] (std). src/deserializers/url_path.rs:336. *)
Definition parse_bool (s : ustr) : option bool :=
  if ustr_eqb s (u "true") then Some true
  else if ustr_eqb s (u "false") then Some false
  else None.

Section DePath.
Context `{floatlib}.

(** Models src/deserializers/url_path.rs:331-338 [parse_escaped_str] followed by the visitor. *)
Definition path_scalar {A} (parse : ustr -> option A) (mk : A -> value) (s : pde) : res (value * pde) :=
  '(t, s) <- next_value s ;;
  t <- percent_decode t ;;
  a <- ok_or_invalid (parse t) ;;
  Ok (mk a, s).

(** Models src/deserializers/url_path.rs:242-249 [deserialize_seq]: entering the sequence. *)
Definition path_enter (s : pde) : res pde :=
  _ <- assert_invalid (negb (pd_in_seq s)) ;; Ok (mkPde true (pd_segs s) (pd_rest s) (pd_free s)).

(** Models src/deserializers/url_path.rs:317-328 [next_element_seed]. *)
Definition path_next (d : pde -> res (value * pde)) (s : pde) : res (option value * pde) :=
  match pd_free s with
  | O => s <- pde_finish s ;; Ok (None, s)
  | S _ => '(v, s) <- d s ;; Ok (Some v, s)
  end.

(** Models src/deserializers/url_path.rs:69-314: one branch per [Deserializer] method. *)
Fixpoint de_path (t : ty) (s : pde) {struct t} : res (value * pde) :=
  match t with
  | TBool => path_scalar parse_bool SBool s                        (* 78-85 *)
  | TInt k => path_scalar (parse_int k) (SInt k) s                 (* 87-157 *)
  | TF32 => path_scalar fparse32 SF32 s                            (* 159-166 *)
  | TF64 => path_scalar fparse64 SF64 s                            (* 168-175 *)
  | TChar => Err Invalid                                           (* 177-182 *)
  | TStr =>                                                        (* 184-198 *)
      '(t, s) <- next_value s ;; t <- percent_decode t ;; Ok (SStr t, s)
  | TBytes | TOption _ | TUnit | TUnitStruct _ => Err Invalid      (* 200-233 *)
  | TNewtype n t => '(v, s) <- de_path t s ;; Ok (SNewtypeStruct n v, s)  (* 235-240 *)
  | TSeq t =>                                                      (* 242-249 *)
      s <- path_enter s ;;
      '(vs, s) <- visit_seq (S (pd_free s)) path_next (de_path t) s ;; Ok (SSeq vs, s)
  | TTuple ts =>                                                   (* 251-256 *)
      s <- path_enter s ;;
      '(vs, s) <- visit_tuple path_next (map de_path ts) s ;; Ok (STuple vs, s)
  | TTupleStruct n ts =>                                           (* 258-268 *)
      s <- path_enter s ;;
      '(vs, s) <- visit_tuple path_next (map de_path ts) s ;; Ok (STupleStruct n vs, s)
  | TMap _ _ | TStruct _ _ | TEnum _ _ => Err Invalid              (* 270-299 *)
  | TAny => Err Other                                              (* 71-76 *)
  end.
End DePath.
