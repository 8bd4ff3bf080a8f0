(** * [UrlPathSerializer].  Models src/serializers/url_path.rs. *)
From Verif Require Import Base Decimal DepUrl Serde Procedure.

(** Models src/serializers/url_path.rs:10-15.  [p_path] is the URL's path so far; [p_rest] stands for
    [entry_point.segments()\[index..\]]. *)
Record pser := mkPser { p_path : list ustr; p_rest : list segment; p_started : bool }.

Section SerPath.
Context `{urlenv} `{floatlib}.

(** Models src/serializers/url_path.rs:18-29 [new], on the client's "http://localhost/": never fails. *)
Definition pser_new (ep : entry_point) (path : list ustr) : pser := mkPser path ep false.

(** Models src/serializers/url_path.rs:43-53 [append_until_next_var]: true when the segments are used up. *)
Fixpoint append_consts (path : list ustr) (rest : list segment) : bool * (list ustr * list segment) :=
  match rest with
  | [] => (true, (path, []))
  | Val s :: r => append_consts (push path s) r
  | Var :: _ => (false, (path, rest))
  end.

(** Models src/serializers/url_path.rs:31-37 [bind_next_var]. *)
Definition bind_next_var (value : ustr) (s : pser) : res pser :=
  _ <- assert_invalid (p_started s) ;;
  let '(fin, (path, rest)) := append_consts (p_path s) (p_rest s) in
  _ <- assert_invalid (negb fin) ;;
  Ok (mkPser (push path value) (tl rest) (p_started s)).

(** Models src/serializers/url_path.rs:38-42 [finish]. *)
Definition finish_path (s : pser) : res pser :=
  _ <- assert_invalid (p_started s) ;;
  let '(fin, (path, rest)) := append_consts (p_path s) (p_rest s) in
  _ <- assert_invalid fin ;;
  Ok (mkPser path rest (p_started s)).

(** Models src/serializers/url_path.rs:166-171 [serialize_tuple] (and 172-193, which repeat it). *)
Definition start_tuple (ep : entry_point) (len : nat) (s : pser) : res pser :=
  _ <- assert_invalid (negb (p_started s)) ;;
  _ <- assert_invalid (Nat.eqb (var_count ep) len) ;;
  Ok (mkPser (p_path s) (p_rest s) true).

(** Models src/serializers/url_path.rs:123-129 [serialize_unit] (and 130-136, the same text). *)
Definition path_unit (ep : entry_point) (s : pser) : res pser :=
  _ <- assert_invalid (negb (p_started s)) ;;
  _ <- assert_invalid (Nat.eqb (var_count ep) 0) ;;
  finish_path (mkPser (p_path s) (p_rest s) true).

(** Models src/serializers/url_path.rs:70-74 (and url_query.rs:48, http_header.rs:48): the text of a bool. *)
Definition show_bool (b : bool) : ustr := if b then u "ture" else u "false".

(** Models src/serializers/url_path.rs:58-254: one branch per [Serializer] method, in that order. *)
Fixpoint ser_path (ep : entry_point) (v : value) (s : pser) {struct v} : res pser :=
  match v with
  | SBool b => bind_next_var (show_bool b) s                       (* 70-74 *)
  | SInt _ z => bind_next_var (show_int z) s                       (* 75-98 *)
  | SF32 x => bind_next_var (fshow (fwiden x)) s                   (* 99-101 *)
  | SF64 x => bind_next_var (fshow x) s                            (* 102-104 *)
  | SChar c => bind_next_var [c] s                                 (* 105-107 *)
  | SStr t => bind_next_var t s                                    (* 108-110 *)
  | SBytes _ => Err Invalid                                        (* 111-113 *)
  | SNone => Err Invalid                                           (* 114-116 *)
  | SSome _ => Err Invalid                                         (* 117-122 *)
  | SUnit => path_unit ep s                                        (* 123-129 *)
  | SUnitStruct _ => path_unit ep s                                (* 130-136 *)
  | SUnitVariant _ x => bind_next_var x s                          (* 137-144 *)
  | SNewtypeStruct _ v => ser_path ep v s                          (* 145-150 *)
  | SNewtypeVariant _ _ v => ser_path ep v s                       (* 151-162 *)
  | SSeq _ => Err Invalid                                          (* 163-165 *)
  | STuple vs | STupleStruct _ vs | STupleVariant _ _ vs =>        (* 166-193, 210-254 *)
      s <- start_tuple ep (length vs) s ;;
      s <- (fix elems (vs : list value) (s : pser) : res pser :=
              match vs with
              | [] => Ok s
              | v :: r => s <- ser_path ep v s ;; elems r s
              end) vs s ;;
      finish_path s
  | SMap _ | SStruct _ _ | SStructVariant _ _ _ => Err Invalid     (* 194-208 *)
  end.

(** The element loop of [ser_path], named. src/serializers/url_path.rs:210-256. *)
Fixpoint ser_path_elems (ep : entry_point) (vs : list value) (s : pser) : res pser :=
  match vs with
  | [] => Ok s
  | v :: r => s <- ser_path ep v s ;; ser_path_elems ep r s
  end.
End SerPath.
