(** * [UrlQueryDeserializer].  Models src/deserializers/url_query.rs. *)
From Verif Require Import Base Utf8 Decimal DepUrl Serde DePath.

(** Models src/deserializers/url_query.rs:10-14,22-26.  [qd_pending] is [Phase::Value(v)]. *)
Record qde := mkQde { qd_in_map : bool; qd_pending : option ustr; qd_rest : list (ustr * ustr) }.

(** Models src/deserializers/url_query.rs:29-35 [new]. *)
Definition qde_new (pairs : list (ustr * ustr)) : qde := mkQde false None pairs.

(** Models src/deserializers/url_query.rs:40-49 [next_str]. *)
Definition next_str (s : qde) : res (ustr * qde) :=
  match qd_pending s with
  | None =>
      match qd_rest s with
      | [] => Err Invalid
      | (k, v) :: r => Ok (k, mkQde (qd_in_map s) (Some v) r)
      end
  | Some v => Ok (v, mkQde (qd_in_map s) None (qd_rest s))
  end.

Section DeQuery.
Context `{floatlib}.

(** Models src/deserializers/url_query.rs:327-333 [parse_cow_str] followed by the visitor. *)
Definition query_scalar {A} (parse : ustr -> option A) (mk : A -> value) (s : qde) : res (value * qde) :=
  '(t, s) <- next_str s ;; a <- ok_or_invalid (parse t) ;; Ok (mk a, s).

(** Models src/deserializers/url_query.rs:209-216 [deserialize_unit]. *)
Definition query_unit (v : value) (s : qde) : res (value * qde) :=
  '(t, s) <- next_str s ;; _ <- assert_invalid (ustr_eqb t []) ;; Ok (v, s).

(** Models src/deserializers/url_query.rs:258-265 [deserialize_map]: entering. *)
Definition query_enter (s : qde) : res qde :=
  _ <- assert_invalid (negb (qd_in_map s)) ;; Ok (mkQde true (qd_pending s) (qd_rest s)).

(** Models src/deserializers/url_query.rs:37-39 [is_end_of_query]: no pair left, a pending value does not count. *)
Definition query_end (s : qde) : bool := match qd_rest s with [] => true | _ => false end.

(** Models src/deserializers/url_query.rs:307-317 [next_key_seed], for any key type and for field names. *)
Definition query_next_key (d : qde -> res (value * qde)) (s : qde) : res (option value * qde) :=
  if query_end s then Ok (None, s) else '(v, s) <- d s ;; Ok (Some v, s).
(** Models src/deserializers/url_query.rs:305-325 for a struct: the next key as an identifier (291-297). *)
Definition query_next_field (s : qde) : res (option ustr * qde) :=
  if query_end s then Ok (None, s) else '(t, s) <- next_str s ;; Ok (Some t, s).

(** Models src/deserializers/url_query.rs:298-303 [deserialize_ignored_any]: nothing is consumed. *)
Definition query_skip (_ : ustr) (s : qde) : res qde := Ok s.

(** Enough fuel for the visitor loops: every key read moves on in the input.
    More rounds than src/deserializers/url_query.rs:305-325 can say there is another key. *)
Definition query_fuel (s : qde) : nat := 2 * length (qd_rest s) + 2.

(** Models src/deserializers/url_query.rs:51-304: one branch per [Deserializer] method. *)
Fixpoint de_query (t : ty) (s : qde) {struct t} : res (value * qde) :=
  match t with
  | TBool => query_scalar parse_bool SBool s                       (* 60-67 *)
  | TInt k => query_scalar (parse_int k) (SInt k) s                (* 69-139 *)
  | TF32 => query_scalar fparse32 SF32 s                           (* 141-148 *)
  | TF64 => query_scalar fparse64 SF64 s                           (* 150-157 *)
  | TChar => Err Invalid                                           (* 159-164 *)
  | TStr => '(t, s) <- next_str s ;; Ok (SStr t, s)                (* 166-182 *)
  | TBytes => '(t, s) <- next_str s ;; Ok (SBytes (utf8_encode t), s)  (* 184-200 *)
  | TOption t => '(v, s) <- de_query t s ;; Ok (SSome v, s)        (* 202-207 *)
  | TUnit => query_unit SUnit s                                    (* 209-216 *)
  | TUnitStruct n => query_unit (SUnitStruct n) s                  (* 218-223 *)
  | TNewtype n t => '(v, s) <- de_query t s ;; Ok (SNewtypeStruct n v, s)  (* 225-230 *)
  | TSeq _ | TTuple _ | TTupleStruct _ _ => Err Invalid            (* 232-256 *)
  | TMap k v =>                                                    (* 258-265 *)
      s <- query_enter s ;;
      '(m, s) <- visit_map (query_fuel s) query_next_key (de_query k) (de_query v) [] s ;;
      Ok (SMap m, s)
  | TStruct n fs =>                                                (* 267-277 *)
      s <- query_enter s ;;
      '(vs, s) <- visit_struct (query_fuel s) query_next_field query_skip
                    (map (fun f => (fst f, de_query (snd f))) fs) fs s ;;
      Ok (SStruct n vs, s)
  | TEnum _ _ => Err Invalid                                       (* 279-289 *)
  | TAny => Err Other                                              (* 53-58 *)
  end.
End DeQuery.
