(** * [UrlQuerySerializer].  Models src/serializers/url_query.rs. *)
From Verif Require Import Base Decimal DepUrl Serde SerPath.

(** Models src/serializers/url_query.rs:10-14; [qs_text] is the query string written so far. *)
Record qser := mkQser { qs_first : bool; qs_key : option ustr; qs_text : ustr }.

Section SerQuery.
Context `{floatlib}.

(** Models src/serializers/url_query.rs:17-23 [new] with [Url::query_pairs_mut], which starts an empty query. *)
Definition qser_new : qser := mkQser true None [].

(** Models src/serializers/url_query.rs:25-33 [append]. *)
Definition q_append (t : ustr) (s : qser) : qser :=
  match qs_key s with
  | Some k => mkQser (qs_first s) None (append_pair (qs_text s) k t)
  | None => mkQser (qs_first s) (Some t) (qs_text s)
  end.

(** Models src/serializers/url_query.rs:159-163, 164-168, 169-179: entering a map, struct or struct variant. *)
Definition q_enter (s : qser) : res qser :=
  _ <- assert_invalid (qs_first s) ;; Ok (mkQser false (qs_key s) (qs_text s)).

(** Models src/serializers/url_query.rs:35-231: one branch per [Serializer] method. *)
Fixpoint ser_query (v : value) (s : qser) {struct v} : res qser :=
  match v with
  | SBool b => Ok (q_append (show_bool b) s)                       (* 47-51 *)
  | SInt _ z => Ok (q_append (show_int z) s)                       (* 52-77 *)
  | SF32 x => Ok (q_append (fshow (fwiden x)) s)                   (* 78-80 *)
  | SF64 x => Ok (q_append (fshow x) s)                            (* 81-84 *)
  | SChar c => Ok (q_append [c] s)                                 (* 85-87 *)
  | SStr t => Ok (q_append t s)                                    (* 88-91 *)
  | SBytes _ => Err Invalid                                        (* 92-94 *)
  | SNone =>                                                       (* 95-98 *)
      match qs_key s with
      | Some _ => Ok (mkQser (qs_first s) None (qs_text s))
      | None => Err Invalid
      end
  | SSome v => ser_query v s                                       (* 99-104 *)
  | SUnit | SUnitStruct _ => Err Invalid                           (* 105-110 *)
  | SUnitVariant _ x => Ok (q_append x s)                          (* 111-118 *)
  | SNewtypeStruct _ v => ser_query v s                            (* 119-124 *)
  | SNewtypeVariant _ _ v => ser_query v s                         (* 125-136 *)
  | SSeq _ | STuple _ | STupleStruct _ _ | STupleVariant _ _ _ => Err Invalid  (* 137-158 *)
  | SMap kvs =>                                                    (* 159-163, 181-201 *)
      s <- q_enter s ;;
      (fix entries (kvs : list (value * value)) (s : qser) : res qser :=
         match kvs with
         | [] => Ok s
         | (k, v) :: r => s <- ser_query k s ;; s <- ser_query v s ;; entries r s
         end) kvs s
  | SStruct _ fs | SStructVariant _ _ fs =>                        (* 164-179, 202-231 *)
      s <- q_enter s ;;
      (fix fields (fs : list (ustr * value)) (s : qser) : res qser :=
         match fs with
         | [] => Ok s
         | (n, v) :: r => s <- ser_query v (mkQser (qs_first s) (Some n) (qs_text s)) ;; fields r s
         end) fs s
  end.

(** The field loop of [ser_query], named. src/serializers/url_query.rs:202-231. *)
Fixpoint ser_query_fields (fs : list (ustr * value)) (s : qser) : res qser :=
  match fs with
  | [] => Ok s
  | (n, v) :: r => s <- ser_query v (mkQser (qs_first s) (Some n) (qs_text s)) ;; ser_query_fields r s
  end.

(** The entry loop of [ser_query], named. src/serializers/url_query.rs:181-200. *)
Fixpoint ser_query_entries (kvs : list (value * value)) (s : qser) : res qser :=
  match kvs with
  | [] => Ok s
  | (k, v) :: r => s <- ser_query k s ;; s <- ser_query v s ;; ser_query_entries r s
  end.
End SerQuery.
