(** * [HttpHeaderSerializer].  Models src/serializers/http_header.rs. *)
From Verif Require Import Base Utf8 Decimal Serde SerPath.

(** A header of an HTTP message: name and value as the bytes written to the message. src/serializers/http_header.rs:28. *)
Definition header := (bytes * bytes)%type.

(** Models src/serializers/http_header.rs:10-14.  The pending key and the values are kept as the bytes of the
    [str]: [serialize_bytes] (91-96) puts bytes there that need not be UTF-8.
    Simplification: such a non-UTF-8 [str] is undefined behaviour in Rust; the model just carries the bytes. *)
Record hser := mkHser { hs_first : bool; hs_key : option bytes; hs_out : list header }.

Section SerHeader.
Context `{floatlib}.

(** Models src/serializers/http_header.rs:17-23 [new], on the headers the message already has. *)
Definition hser_new (hs : list header) : hser := mkHser true None hs.

(** Models src/serializers/http_header.rs:25-33 [append]; [add_raw_header] (miasht) adds at the end. *)
Definition h_append (b : bytes) (s : hser) : hser :=
  match hs_key s with
  | Some k => mkHser (hs_first s) None (hs_out s ++ [(k, b)])
  | None => mkHser (hs_first s) (Some b) (hs_out s)
  end.

(** Models src/serializers/http_header.rs:88-91 [serialize_str]. *)
Definition h_append_str (t : ustr) : hser -> hser := h_append (utf8_encode t).

(** Models src/serializers/http_header.rs:162-182: entering a map, struct or struct variant. *)
Definition h_enter (s : hser) : res hser :=
  _ <- assert_invalid (hs_first s) ;; Ok (mkHser false (hs_key s) (hs_out s)).

(** Models src/serializers/http_header.rs:35-234: one branch per [Serializer] method. *)
Fixpoint ser_header (v : value) (s : hser) {struct v} : res hser :=
  match v with
  | SBool b => Ok (h_append_str (show_bool b) s)                   (* 47-51 *)
  | SInt _ z => Ok (h_append_str (show_int z) s)                   (* 52-77 *)
  | SF32 x => Ok (h_append_str (fshow (fwiden x)) s)               (* 78-80 *)
  | SF64 x => Ok (h_append_str (fshow x) s)                        (* 81-84 *)
  | SChar c => Ok (h_append_str [c] s)                             (* 85-87 *)
  | SStr t => Ok (h_append_str t s)                                (* 88-91 *)
  | SBytes b => Ok (h_append b s)                                  (* 92-97 *)
  | SNone =>                                                       (* 98-101 *)
      match hs_key s with
      | Some _ => Ok (mkHser (hs_first s) None (hs_out s))
      | None => Err Invalid
      end
  | SSome v => ser_header v s                                      (* 102-107 *)
  | SUnit => Err Invalid                                           (* 108-110 *)
  | SUnitStruct n => Ok (h_append_str n s)                         (* 111-113 *)
  | SUnitVariant _ x => Ok (h_append_str x s)                      (* 114-121 *)
  | SNewtypeStruct _ v => ser_header v s                           (* 122-127 *)
  | SNewtypeVariant _ _ v => ser_header v s                        (* 128-139 *)
  | SSeq _ | STuple _ | STupleStruct _ _ | STupleVariant _ _ _ => Err Invalid  (* 140-161 *)
  | SMap kvs =>                                                    (* 162-166, 184-204 *)
      s <- h_enter s ;;
      (fix entries (kvs : list (value * value)) (s : hser) : res hser :=
         match kvs with
         | [] => Ok s
         | (k, v) :: r => s <- ser_header k s ;; s <- ser_header v s ;; entries r s
         end) kvs s
  | SStruct _ fs | SStructVariant _ _ fs =>                        (* 167-182, 205-234 *)
      s <- h_enter s ;;
      (fix fields (fs : list (ustr * value)) (s : hser) : res hser :=
         match fs with
         | [] => Ok s
         | (n, v) :: r => s <- ser_header v (mkHser (hs_first s) (Some (utf8_encode n)) (hs_out s)) ;; fields r s
         end) fs s
  end.

(** The field loop of [ser_header], named. src/serializers/http_header.rs:205-234. *)
Fixpoint ser_header_fields (fs : list (ustr * value)) (s : hser) : res hser :=
  match fs with
  | [] => Ok s
  | (n, v) :: r => s <- ser_header v (mkHser (hs_first s) (Some (utf8_encode n)) (hs_out s)) ;; ser_header_fields r s
  end.

(** The entry loop of [ser_header], named. src/serializers/http_header.rs:184-203. *)
Fixpoint ser_header_entries (kvs : list (value * value)) (s : hser) : res hser :=
  match kvs with
  | [] => Ok s
  | (k, v) :: r => s <- ser_header k s ;; s <- ser_header v s ;; ser_header_entries r s
  end.
End SerHeader.
