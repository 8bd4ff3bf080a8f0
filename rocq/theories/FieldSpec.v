(** * What queries and headers are supposed to carry, independently of the (de)serializer state machines. *)
From Verif Require Import Base Utf8 Decimal Serde ScalarSpec.
Open Scope N_scope.

(** The header that frames a body (RFC 7230, section 3.3.2). *)
Definition length_header (len : N) : ustr * ustr := (u "Content-Length", show_N len).

(** ** Writing *)
Section Writing.
  Context {X : Type} (leaf : value -> option X) (name : ustr -> X).

  (** What a field holds: [Some (Some x)] a content, [Some None] nothing (an absent option), [None] not writable. *)
  Fixpoint cell (v : value) : option (option X) :=
    match v with
    | SNone => Some None
    | SSome v | SNewtypeStruct _ v | SNewtypeVariant _ _ v => cell v
    | v => option_map Some (leaf v)
    end.

  Fixpoint struct_pairs (fs : list (ustr * value)) : option (list (X * X)) :=
    match fs with
    | [] => Some []
    | (n, v) :: r =>
        match cell v, struct_pairs r with
        | Some (Some x), Some l => Some ((name n, x) :: l)
        | Some None, Some l => Some l
        | _, _ => None
        end
    end.

  Fixpoint map_pairs (kvs : list (value * value)) : option (list (X * X)) :=
    match kvs with
    | [] => Some []
    | (k, v) :: r =>
        match cell k, cell v, map_pairs r with
        | Some (Some k), Some (Some x), Some l => Some ((k, x) :: l)
        | Some (Some _), Some None, Some l => Some l
        | _, _, _ => None
        end
    end.

  (** The pairs a value is written as; [None]: refused.  A lone scalar is accepted and writes nothing. *)
  Fixpoint written (v : value) : option (list (X * X)) :=
    match v with
    | SSome v | SNewtypeStruct _ v | SNewtypeVariant _ _ v => written v
    | SStruct _ fs | SStructVariant _ _ fs => struct_pairs fs
    | SMap kvs => map_pairs kvs
    | v => match leaf v with Some _ => Some [] | None => None end
    end.
End Writing.

Section FieldSpec.
Context `{floatlib}.

Definition query_written : value -> option (list (ustr * ustr)) := written scalar_text (fun n => n).

(** Headers can also carry byte strings and unit structs (by name). *)
Definition header_leaf (v : value) : option bytes :=
  match v with
  | SBytes b => Some b
  | SUnitStruct n => Some (utf8_encode n)
  | v => option_map utf8_encode (scalar_text v)
  end.
Definition header_written : value -> option (list (bytes * bytes)) := written header_leaf utf8_encode.

(** ** Reading *)

(** Reading one query text as a type; the error kind is [Other] only for self-describing types. *)
Fixpoint query_read (t : ty) (s : ustr) : res value :=
  match t with
  | TBool | TInt _ | TF32 | TF64 | TStr => ok_or_invalid (read_scalar t s)
  | TBytes => Ok (SBytes (utf8_encode s))
  | TOption t => res_map SSome (query_read t s)
  | TNewtype n t => res_map (SNewtypeStruct n) (query_read t s)
  | TUnit => if ustr_eqb s [] then Ok SUnit else Err Invalid
  | TUnitStruct n => if ustr_eqb s [] then Ok (SUnitStruct n) else Err Invalid
  | TAny => Err Other
  | _ => Err Invalid
  end.

(** Reading one header value. *)
Fixpoint header_read (t : ty) (b : bytes) : res value :=
  match t with
  | TBool | TInt _ | TF32 | TF64 | TStr =>
      match utf8_decode b with Some s => ok_or_invalid (read_scalar t s) | None => Err Invalid end
  | TBytes => Ok (SBytes b)
  | TOption t => res_map SSome (header_read t b)
  | TNewtype n t => res_map (SNewtypeStruct n) (header_read t b)
  | TUnitStruct n =>
      match utf8_decode b with
      | Some s => if ustr_eqb s n then Ok (SUnitStruct n) else Err Invalid
      | None => Err Invalid
      end
  | TAny => Err Other
  | _ => Err Invalid
  end.

(** The texts of a query in order, keys and values alike. *)
Fixpoint flat (l : list (ustr * ustr)) : list ustr :=
  match l with [] => [] | (k, v) :: r => k :: v :: flat r end.

(** Which key gets which value when only [names] are known: after an unknown key reading goes on with the very next
    text, which is that key's value. *)
Fixpoint walk (names : list ustr) (texts : list ustr) : list (ustr * ustr) :=
  match texts with
  | k :: r =>
      match r with
      | v :: r' => if smem k names then (k, v) :: walk names r' else walk names r
      | [] => []
      end
  | [] => []
  end.

(** The headers of a message that concern a struct, their names in lower case. *)
Definition relevant (names : list ustr) (hs : list (ustr * bytes)) : list (ustr * bytes) :=
  filter (fun h => smem (fst h) names) (map (fun h => (lowercase (fst h), snd h)) hs).

(** Filling the fields of a struct from assignments: no key twice, each assigned field is read from its content, and
    the others must be options. *)
Definition filled {X} (read : ty -> X -> res value) (fs : list (ustr * ty)) (asg : list (ustr * X))
    (vs : list (ustr * value)) : Prop :=
  NoDup (map fst asg) /\
  Forall2 (fun f v => fst v = fst f /\
             ((exists x, In (fst f, x) asg /\ read (snd f) x = Ok (snd v)) \/
              ((forall x, ~ In (fst f, x) asg) /\ (exists t, snd f = TOption t) /\ snd v = SNone))) fs vs.
End FieldSpec.

(** Types no query or header field is ever read as. *)
Inductive unreadable : ty -> Prop :=
| UnChar : unreadable TChar
| UnEnum n vs : unreadable (TEnum n vs)
| UnSeq t : unreadable (TSeq t)
| UnTuple ts : unreadable (TTuple ts)
| UnTupleStruct n ts : unreadable (TTupleStruct n ts)
| UnMap k v : unreadable (TMap k v)
| UnStruct n fs : unreadable (TStruct n fs)
| UnAny : unreadable TAny
| UnNew n t : unreadable t -> unreadable (TNewtype n t).

(** A header section with other headers interspersed. *)
Inductive with_extra (names : list ustr) : list (ustr * bytes) -> list (ustr * bytes) -> Prop :=
| WENil : with_extra names [] []
| WEKeep h hs hs' : with_extra names hs hs' -> with_extra names (h :: hs) (h :: hs')
| WEExtra h hs hs' : ~ In (lowercase (fst h)) names -> with_extra names hs hs' -> with_extra names hs (h :: hs').

(** Two headers that differ at most in the case of ASCII letters of the name. *)
Definition same_letter (c d : N) : Prop := c = d \/ (65 <= c <= 90 /\ d = c + 32) \/ (65 <= d <= 90 /\ c = d + 32).
Definition same_header (a b : ustr * bytes) : Prop := Forall2 same_letter (fst a) (fst b) /\ snd a = snd b.
