(** * The macro that makes entry points.  Models src/lib.rs:60-81. *)
From Verif Require Import Base Procedure.

(** What may be in the brackets of [htrpc_entry_point!], token tree by token tree: a comma, an underscore, something that is an
    expression and whose value is the given text, or anything else (which the compiler refuses). src/lib.rs:63,77,80.
    Simplification: an expression of another type, which is refused as well, counts as "anything else". *)
Inductive token := KComma | KUnderscore | KText (s : ustr) | KOther.
(** Models src/lib.rs:63 [$($segment:tt),*]: token trees with commas between them, none at the end. *)
Fixpoint macro_segments (l : list token) : option (list token) :=
  match l with
  | [] => Some []
  | t :: r =>
      match r with
      | [] => Some [t]
      | KComma :: r' => match r' with [] => None | _ => option_map (cons t) (macro_segments r') end
      | _ => None
      end
  end.
(** Models src/lib.rs:75-81 [htrpc_expand_segment!]: the first rule that fits. *)
Definition expand_segment (t : token) : option segment :=
  match t with KUnderscore => Some Var | KText s => Some (Val s) | KComma | KOther => None end.
(** For src/lib.rs:66: every segment is expanded, or the compiler refuses. *)
Fixpoint expand_all (l : list token) : option (list segment) :=
  match l with
  | [] => Some []
  | t :: l => match expand_segment t, expand_all l with Some s, Some r => Some (s :: r) | _, _ => None end
  end.
(** Models src/lib.rs:62-70 [htrpc_entry_point!]. *)
Definition entry_macro (l : list token) : option entry_point := match macro_segments l with Some ts => expand_all ts | None => None end.
