(** * What is said of the macro that makes entry points (C90). *)
From Verif Require Import Base Procedure EntryMacro.

(** How an entry point is written. *)
Definition word (s : segment) : token := match s with Var => KUnderscore | Val s => KText s end.
Fixpoint written (ep : entry_point) : list token :=
  match ep with [] => [] | s :: ep => word s :: match ep with [] => [] | _ => KComma :: written ep end end.
(** The tokens between the commas, and what each allows as a segment of a path. *)
Definition separate (l : list token) : list token := filter (fun t => match t with KComma => false | _ => true end) l.
Definition allows (t : token) (s : ustr) : Prop := t = KUnderscore \/ t = KText s.
Definition underscores (l : list token) : nat := length (filter (fun t => match t with KUnderscore => true | _ => false end) l).
