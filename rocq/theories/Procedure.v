(** * Entry points.  Models src/procedure.rs:60-122. *)
From Verif Require Import Base.

(** Models src/procedure.rs:105-111 [PathSegment]. *)
Inductive segment := Val (s : ustr) | Var.

(** Models src/procedure.rs:62-93 [EntryPoint] with its [segments()]. *)
Definition entry_point := list segment.

(** The comparison with [PathSegment::Var] at src/procedure.rs:98. *)
Definition is_var (s : segment) : bool := match s with Var => true | Val _ => false end.

(** Models src/procedure.rs:95-100 [EntryPoint::var_count]. *)
Definition var_count (ep : entry_point) : nat := length (filter is_var ep).

(** Models src/procedure.rs:114-120 [PathSegment::as_option]. *)
Definition as_option (s : segment) : option ustr := match s with Val s => Some s | Var => None end.

Lemma var_count_cons s ep : var_count (s :: ep) = ((if is_var s then 1 else 0) + var_count ep)%nat.
Proof. unfold var_count. cbn. destruct (is_var s); reflexivity. Qed.

Lemma var_count_app a b : var_count (a ++ b) = (var_count a + var_count b)%nat.
Proof. unfold var_count. rewrite filter_app, app_length. reflexivity. Qed.
