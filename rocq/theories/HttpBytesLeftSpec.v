(** * What becomes of a body that is not read (C74). *)
From Verif Require Import Base Serde Router Client ClientSpec Server HttpBytes.

(** A handler that leaves the body of a request on the connection. *)
Definition leaves_body {R : Type} (hp : hproc bconn R) : Prop :=
  forall v q q' x, settle (hp_body hp v q) = Comes (q', x) -> stream (q_conn q') = stream (q_conn q).
(** What is written of a body. *)
Definition sent_body (m : method) (b : bytes) : option bytes := match m with MHead => None | _ => Some b end.
