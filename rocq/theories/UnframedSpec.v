(** * Messages that do not say how long their body is (C84). *)
From Verif Require Import Base Serde DeHeader Router Client ClientSpec Server HttpBytes.
Open Scope N_scope.

(** Neither of the headers by which HTTP/1.1 delimits a body. *)
Definition unframed (hs : list rheader) : Prop :=
  forall n v, In (n, v) hs -> lowercase n <> u "content-length" /\ lowercase n <> u "transfer-encoding".

(** A handler that makes its request of the body, read to its end. *)
Definition reads_to_end {R : Type} (hp : hproc bconn R) (mk : value -> method -> ustr -> list rheader -> bytes -> R) : Prop :=
  forall v q, hp_body hp v q = fbind (read_body (q_conn q)) (fun '(b, c) =>
    Ready (mkRequest (q_method q) (q_target q) (q_headers q) c, mk v (q_method q) (q_target q) (q_headers q) b)).
