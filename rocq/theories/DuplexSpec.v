(** * What is said of a client and a server joined by bounded pipes (C75). *)
From Verif Require Import Base DepUrl Serde SerRequest Status Router DepHttp Error Client ClientSpec Server ServerSpec SessionSpec HttpBytes HttpBytesSpec Duplex.
Local Open Scope nat_scope.

(** ** Schedules: which end has its turn, and how many bytes may go through in it *)
Definition client_moves (l : dlabel) : Prop := exists k, 0 < k /\ l = LClient k.
Definition server_moves (l : dlabel) : Prop := exists k, 0 < k /\ l = LServer k.
Definition handler_moves (l : dlabel) : Prop := l = LHandler.
Definition always_again (P : dlabel -> Prop) (sched : nat -> dlabel) : Prop := forall n, exists m, n <= m /\ P (sched m).
(** The first [n] turns. *)
Definition turns (sched : nat -> dlabel) (n : nat) : list dlabel := map sched (seq 0 n).

(** ** Handlers *)
(** A handler that does not answer before the whole body has come. *)
Definition waits_for_body {R : Type} (hp : hproc bconn R) : Prop :=
  forall v q n, b_left (q_conn q) = Some n -> b_closed (q_conn q) = false -> length (stream (q_conn q)) < n -> settle (hp_body hp v q) = Hangs.

Section Answers.
Context `{floatlib} `{urlenv} {R : Type}.
Variable explain : request bconn -> ekind -> ustr * option ustr * option (list ustr).
Variable reason : status -> ustr.
Variables (trims : bool) (uri_byte : N -> bool) (sl : limits) (ps : list (hproc bconn R)).
(** A call whose request is answered, with [out] as bytes, whatever has come of its body; [head] is the head of the request. *)
Definition answered_at_once (e : errand) (head out : bytes) : Prop :=
  exists r, encode_request (pr_entry (e_proc e)) (e_value e) (N.of_nat (length (e_body e))) = Ok r /\ head = request_head (pr_method (e_proc e)) r /\
    fit_request uri_byte sl (pr_method (e_proc e)) r (e_body e) /\
    forall q, q_method q = pr_method (e_proc e) -> q_target q = rb_target r -> q_headers q = rb_headers r ->
      exists c h b, reply_to explain reason (byte_link trims uri_byte sl) ps q = Sends c h b /\
        out = replying_bytes reason (h, match pr_method (e_proc e) with MHead => None | _ => Some b end).
End Answers.
