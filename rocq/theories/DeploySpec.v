(** * What a server with other procedures does alike: the notions C101 is stated with. *)
From Verif Require Import Base DepUrl Procedure Router RouterSpec Client ClientSpec Server.

Section Spec.
Context `{urlenv} {Conn R : Type}.

(** Two lists of procedures send a request the same way. *)
Definition same_way (ps ps' : list (hproc Conn R)) (r : request Conn) : Prop :=
  forall x, parse_url (q_target r) = Some x ->
    route (build (registrations ps)) (q_method r) (u_path x) = route (build (registrations ps')) (q_method r) (u_path x).

(** A request for which there is a procedure. *)
Definition meant_for (ps : list (hproc Conn R)) (r : request Conn) : Prop :=
  exists segs q p, parse_url (q_target r) = Some (mkUrl (Some segs) q) /\ In p ps /\ hp_method p = q_method r /\ matches (hp_entry p) segs.

(** All the requests that the connections read in a run of the server. *)
Definition requests_read (ln : link Conn) (ev : list (event Conn)) (P : request Conn -> Prop) : Prop :=
  forall i c r, In (EAct i (ARead c)) ev -> settle (l_read ln c) = Comes (Got r) -> P r.
End Spec.
