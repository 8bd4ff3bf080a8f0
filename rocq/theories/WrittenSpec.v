(** * What the other side is given of a path, a query or headers that one side writes (C07, C08, C13, C46, C64). *)
From Verif Require Import Base Serde Procedure DepUrl SerPath SerQuery SerHeader SerRequest DeHeader.
Open Scope N_scope.

Section WrittenSpec.
Context `{urlenv} `{floatlib}.
(** The URL that the server parses, where the client writes [v] as the query after the path [p]. *)
Definition query_sent (v : value) (p : list ustr) (x : url) : Prop :=
  exists s, ser_query v qser_new = Ok s /\ parse_url (url_text p (Some (qs_text s))) = Some x /\ u_path x = Some p.
(** The segments that the server parses, where the client writes [v] as the path. *)
Definition path_sent (ep : entry_point) (v : value) (segs : list ustr) : Prop :=
  exists s, ser_path ep v (pser_new ep [[]]) = Ok s /\ parse_url (url_text (p_path s) None) = Some (mkUrl (Some segs) None).
(** The headers that are sent, where [v] is written as the headers of a message whose body has [len] bytes. *)
Definition header_sent (v : value) (len : N) (hs : list rheader) : Prop :=
  exists s, ser_header v (hser_new []) = Ok s /\ hs = hs_out s ++ [content_length len].
End WrittenSpec.
