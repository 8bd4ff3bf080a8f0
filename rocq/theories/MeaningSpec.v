(** * Requests and responses whose bytes have one meaning (C77). *)
From Verif Require Import Base Serde Procedure PathSpec DepUrl DepHttp PathTrip RequestArrives.
Open Scope N_scope.

Section MeaningSpec.
Context `{urlenv} `{floatlib}.
(** The values that can be sent as requests of one procedure and come back out of the server's decoder (C09): the type, the value. *)
Inductive sendable (ep : entry_point) : ty -> value -> Prop :=
| Sendable n p q hd ss l : path_fits ep p ss -> Forall path_safe ss -> first_ok (fill ep ss) ->
    query_fits q -> (p = None -> q = None) -> header_fits hd l -> forallb safe_header l = true ->
    sendable ep (TStruct n (typed_parts p q hd)) (SStruct n (value_parts p q hd)).
End MeaningSpec.
