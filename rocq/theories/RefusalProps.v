(** * Properties C14 and C22, the kind of error of a refusal. *)
From Verif Require Import Base Utf8 Decimal DepUrl Serde Json Status Procedure SerHeader SerRequest SerResponse DePath DeQuery DeHeader DeRequest DeResponse Exhibit.
From Verif Require Import ScalarSpec FieldSpec ResponseSpec Refusals RequestProps.
Open Scope N_scope.

Theorem C22_refused_otherwise (F : floatlib) v len : (forall st hs, ~ answers (core v) st hs) <-> encode_response v len = Err Invalid.
Proof. exact (encode_response_refused v len). Qed.
Print Assumptions C22_refused_otherwise.

(** Types that let the format decide are refused everywhere, as the only ones with an error of another kind. *)
Theorem C14_self_describing_refused (F : floatlib) t : self_describing t ->
  (forall s, de_path t s = Err Other) /\ (forall s, de_query t s = Err Other) /\ (forall s, de_header t s = Err Other) /\
  (forall ep x hs, de_request ep x hs t = Err Other) /\ (forall code hs, de_response code hs t = Err Other).
Proof. exact (self_describing_refused t). Qed.
Print Assumptions C14_self_describing_refused.

Example C22_refused_case : let F := ex_float in
  (forall st hs, ~ answers (core (SNewtypeStruct (u "N") (SStruct (u "R") [(u "status", SMap [(SUnit, SUnit)])]))) st hs) /\
  encode_response (SNewtypeStruct (u "N") (SStruct (u "R") [(u "status", SMap [(SUnit, SUnit)])])) 5 = Err Invalid /\
  encode_response (SNewtypeVariant (u "E") (u "V") (SStruct (u "R") [(u "status", SInt U16 200); (u "header", STuple [])])) 5 = Err Invalid /\
  self_describing (TNewtype (u "N") (TNewtype (u "M") TAny)).
Proof. cbv zeta. split; [intros st hs Q; inversion Q; discriminate|]. split; [reflexivity|]. split; [reflexivity|]. repeat constructor. Qed.

(** Only the status of a response may be self-describing: it is a [u16]; a self-describing header is refused. *)
Theorem C56_self_describing_status (F : floatlib) code hs n : hs <> [] ->
  de_response code hs (TStruct n [(u "status", TAny)]) = Ok (SStruct n [(u "status", SInt U16 (Z.of_N code))]) /\
  de_response code hs (TStruct n [(u "status", TAny); (u "header", TAny)]) = Err Other.
Proof. exact (self_describing_status code hs n). Qed.
Print Assumptions C56_self_describing_status.
Example C56_self_describing_case : let F := ex_float in
  de_response 418 [(u "a", [])] (TStruct (u "R") [(u "status", TAny)]) = Ok (SStruct (u "R") [(u "status", SInt U16 418)]).
Proof. exact (proj1 (C56_self_describing_status ex_float 418 [(u "a", [])] (u "R") ltac:(discriminate))). Qed.
