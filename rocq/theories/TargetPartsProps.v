(** * Property C29, the path: what a client's target is parsed as. *)
From Verif Require Import Base Utf8 Decimal DepUrl Serde Procedure ScalarSpec PathSpec FieldSpec SerHeader SerRequest UrlProofs RequestSpec TargetParts
  Exhibit PathProps FieldProps RequestProps.
Open Scope N_scope.

(** The server parses the entry point filled with the texts of the client's path, and a query if and only if the request
    has one. *)
Theorem C29_segments_written (U : urlenv) (F : floatlib) ep v len r pv ts rest : entry_ok ep -> wf_value v = true -> encode_request ep v len = Ok r ->
  body_of v = Some (false, (u "path", pv) :: rest) -> ~ In (u "path") (map fst rest) -> path_args pv = Some ts ->
  exists q, parse_url (rb_target r) = Some (mkUrl (Some (fold_left push (fill ep ts) [[]])) q) /\ (~ In (u "query") (map fst rest) <-> q = None).
Proof. exact (segments_written ep v len r pv ts rest). Qed.
Print Assumptions C29_segments_written.

Example C29_segments_case : let U := ex_url in let F := ex_float in
  entry_ok ex_ep /\ wf_value ex_req = true /\ (exists r, encode_request ex_ep ex_req 12 = Ok r) /\
  exists pv rest ts, body_of ex_req = Some (false, (u "path", pv) :: rest) /\ ~ In (u "path") (map fst rest) /\ In (u "query") (map fst rest) /\
    path_args pv = Some ts /\ length ts = 2%nat /\ length (fold_left push (fill ex_ep ts) [[]]) = 4%nat.
Proof.
  cbv zeta. split; [intros c [[= <-]|[|[[= <-]|[|[]]]]]; try reflexivity; discriminate|].
  split; [reflexivity|]. split; [eexists; vm_compute; reflexivity|]. eexists _, _, _. split; [reflexivity|].
  split; [intros [I|[I|[]]]; discriminate I|]. split; [left; reflexivity|]. vm_compute. auto.
Qed.
