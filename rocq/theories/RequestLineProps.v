(** * C72, continued: what a server reads as a request line *)
From Verif Require Import Base Utf8 Decimal DepUrl Serde Procedure ScalarSpec PathSpec FieldSpec Status SerHeader SerRequest SerResponse DeHeader DeRequest DeResponse Router RouterSpec DepHttp
  UrlProofs RequestSpec RequestProofs ResponseSpec ResponseProofs ResponseTrip Error Client ClientSpec ClientProofs Server ServerSpec ServerProofs EndToEndSpec SessionSpec SessionProofs
  HttpBytes HttpBytesSpec HttpBytesProofs HttpBytesSession HttpTargets HttpBytesLimits.
Open Scope N_scope.

(** The target that has been read is not empty once its end has been seen: of the parser behind src/server.rs:185. *)
Definition targeted (s : qstate) : Prop :=
  match s with QVersion _ t _ | QLf _ t | QHeaders _ t _ => t <> [] | _ => True end.

Lemma qstep_targeted trims uri_byte most s c : targeted s ->
  match qstep trims uri_byte most s c with On s => targeted s | Over x => snd (fst x) <> [] | Wrong => True end.
Proof.
  intros T. destruct s as [|m|m t|m t l|m t|m t h]; cbn [qstep targeted] in *.
  - destruct (_ || _); [exact I|]. destruct (token_char c); exact I.
  - destruct (c =? 32); [destruct (method_of m); exact I|]. destruct (token_char c); exact I.
  - destruct (c =? 32); [destruct t; [exact I | discriminate]|]. destruct (uri_byte c); exact I.
  - destruct l as [|x l]; [destruct (c =? 13); [exact T|]; destruct (c =? 10); [exact T | exact I]|]. destruct (c =? x); [exact T | exact I].
  - destruct (c =? 10); [exact T | exact I].
  - destruct (hstep trims most h c); [exact T | exact T | exact I].
Qed.
Lemma qrun_targeted trims uri_byte most : forall l s x r, targeted s -> run (qstep trims uri_byte most) s l = PDone x r -> snd (fst x) <> [].
Proof.
  induction l as [|c l IH]; intros s x r T E; cbn [run] in E; [discriminate|]. pose proof (qstep_targeted trims uri_byte most s c T) as Q.
  destruct (qstep trims uri_byte most s c) as [s'|y|]; [exact (IH _ _ _ Q E) | injection E as <- _; exact Q | discriminate].
Qed.

(** Whatever bytes a server is sent, a request read from them names a target. *)
Theorem C72_target_given (trims : bool) (uri_byte : N -> bool) (l : limits) s q :
  settle (l_read (byte_link trims uri_byte l) s) = Comes (Got q) -> q_target q <> [].
Proof.
  cbn [l_read byte_link]. unfold byte_read. rewrite settle_bind. destruct (settle (read_head _ _ _ _ _)) as [[[[m t] hs] a b| |]|e|] eqn:E; cbn [settle]; try discriminate.
  intros [= <-]. cbn [q_target]. destruct (head_from _ _ _ _ _ _ _ _ _ E) as (l0 & r & Q). exact (qrun_targeted trims uri_byte _ l0 QStart (m, t, hs) r I Q).
Qed.
Print Assumptions C72_target_given.

(** Line ends in front of a request change nothing, however many and of either kind. *)
Theorem C72_lines_before (trims : bool) (uri_byte : N -> bool) most ends b :
  Forall (fun c => c = 13 \/ c = 10) ends -> run (qstep trims uri_byte most) QStart (ends ++ b) = run (qstep trims uri_byte most) QStart b.
Proof.
  induction 1 as [|c ends [->| ->] _ IH]; [reflexivity | |]; exact IH.
Qed.
Print Assumptions C72_lines_before.

Example C72_request_line_case :
  run (qstep true (fun _ => true) 32) QStart ([13; 10; 10] ++ u "GET /a HTTP/1.1" ++ [13; 10; 13; 10] ++ u "x") = PDone (MGet, u "/a", []) (u "x") /\
  Forall (fun c => c = 13 \/ c = 10) [13; 10; 10] /\
  run (qstep true (fun _ => true) 32) QStart (u "GET  HTTP/1.1" ++ [13; 10; 13; 10]) = PBad.
Proof. split; [vm_compute; reflexivity|]. split; [repeat (apply Forall_cons; [auto|]); apply Forall_nil|]. vm_compute. reflexivity. Qed.
