(** * Property C50: a call from the client's value to the handler and back. *)
From Verif Require Import Base Utf8 Decimal DepUrl Serde Procedure ScalarSpec PathSpec FieldSpec Status SerPath SerQuery SerHeader SerRequest SerResponse DePath DeQuery DeHeader DeRequest DeResponse
  Router RouterSpec RouterProofs DepHttp UrlProofs PathProofs PathTrip FieldProofs QueryProofs HeaderProofs FieldMore RequestSpec RequestProofs RequestTrip RequestArrives
  ResponseSpec ResponseProofs ResponseTrip Json JsonText Problem ProblemSpec ProblemProofs Error Client ClientSpec ClientProofs Server ServerSpec ServerProofs EndToEndSpec EndToEnd
  Exhibit PathProps FieldProps RequestProps ResponseProps JsonProps ProblemProps ServerProps.
Open Scope N_scope.

(** ** C50 *)
(** The handler gets the request and the body the client sent, and the client's call ends with the response and the body
    the handler gave. *)
Theorem C50_call_end_to_end (F : floatlib) (U : urlenv) (W : httpenv) (CConn SConn R : Type)
    (explain : request SConn -> ekind -> ustr * option ustr * option (list ustr)) (reason : status -> ustr)
    (w : wire CConn) (ln : link SConn) (ps : list (hproc SConn R)) (peer : CConn -> SConn) (content : SConn -> bytes)
    (p : proc) (hp : hproc SConn R) n pa qu hd ss l body connect c mk v1 b1 :
  (* the procedure is registered and its entry point is not hidden *)
  pr_method p = hp_method hp -> pr_entry p = hp_entry hp ->
  In (hp_method hp, hp_entry hp, hp) (accepted (registrations ps)) ->
  unshadowed (accepted (registrations ps)) (hp_entry hp) (map enc (fill (hp_entry hp) ss)) ->
  plain_entry (hp_entry hp) -> hp_entry hp <> [] ->
  (* the request is one that arrives (C09) *)
  hp_req hp = TStruct n (typed_parts pa qu hd) ->
  path_fits (hp_entry hp) pa ss -> Forall path_safe ss -> first_ok (fill (hp_entry hp) ss) ->
  query_fits qu -> (pa = None -> qu = None) ->
  header_fits hd l -> forallb safe_header (l ++ [length_header (N.of_nat (length body))]) = true ->
  (* the network does its work *)
  settle connect = Comes c -> (forall r, exists c1, settle (w_write w r body c) = Comes c1) ->
  carries_requests w ln peer content (pr_method p) -> carries_responses explain reason w ln ps peer ->
  (* the user's code reads the body that came with the request, and answers with a response that arrives (C19) *)
  (forall q, content (q_conn q) = body -> exists q', settle (hp_body hp (SStruct n (value_parts pa qu hd)) q) = Comes (q', mk (SStruct n (value_parts pa qu hd)) body)) ->
  nsettle (hp_call hp (mk (SStruct n (value_parts pa qu hd)) body)) = Comes (v1, b1) ->
  suits (pr_resp p) v1 ->
  exists c0 n0, forall n', (n0 <= n')%nat ->
    snd (drive w p n' (call_new (SStruct n (value_parts pa qu hd), body) connect)) =
      Ok (Done v1 (match pr_method p with MHead => [] | _ => b1 end) c0).
Proof. exact (call_end_to_end explain reason w ln ps peer content p hp n pa qu hd ss l body connect c mk v1 b1). Qed.
Print Assumptions C50_call_end_to_end.

(** A request for which there is no procedure ends at the client as the problem that says so. *)
Theorem C50_refused_end_to_end (F : floatlib) (U : urlenv) (W : httpenv) (J : jsonfloat) (CConn SConn R : Type)
    (explain : request SConn -> ekind -> ustr * option ustr * option (list ustr)) (reason : status -> ustr)
    (w : wire CConn) (ln : link SConn) (ps : list (hproc SConn R)) (peer : CConn -> SConn) (content : SConn -> bytes)
    (p : proc) url_norm v body connect c r segs qs no n variants x :
  encode_request (pr_entry p) v (N.of_nat (length body)) = Ok r -> parse_url (rb_target r) = Some (mkUrl (Some segs) qs) ->
  route_spec (accepted (registrations ps)) (pr_method p) segs = inr no ->
  pr_method p <> MHead -> pr_resp p = TEnum n variants -> status_from_str x = Ok (status_of no) -> assoc x variants = Some (VNewtype pr_ty) ->
  str_ok (reason (status_of no)) = true ->
  settle connect = Comes c -> (exists c1, settle (w_write w r body c) = Comes c1) -> (forall q, exists q', settle (l_drain ln q) = Comes q') ->
  carries_requests w ln peer content (pr_method p) -> carries_responses explain reason w ln ps peer ->
  exists c0 n0 v1 b, (forall n', (n0 <= n')%nat -> snd (drive w p n' (call_new (v, body) connect)) = Ok (Done (SNewtypeVariant n x v1) b c0)) /\
    exists d, pr_decoded reason v1 = Some d /\ pr_set_body url_norm d b = mkPresp None (AboutBlank (reason (status_of no)) (code_of (status_of no))).
Proof. exact (refused_end_to_end explain reason w ln ps peer content p url_norm v body connect c r segs qs no n variants x). Qed.
Print Assumptions C50_refused_end_to_end.

(** There are networks that carry requests and responses. *)
Theorem C50_networks_exist (F : floatlib) (U : urlenv) (W : httpenv) (R : Type) explain reason m (ps : list (hproc place R)) :
  carries_requests (loop_wire explain reason m ps) (loop_link m) (fun s => s) carried m /\
  carries_responses explain reason (loop_wire explain reason m ps) (loop_link m) ps (fun s => s).
Proof. exact (conj (loop_requests explain reason m ps) (loop_responses explain reason m ps)). Qed.
Print Assumptions C50_networks_exist.

(** Two procedures; the handler answers with the body reversed. *)
Definition ex_pa := Some (TTuple ex_ts, STuple ex_vs).
Definition ex_qu := Some (TStruct (u "Q") ex_fs, SStruct (u "Q") ex_fv).
Definition ex_hproc2 (m : method) (ep : entry_point) : hproc place (value * bytes) := {|
  hp_method := m; hp_entry := ep; hp_req := TStruct (u "Req") (typed_parts ex_pa ex_qu ex_head);
  hp_body := fun v q => Later (Ready (q, (v, carried (q_conn q))));
  hp_call := fun '(v, b) => NLater (NReady (SStructVariant (u "Res") (u "Ok") (head_val ex_head), rev b))
|}.
Definition ex_ps2 := [ex_hproc2 MGet [Val (u "users"); Var]; ex_hproc2 MPost ex_ep].
Definition ex_res2 : list (ustr * vty) := ex_res ++ [(u "MethodNotAllowed", VNewtype pr_ty)].
Definition ex_proc2 m : proc := {| pr_method := m; pr_entry := ex_ep; pr_resp := TEnum (u "Res") ex_res2 |}.
Definition ex_explain2 : request place -> ekind -> ustr * option ustr * option (list ustr) := fun _ _ => (u "Invalid", None, None).
Example C50_case : let F := ex_float in let U := ex_url in let W := ex_http in
  let hp := ex_hproc2 MPost ex_ep in let ss := [u "7"; u "a/b?%20.txt"] in
  let v := SStruct (u "Req") (value_parts ex_pa ex_qu ex_head) in
  v = ex_req /\
  pr_method (ex_proc2 MPost) = hp_method hp /\ pr_entry (ex_proc2 MPost) = hp_entry hp /\
  In (hp_method hp, hp_entry hp, hp) (accepted (registrations ex_ps2)) /\
  unshadowed (accepted (registrations ex_ps2)) (hp_entry hp) (map enc (fill (hp_entry hp) ss)) /\
  plain_entry (hp_entry hp) /\ hp_entry hp <> [] /\ path_fits (hp_entry hp) ex_pa ss /\ Forall path_safe ss /\ first_ok (fill (hp_entry hp) ss) /\
  query_fits ex_qu /\ (exists l, header_fits ex_head l /\ forallb safe_header (l ++ [length_header 3]) = true) /\
  (forall q, carried (q_conn q) = [1; 2; 3] -> exists q', settle (hp_body hp v q) = Comes (q', pair v [1; 2; 3])) /\
  nsettle (hp_call hp (pair v [1; 2; 3])) = Comes (SStructVariant (u "Res") (u "Ok") (head_val ex_head), [3; 2; 1]) /\
  suits (pr_resp (ex_proc2 MPost)) (SStructVariant (u "Res") (u "Ok") (head_val ex_head)) /\
  (* the call itself, and one with a method that is not registered *)
  (exists c0, snd (drive (loop_wire ex_explain2 ex_reason MPost ex_ps2) (ex_proc2 MPost) 9 (call_new (v, [1; 2; 3]) (Later (Ready (mkPlace None [] None))))) =
     Ok (Done (SStructVariant (u "Res") (u "Ok") (head_val ex_head)) [3; 2; 1] c0)) /\
  (exists c0 v1 b, snd (drive (loop_wire ex_explain2 ex_reason MPut ex_ps2) (ex_proc2 MPut) 9 (call_new (v, [1; 2; 3]) (Later (Ready (mkPlace None [] None))))) =
     Ok (Done (SNewtypeVariant (u "Res") (u "MethodNotAllowed") v1) b c0)) /\
  (exists r segs qs, encode_request ex_ep v 3 = Ok r /\ parse_url (rb_target r) = Some (mkUrl (Some segs) qs) /\
     route_spec (accepted (registrations ex_ps2)) MPut segs = inr MethodNotAllowed) /\
  status_from_str (u "MethodNotAllowed") = Ok (status_of MethodNotAllowed) /\ assoc (u "MethodNotAllowed") ex_res2 = Some (VNewtype pr_ty) /\
  str_ok (ex_reason (status_of MethodNotAllowed)) = true.
Proof.
  cbv zeta. split; [reflexivity|]. split; [reflexivity|]. split; [reflexivity|]. split; [vm_compute; auto|]. split; [vm_compute; auto|].
  pose proof C09_case as C9. cbv zeta in C9. destruct C9 as (_ & _ & P & Ne & Pf & Sa & Fo & Qf & _ & _ & _).
  split; [exact P|]. split; [exact Ne|]. split; [exact Pf|]. split; [exact Sa|]. split; [exact Fo|]. split; [exact Qf|].
  pose proof ex_head_fits as Hf. cbv zeta in Hf. destruct Hf as (l & Hf & Hs).
  split; [exists l; split; [exact Hf | rewrite forallb_app; apply andb_true_iff; split; [exact Hs | reflexivity]]|].
  split; [intros q E; exists q; cbn [hp_body ex_hproc2 settle]; rewrite E; reflexivity|]. split; [reflexivity|].
  split; [apply (SuVariant (u "Res") ex_res2 (u "Ok") StOk ex_head l); [reflexivity | reflexivity | exact Hf | exact Hs]|].
  split; [eexists; vm_compute; reflexivity|]. split; [do 3 eexists; vm_compute; reflexivity|].
  split; [do 3 eexists; split; [vm_compute; reflexivity|]; split; vm_compute; reflexivity|].
  split; [reflexivity|]. split; reflexivity.
Qed.
