(** * Property C52: calls one after the other on one connection. *)
From Verif Require Import Base Utf8 Decimal DepUrl Serde Procedure ScalarSpec PathSpec FieldSpec Status SerPath SerQuery SerHeader SerRequest SerResponse DePath DeQuery DeHeader DeRequest DeResponse
  Router RouterSpec RouterProofs DepHttp UrlProofs PathProofs PathTrip FieldProofs QueryProofs HeaderProofs FieldMore RequestSpec RequestProofs RequestTrip RequestArrives
  ResponseSpec ResponseProofs ResponseTrip Json JsonText Problem ProblemSpec ProblemProofs Error Client ClientSpec ClientProofs Server ServerSpec ServerProofs EndToEndSpec EndToEnd
  SessionSpec SessionProofs Exhibit PathProps FieldProps RequestProps ResponseProps JsonProps ProblemProps ServerProps EndToEndProps.
Open Scope N_scope.

(** ** C52 *)
(** On a network that only keeps messages in order, every call gets the answer meant for it. *)
Theorem C52_calls_in_turn (F : floatlib) (U : urlenv) (W : httpenv) (CConn SConn R : Type)
    (explain : request SConn -> ekind -> ustr * option ustr * option (list ustr)) (reason : status -> ustr)
    (w : wire CConn) (ln : link SConn) (ps : list (hproc SConn R))
    (inbox : CConn -> list replying) (queue : SConn -> list asking) (content : SConn -> bytes) es os c s :
  server_end ln queue content -> client_end w inbox -> in_order explain reason w ln ps inbox queue es c s ->
  Forall2 (meant explain reason ln ps queue content) es os ->
  exists n0, forall n, (n0 <= n)%nat -> snd (session w n es c) = os.
Proof. exact (calls_in_turn explain reason w ln ps inbox queue content es os c s). Qed.
Print Assumptions C52_calls_in_turn.

(** What is meant for a call that a handler answers is what the handler gave. *)
Theorem C52_served (F : floatlib) (U : urlenv) (W : httpenv) (SConn R : Type)
    (explain : request SConn -> ekind -> ustr * option ustr * option (list ustr)) (reason : status -> ustr)
    (ln : link SConn) (ps : list (hproc SConn R)) (queue : SConn -> list asking) (content : SConn -> bytes) e o :
  served ps queue content e o -> meant explain reason ln ps queue content e o.
Proof. exact (served_meant explain reason ln ps queue content e o). Qed.
Print Assumptions C52_served.

(** For one that has no procedure, the problem saying so. *)
Theorem C52_refused (F : floatlib) (U : urlenv) (W : httpenv) (J : jsonfloat) (SConn R : Type)
    (explain : request SConn -> ekind -> ustr * option ustr * option (list ustr)) (reason : status -> ustr)
    (ln : link SConn) (ps : list (hproc SConn R)) (queue : SConn -> list asking) (content : SConn -> bytes)
    (p : proc) url_norm v body r segs qs no n variants x :
  server_end ln queue content ->
  encode_request (pr_entry p) v (N.of_nat (length body)) = Ok r -> parse_url (rb_target r) = Some (mkUrl (Some segs) qs) ->
  route_spec (accepted (registrations ps)) (pr_method p) segs = inr no ->
  pr_method p <> MHead -> pr_resp p = TEnum n variants -> status_from_str x = Ok (status_of no) -> assoc x variants = Some (VNewtype pr_ty) ->
  str_ok (reason (status_of no)) = true ->
  exists v1 b d, meant explain reason ln ps queue content (mkErrand p v body) (SNewtypeVariant n x v1, b) /\
    pr_decoded reason v1 = Some d /\ pr_set_body url_norm d b = mkPresp None (AboutBlank (reason (status_of no)) (code_of (status_of no))).
Proof. exact (refused_meant explain reason ln ps queue content p url_norm v body r segs qs no n variants x). Qed.
Print Assumptions C52_refused.

(** For one that the handler's type does not admit, the problem with the explanation of the error. *)
Theorem C52_invalid (F : floatlib) (U : urlenv) (W : httpenv) (J : jsonfloat) (SConn R : Type)
    (explain : request SConn -> ekind -> ustr * option ustr * option (list ustr)) (reason : status -> ustr)
    (ln : link SConn) (ps : list (hproc SConn R)) (queue : SConn -> list asking) (content : SConn -> bytes)
    (p : proc) url_norm v body r hs segs qs (hp : hproc SConn R) k n variants x t d0 h :
  server_end ln queue content ->
  encode_request (pr_entry p) v (N.of_nat (length body)) = Ok r -> deliver (rb_headers r) = Some hs -> parse_url (rb_target r) = Some (mkUrl (Some segs) qs) ->
  route_spec (accepted (registrations ps)) (pr_method p) segs = inl hp ->
  de_request (hp_entry hp) (mkUrl (Some segs) qs) hs (hp_req hp) = Err k ->
  (forall q, reads_request content (mkAsking (pr_method p) r body) q -> explain q k = (t, d0, h)) -> problem_ok url_norm (Trackable t 400 d0 None h) ->
  pr_method p <> MHead -> pr_resp p = TEnum n variants -> status_from_str x = Ok StBadRequest -> assoc x variants = Some (VNewtype pr_ty) ->
  exists v1 b d, meant explain reason ln ps queue content (mkErrand p v body) (SNewtypeVariant n x v1, b) /\
    pr_decoded reason v1 = Some d /\ pr_set_body url_norm d b = mkPresp None (Trackable t 400 d0 None h).
Proof. exact (invalid_meant explain reason ln ps queue content p url_norm v body r hs segs qs hp k n variants x t d0 h). Qed.
Print Assumptions C52_invalid.

(** There are such networks, for whatever calls that have an answer. *)
Theorem C52_networks_exist (F : floatlib) (U : urlenv) (W : httpenv) (R : Type)
    (explain : request sconn -> ekind -> ustr * option ustr * option (list ustr)) (reason : status -> ustr) (ps : list (hproc sconn R)) es os :
  server_end script_link sc_queue sc_content /\ client_end script_wire (fun c => c) /\
  (Forall2 (meant explain reason script_link ps sc_queue sc_content) es os ->
   exists c s, in_order explain reason script_wire script_link ps (fun c => c) sc_queue es c s).
Proof. exact (conj script_server (conj script_client (script_in_order explain reason ps es os))). Qed.
Print Assumptions C52_networks_exist.

(** Four calls on one connection: one that is answered, one with a method nobody offers, one whose path the server reads
    as another type, and a HEAD. *)
Definition ex_hproc3 (m : method) (t : ty) : hproc sconn (value * bytes) := {|
  hp_method := m; hp_entry := ex_ep; hp_req := t;
  hp_body := fun v q => Later (Ready (q, (v, sc_content (q_conn q))));
  hp_call := fun '(v, b) => NLater (NReady (SStructVariant (u "Res") (u "Ok") (head_val ex_head), rev b))
|}.
Definition ex_req_ty := TStruct (u "Req") (typed_parts ex_pa ex_qu ex_head).
Definition ex_bool_ty := TStruct (u "Req") (typed_parts (Some (TTuple [TBool; TStr], SUnit)) ex_qu ex_head).
Definition ex_ps3 := [ex_hproc3 MHead ex_req_ty; ex_hproc3 MPost ex_req_ty; ex_hproc3 MDelete ex_bool_ty].
Definition ex_proc3 m : proc := {| pr_method := m; pr_entry := ex_ep; pr_resp := TEnum (u "Res") (ex_res2 ++ [(u "BadRequest", VNewtype pr_ty)]) |}.
Definition ex_explain3 : request sconn -> ekind -> ustr * option ustr * option (list ustr) := fun _ _ => (u "Invalid", Some (u "not a bool"), Some [u "at x.rs:1"]).
Definition ex_errand m b := mkErrand (ex_proc3 m) (SStruct (u "Req") (value_parts ex_pa ex_qu ex_head)) b.
Definition ex_errands := [ex_errand MPost [1; 2; 3]; ex_errand MPut []; ex_errand MDelete [9]; ex_errand MHead [4]; ex_errand MPost [5; 6]].
Definition ex_ok b : answer := (SStructVariant (u "Res") (u "Ok") (head_val ex_head), b).
(** What is written on either end, and what the calls come to. *)
Definition ex_asked : list asking := let F := ex_float in let U := ex_url in
  flat_map (fun e => match encode_request (pr_entry (e_proc e)) (e_value e) (N.of_nat (length (e_body e))) with
                     | Ok r => [mkAsking (pr_method (e_proc e)) r (e_body e)] | _ => [] end) ex_errands.
Definition ex_replied : list replying := let F := ex_float in let U := ex_url in let W := ex_http in
  replied (fst (conversation ex_explain3 ex_reason script_link ex_ps3 9 (Ready (mkSconn ex_asked [])))).
Example C52_case_served : forall hp, In hp [ex_hproc3 MHead ex_req_ty; ex_hproc3 MPost ex_req_ty] -> forall body, (N.of_nat (length body) =? 3) || (N.of_nat (length body) =? 1) = true ->
    let F := ex_float in let U := ex_url in let W := ex_http in
    served ex_ps3 sc_queue sc_content (ex_errand (hp_method hp) body) (SStructVariant (u "Res") (u "Ok") (head_val ex_head), match hp_method hp with MHead => [] | _ => rev body end).
Proof.
  pose proof ex_head_fits as Hf. cbv zeta in *. destruct Hf as (l & Hf & Hs).
  pose proof C09_case as C9. cbv zeta in C9. destruct C9 as (_ & _ & P & Ne & Pf & Sa & Fo & Qf & _ & _ & _).
  intros hp Ih body Lb. cbv zeta.
  apply (@Served ex_float ex_url sconn (value * bytes) ex_ps3 sc_queue sc_content (ex_proc3 (hp_method hp)) hp (u "Req") ex_pa ex_qu ex_head [u "7"; u "a/b?%20.txt"] l body
           (fun v b => (v, b)) (SStructVariant (u "Res") (u "Ok") (head_val ex_head)) (rev body)).
  - reflexivity.
  - destruct Ih as [<-|[<-|[]]]; reflexivity.
  - destruct Ih as [<-|[<-|[]]]; vm_compute; auto.
  - destruct Ih as [<-|[<-|[]]]; vm_compute; auto.
  - destruct Ih as [<-|[<-|[]]]; exact P.
  - destruct Ih as [<-|[<-|[]]]; exact Ne.
  - destruct Ih as [<-|[<-|[]]]; reflexivity.
  - destruct Ih as [<-|[<-|[]]]; exact Pf.
  - exact Sa.
  - destruct Ih as [<-|[<-|[]]]; exact Fo.
  - exact Qf.
  - discriminate.
  - exact Hf.
  - rewrite forallb_app. apply andb_true_iff. split; [exact Hs|]. apply orb_true_iff in Lb. destruct Lb as [E|E]; apply N.eqb_eq in E; rewrite E; reflexivity.
  - intros q E. exists q. destruct Ih as [<-|[<-|[]]]; cbn [hp_body ex_hproc3 settle]; rewrite E; split; reflexivity.
  - destruct Ih as [<-|[<-|[]]]; reflexivity.
  - apply (SuVariant (u "Res") (ex_res2 ++ [(u "BadRequest", VNewtype pr_ty)]) (u "Ok") StOk ex_head l); [reflexivity | reflexivity | exact Hf | exact Hs].
Qed.
Example C52_case : let F := ex_float in let U := ex_url in let W := ex_http in
  served ex_ps3 sc_queue sc_content (ex_errand MPost [1; 2; 3]) (ex_ok [3; 2; 1]) /\
  served ex_ps3 sc_queue sc_content (ex_errand MHead [4]) (ex_ok []) /\
  map (fun r => code_of (pb_status (fst r))) ex_replied = [200; 405; 400; 200; 200] /\
  map (fun r => match snd r with Some b => length b | None => 77%nat end) ex_replied = [3; 60; 187; 77; 2]%nat /\
  fst (session script_wire 9 ex_errands ex_replied) = ex_asked /\
  map (fun o => match fst o with SStructVariant _ x _ | SNewtypeVariant _ x _ => (x, length (snd o)) | _ => ([], O) end) (snd (session script_wire 9 ex_errands ex_replied)) =
    [(u "Ok", 3%nat); (u "MethodNotAllowed", 60%nat); (u "BadRequest", 187%nat); (u "Ok", 0%nat); (u "Ok", 2%nat)].
Proof.
  pose proof C52_case_served as S. cbv zeta in *.
  split; [exact (S _ (or_intror (or_introl eq_refl)) [1; 2; 3] eq_refl)|]. split; [exact (S _ (or_introl eq_refl) [4] eq_refl)|].
  split; [vm_compute; reflexivity|]. split; [vm_compute; reflexivity|]. split; vm_compute; reflexivity.
Qed.
(** The other two calls meet their theorems. *)
Example C52_problems_case : let F := ex_float in let U := ex_url in let W := ex_http in let J := ex_jfloat in
  (match encode_request ex_ep ex_req 0 with
   | Ok r => match parse_url (rb_target r) with Some (mkUrl (Some segs) _) => route_spec (accepted (registrations ex_ps3)) MPut segs = inr MethodNotAllowed | _ => False end
   | _ => False end) /\
  (match encode_request ex_ep ex_req 1 with
   | Ok r => match parse_url (rb_target r), deliver (rb_headers r) with
             | Some (mkUrl (Some segs) qs), Some hs => route_spec (accepted (registrations ex_ps3)) MDelete segs = inl (ex_hproc3 MDelete ex_bool_ty) /\
                 de_request ex_ep (mkUrl (Some segs) qs) hs ex_bool_ty = Err Invalid
             | _, _ => False end
   | _ => False end) /\
  problem_ok ex_url_norm (Trackable (u "Invalid") 400 (Some (u "not a bool")) None (Some [u "at x.rs:1"])).
Proof.
  cbv zeta. split; [vm_compute; reflexivity|]. split; [vm_compute; split; reflexivity|].
  split; [reflexivity|]. split; [reflexivity|]. split; [intros s [= <-]; reflexivity|]. split; [discriminate|]. intros h [= <-]. repeat constructor.
Qed.
