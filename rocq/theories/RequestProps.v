(** * Properties C09-C12, C27, C29: requests from the client to the handler. *)
From Verif Require Import Base Utf8 Decimal DepUrl Serde Procedure ScalarSpec PathSpec FieldSpec SerPath SerQuery SerHeader SerRequest
  DePath DeQuery DeHeader DeRequest Router RouterSpec RouterProofs DepHttp
  UrlProofs PathProofs PathTrip FieldProofs QueryProofs HeaderProofs FieldMore RequestSpec RequestProofs RequestTrip MapSpec RequestArrives
  Exhibit PathProps FieldProps.
Open Scope N_scope.

(** Registrations for the cases: the entry point of PathProps among others that share segments with it. *)
Definition ex_gs : list (method * entry_point * nat) :=
  [(MGet, [Val (u "users"); Var], 1); (MPost, ex_ep, 2); (MGet, ex_ep, 3); (MGet, [Val (u "users"); Var; Val (u "groups"); Var], 4);
   (MGet, [Val (u "users"); Val (u "all")], 5)]%nat.
Definition ex_hfs : list (ustr * ty) := [(u "x-token", TStr); (u "x-retry", TOption (TInt U8))].
Definition ex_hvs : list (ustr * value) := [(u "x-token", SStr (u "s3 cr=t")); (u "x-retry", SSome (SInt U8 3))].
Definition ex_req : value :=
  SStruct (u "Req") [(u "path", STuple ex_vs); (u "query", SStruct (u "Q") ex_fv); (u "header", SStruct (u "H") ex_hvs)].

(** ** C09 *)
Theorem C09_request_arrives (U : urlenv) (F : floatlib) (W : httpenv)
    (H : Type) (gs : list (method * entry_point * H)) m ep h n p q hd ss l len :
  In (m, ep, h) (accepted gs) -> unshadowed (accepted gs) ep (map enc (fill ep ss)) ->
  plain_entry ep -> ep <> [] ->
  path_fits ep p ss -> Forall path_safe ss -> first_ok (fill ep ss) ->
  query_fits q -> (p = None -> q = None) ->
  header_fits hd l -> forallb safe_header (l ++ [length_header len]) = true ->
  exists r x hs, encode_request ep (SStruct n (value_parts p q hd)) len = Ok r /\
    deliver (rb_headers r) = Some hs /\ parse_url (rb_target r) = Some x /\
    route (build gs) m (u_path x) = Ok (inl h) /\
    de_request ep x hs (TStruct n (typed_parts p q hd)) = Ok (SStruct n (value_parts p q hd)).
Proof. exact (request_arrives H gs m ep h n p q hd ss l len). Qed.
Print Assumptions C09_request_arrives.

(** What the server decodes from any message, field by field; a type without a header field needs some header to skip. *)
Theorem C09_request_decoding_iff (F : floatlib) ep x hs n fs vs : NoDup (map fst fs) ->
  de_request ep x hs (TStruct n fs) = Ok (SStruct n vs) <->
  u_path x <> None /\ (~ In (u "header") (map fst fs) -> hs <> []) /\
  Forall2 (fun f v => fst v = fst f /\ part_reads ep x hs (fst f) (snd f) (snd v)) fs vs.
Proof. exact (de_request_struct ep x hs n fs vs). Qed.
Print Assumptions C09_request_decoding_iff.

Example C09_case : let U := ex_url in let F := ex_float in let W := ex_http in
  let ss := [u "7"; u "a/b?%20.txt"] in
  let p := Some (TTuple ex_ts, STuple ex_vs) in
  let q := Some (TStruct (u "Q") ex_fs, SStruct (u "Q") ex_fv) in
  let hd := Some (TStruct (u "H") ex_hfs, SStruct (u "H") ex_hvs) in
  In (MGet, ex_ep, 3%nat) (accepted ex_gs) /\ unshadowed (accepted ex_gs) ex_ep (map enc (fill ex_ep ss)) /\
  plain_entry ex_ep /\ ex_ep <> [] /\ path_fits ex_ep p ss /\ Forall path_safe ss /\ first_ok (fill ex_ep ss) /\
  query_fits q /\ (p = None -> q = None) /\
  (exists l, header_fits hd l /\ forallb safe_header (l ++ [length_header 12]) = true) /\
  ex_req = SStruct (u "Req") (value_parts p q hd) /\
  match encode_request ex_ep ex_req 12 with
  | Ok r => rb_target r = u "/users/7/files/a%2Fb%3F%2520.txt?id=7&name=a+b%26c%3D%C3%BC&deep=false" /\
            rb_headers r = [(u "x-token", u "s3 cr=t"); (u "x-retry", u "3"); (u "Content-Length", u "12")]
  | _ => False
  end.
Proof.
  cbv zeta. split; [vm_compute; auto|]. split; [vm_compute; auto|].
  pose proof C06_case as C6. cbv zeta in C6. destruct C6 as (S & P & F2 & L & A & Sa & Fo).
  split; [exact P|]. split; [discriminate|]. split; [exists ex_ts, ex_vs; auto|]. split; [exact Sa|]. split; [exact Fo|].
  pose proof C07_case as C7. cbv zeta in C7. destruct C7 as (N & O & F3 & _).
  split; [constructor; assumption|]. split; [discriminate|]. split; [|split; [reflexivity | vm_compute; auto]].
  eexists. split.
  - split; [|vm_compute; reflexivity]. constructor; [apply nodup_names_NoDup; reflexivity | repeat constructor; discriminate | repeat constructor].
  - vm_compute. reflexivity.
Qed.

(** A request type without a header field cannot be read from a message without headers, whatever it says. *)
Theorem C09_header_field_optional_refuted :
  exists (U : urlenv) (F : floatlib) ep x vs hs,
    de_request ep x hs (TStruct (u "R") [(u "path", TTuple [TStr])]) = Ok (SStruct (u "R") vs) /\
    de_request ep x [] (TStruct (u "R") [(u "path", TTuple [TStr])]) = Err Invalid.
Proof.
  exists ex_url, ex_float, [Var], (mkUrl (Some [u "x"]) None), [(u "path", STuple [SStr (u "x")])], [(u "Host", u "h")].
  split; vm_compute; reflexivity.
Qed.
Print Assumptions C09_header_field_optional_refuted.

(** ** C10 *)
Theorem C10_query_needs_path (U : urlenv) (F : floatlib) ep v len pre q post :
  body_of v = Some (false, pre ++ (u "query", q) :: post) -> ~ In (u "path") (map fst pre) ->
  (encode_request ep v len = Err Invalid \/ encode_request ep v len = Panic) /\
  (pre = [] -> encode_request ep v len = Err Invalid).
Proof. exact (query_needs_path ep v len pre q post). Qed.
Print Assumptions C10_query_needs_path.

Example C10_case : let U := ex_url in let F := ex_float in
  let v := SStruct (u "R") [(u "query", SStruct (u "Q") ex_fv); (u "header", SStruct (u "H") ex_hvs)] in
  body_of v = Some (false, [] ++ (u "query", SStruct (u "Q") ex_fv) :: [(u "header", SStruct (u "H") ex_hvs)]) /\
  encode_request [Val (u "a")] v 0 = Err Invalid /\
  (* the same with a unit path is sent *)
  match encode_request [Val (u "a")] (SStruct (u "R") [(u "path", SUnit); (u "query", SStruct (u "Q") ex_fv)]) 0 with
  | Ok r => rb_target r = u "/a?id=7&name=a+b%26c%3D%C3%BC&deep=false" | _ => False end.
Proof. vm_compute. auto. Qed.

(** ** C11 *)
Theorem C11_client_panics_iff (U : urlenv) (F : floatlib) ep v len :
  encode_request ep v len = Panic <->
  match body_of v with
  | Some (false, fs) => var_count ep <> 0%nat /\ (fs = [] \/ exists h r, fs = (u "header", h) :: r)
  | Some (true, fs) => (fs = [] /\ var_count ep <> 0%nat) \/ exists h r, fs = (u "header", h) :: r
  | None => False
  end.
Proof. exact (encode_panic_iff ep v len). Qed.
Print Assumptions C11_client_panics_iff.

Theorem C11_otherwise_request_or_invalid (U : urlenv) (F : floatlib) ep v len :
  (exists r, encode_request ep v len = Ok r) \/ encode_request ep v len = Err Invalid \/ encode_request ep v len = Panic.
Proof. exact (encode_total ep v len). Qed.
Print Assumptions C11_otherwise_request_or_invalid.

Theorem C11_client_never_panics_refuted : exists (U : urlenv) (F : floatlib) ep v len, encode_request ep v len = Panic.
Proof. exists ex_url, ex_float, ex_ep, (SStruct (u "R") [(u "header", SStruct (u "H") ex_hvs)]), 0. vm_compute. reflexivity. Qed.
Print Assumptions C11_client_never_panics_refuted.

Example C11_case : let U := ex_url in let F := ex_float in
  encode_request [Val (u "a")] (SStructVariant (u "E") (u "V") [(u "header", SStruct (u "H") ex_hvs)]) 0 = Panic /\
  encode_request [Val (u "a")] (SStruct (u "R") [(u "header", SStruct (u "H") ex_hvs); (u "path", SUnit)]) 0 = Err Invalid /\
  encode_request ex_ep (SStruct (u "R") []) 0 = Panic /\
  encode_request ex_ep (SStruct (u "R") [(u "body", SUnit)]) 0 = Err Invalid.
Proof. vm_compute. auto. Qed.

(** ** C12 *)
Theorem C12_sent_iff (U : urlenv) (F : floatlib) ep v len r :
  encode_request ep v len = Ok r <-> exists b, body_of v = Some b /\ sends ep len b r.
Proof. exact (encode_ok_iff ep v len r). Qed.
Print Assumptions C12_sent_iff.

(** In particular the fields are paths, then at most one query, then headers. *)
Theorem C12_field_order (U : urlenv) (F : floatlib) ep v len r fs :
  encode_request ep v len = Ok r -> body_of v = Some (false, fs) ->
  exists ps q hs, (ps = [] -> q = None) /\
    fs = map (pair (u "path")) ps ++ match q with Some q => [(u "query", q)] | None => [] end ++ map (pair (u "header")) hs.
Proof. exact (sent_field_order ep v len r fs). Qed.
Print Assumptions C12_field_order.

Theorem C12_unknown_field_refused (U : urlenv) (F : floatlib) ep v len b k w :
  body_of v = Some b -> In (k, w) (snd b) -> k <> u "path" -> k <> u "query" -> k <> u "header" ->
  forall r, encode_request ep v len <> Ok r.
Proof. exact (unknown_field_refused ep v len b k w). Qed.
Print Assumptions C12_unknown_field_refused.

Example C12_case : let U := ex_url in let F := ex_float in
  (exists r, encode_request ex_ep ex_req 12 = Ok r) /\
  (exists fs, body_of ex_req = Some (false, fs)) /\
  encode_request ex_ep (SStruct (u "R") [(u "path", STuple ex_vs); (u "header", SStruct (u "H") ex_hvs); (u "query", SStruct (u "Q") ex_fv)]) 0 = Err Invalid /\
  encode_request ex_ep (SStruct (u "R") [(u "path", STuple ex_vs); (u "body", SUnit)]) 0 = Err Invalid.
Proof. cbv zeta. split; [eexists; vm_compute; reflexivity|]. split; [eexists; reflexivity|]. vm_compute. auto. Qed.

(** ** C27 *)
Theorem C27_never_reached (U : urlenv) (F : floatlib) ep v len r x (H : Type) (gs : list (method * entry_point * H)) m h b :
  entry_ok ep -> wf_value v = true -> body_of v = Some b -> NoDup (map fst (snd b)) ->
  encode_request ep v len = Ok r -> parse_url (rb_target r) = Some x ->
  route (build gs) m (u_path x) = Ok (inl h) ->
  ep = [] \/ (exists c, In (Val c) ep /\ c <> [] /\ ~ plain_const c) \/ (exists sg r, ep = Val [] :: sg :: r) ->
  exists ep', In (m, ep', h) (accepted gs) /\ ep' <> ep.
Proof. exact (unreachable ep v len r x H gs m h b). Qed.
Print Assumptions C27_never_reached.

Example C27_case : let U := ex_url in let F := ex_float in
  let ep := [Val (u "my files"); Var] in
  let v := SStruct (u "R") [(u "path", STuple [SStr (u "x")])] in
  entry_ok ep /\ wf_value v = true /\ In (Val (u "my files")) ep /\ u "my files" <> [] /\ ~ plain_const (u "my files") /\
  exists r x, encode_request ep v 0 = Ok r /\ parse_url (rb_target r) = Some x /\
    route (build [(MGet, ep, 1%nat)]) MGet (u_path x) = Ok (inr NotFound) /\
    route (build [(MGet, ep, 1%nat); (MGet, [Var; Var], 2%nat)]) MGet (u_path x) = Ok (inl 2%nat).
Proof.
  cbv zeta. split; [intros c [[= <-]|[|[]]]; [reflexivity | discriminate]|]. split; [reflexivity|]. split; [left; reflexivity|].
  split; [discriminate|]. split.
  - intros (_ & P & _). destruct (P 32) as [L _]; [vm_compute; auto|]. lia.
  - do 2 eexists. split; [vm_compute; reflexivity|]. split; [vm_compute; reflexivity|]. split; vm_compute; reflexivity.
Qed.

Theorem C27_every_procedure_reachable_refuted :
  exists (U : urlenv) (F : floatlib) ep v r x, encode_request ep v 0 = Ok r /\ parse_url (rb_target r) = Some x /\
    route (build [(MGet, ep, 1%nat)]) MGet (u_path x) = Ok (inr NotFound).
Proof.
  exists ex_url, ex_float, [], (SStruct (u "R") [(u "path", SUnit)]). do 2 eexists.
  split; [vm_compute; reflexivity|]. split; vm_compute; reflexivity.
Qed.
Print Assumptions C27_every_procedure_reachable_refuted.

(** ** C29 *)
Theorem C29_client_target (U : urlenv) (F : floatlib) ep v len r : entry_ok ep -> wf_value v = true ->
  encode_request ep v len = Ok r ->
  (exists rest, rb_target r = 47 :: rest /\ hd_error rest <> Some 47) /\
  (forall c, In c (rb_target r) -> 33 <= c <= 126 /\ c <> 35) /\
  exists segs q, rb_target r = url_text segs q /\ parse_url (rb_target r) = Some (mkUrl (Some segs) q) /\
    forall b qv l, body_of v = Some b -> In (u "query", qv) (snd b) -> query_written qv = Some l ->
      query_pairs (mkUrl (Some segs) q) = l.
Proof. exact (client_target ep v len r). Qed.
Print Assumptions C29_client_target.

Example C29_case : let U := ex_url in let F := ex_float in
  entry_ok ex_ep /\ wf_value ex_req = true /\ (exists r, encode_request ex_ep ex_req 12 = Ok r) /\
  (* whereas a target with two slashes names a host, and one with another scheme has no path *)
  parse_url (u "//host/x") = Some (mkUrl (Some [u "x"]) None) /\
  parse_url (u "mailto:x") = Some (mkUrl None None).
Proof.
  cbv zeta. split; [intros c [[= <-]|[|[[= <-]|[|[]]]]]; try reflexivity; discriminate|].
  split; [reflexivity|]. split; [eexists; vm_compute; reflexivity|]. vm_compute. auto.
Qed.
