(** * Property C100: exactly which tables of procedures lose no request. *)
From Verif Require Import Base Utf8 Decimal DepUrl Serde Procedure ScalarSpec PathSpec FieldSpec Status SerPath SerQuery SerHeader SerRequest SerResponse DePath DeQuery DeHeader DeRequest DeResponse
  Router RouterSpec RouterProofs DepHttp UrlProofs PathProofs PathTrip FieldProofs QueryProofs HeaderProofs FieldMore RequestSpec RequestProofs RequestTrip RequestArrives
  ResponseSpec ResponseProofs ResponseTrip Json JsonText Problem ProblemSpec ProblemProofs Error Client ClientSpec ClientProofs Server ServerSpec ServerProofs EndToEndSpec EndToEnd
  Exhibit PathProps FieldProps RequestProps ResponseProps JsonProps ProblemProps ServerProps EndToEndProps GrowthSpec Growth GrowthProps ClashSpec Clash ClashCalls.
Open Scope N_scope.

Section C100.
Context {H : Type}.
Implicit Type gs : list (method * entry_point * H).

(** Every procedure gets all the requests that match it if, and only if, no two entry points clash. (The handlers are
    to be told apart.) *)
Theorem C100_exactly gs : NoDup (map snd (accepted gs)) ->
  (forall m ep h segs, In (m, ep, h) (accepted gs) -> matches ep segs -> route (build gs) m (Some segs) = Ok (inl h)) <->
  clash_free gs.
Proof. exact (clash_free_iff gs). Qed.

(** Then routing is what a search of the table would be: served by what matches, whichever way it is looked for ... *)
Theorem C100_search gs m segs h : clash_free gs ->
  route (build gs) m (Some segs) = Ok (inl h) <-> exists ep, In (m, ep, h) (accepted gs) /\ matches ep segs.
Proof. exact (search gs m segs h). Qed.

(** ... and 405 is the answer for a path that is there exactly if it is not there for the method. *)
Theorem C100_wrong_method gs m segs : clash_free gs -> (exists m' ep h', In (m', ep, h') gs /\ matches ep segs) ->
  route (build gs) m (Some segs) = Ok (inr MethodNotAllowed) <-> ~ exists ep h, In (m, ep, h) gs /\ matches ep segs.
Proof. exact (wrong_method gs m segs). Qed.

(** A table can grow without any request being lost as long as nothing clashes. *)
Theorem C100_grows gs gs' m segs h : clash_free (gs ++ gs') ->
  route (build gs) m (Some segs) = Ok (inl h) -> route (build (gs ++ gs')) m (Some segs) = Ok (inl h).
Proof. exact (clash_free_grows gs gs' m segs h). Qed.

(** Whether a table is free of clashes can be computed from the entry points. *)
Theorem C100_check gs : check_table gs = true <-> clash_free gs.
Proof. exact (check_iff gs). Qed.
End C100.

(** Calls to a server whose procedures do not clash come to their own procedure and back, whatever the values of the
    variables are (C50 has a hypothesis about the values). *)
Theorem C100_calls (F : floatlib) (U : urlenv) (W : httpenv) (CConn SConn R : Type)
    (explain : request SConn -> ekind -> ustr * option ustr * option (list ustr)) (reason : status -> ustr)
    (w : wire CConn) (ln : link SConn) (ps : list (hproc SConn R)) (peer : CConn -> SConn) (content : SConn -> bytes)
    (p : proc) (hp : hproc SConn R) n pa qu hd ss l body connect c mk v1 b1 :
  pr_method p = hp_method hp -> pr_entry p = hp_entry hp ->
  In (hp_method hp, hp_entry hp, hp) (accepted (registrations ps)) ->
  clash_free (registrations ps) ->
  plain_entry (hp_entry hp) -> hp_entry hp <> [] ->
  (* the request is one that arrives (C09) *)
  hp_req hp = TStruct n (typed_parts pa qu hd) ->
  path_fits (hp_entry hp) pa ss -> Forall path_safe ss -> first_ok (fill (hp_entry hp) ss) ->
  query_fits qu -> (pa = None -> qu = None) ->
  header_fits hd l -> forallb safe_header (l ++ [length_header (N.of_nat (length body))]) = true ->
  (* the network does its work *)
  settle connect = Comes c -> (forall r, exists c1, settle (w_write w r body c) = Comes c1) ->
  carries_requests w ln peer content (pr_method p) -> carries_responses explain reason w ln ps peer ->
  (* the user's code reads the body that came with the request, and answers with a response that arrives (C19) *)
  (forall q, content (q_conn q) = body -> exists q', settle (hp_body hp (SStruct n (value_parts pa qu hd)) q) = Comes (q', mk (SStruct n (value_parts pa qu hd)) body)) ->
  nsettle (hp_call hp (mk (SStruct n (value_parts pa qu hd)) body)) = Comes (v1, b1) ->
  suits (pr_resp p) v1 ->
  exists c0 n0, forall n', (n0 <= n')%nat ->
    snd (drive w p n' (call_new (SStruct n (value_parts pa qu hd), body) connect)) =
      Ok (Done v1 (match pr_method p with MHead => [] | _ => b1 end) c0).
Proof. exact (calls_arrive F U W CConn SConn R explain reason w ln ps peer content p hp n pa qu hd ss l body connect c mk v1 b1). Qed.

(** And wherever two procedures clash, with constants that URLs keep, there is a call to one of them that does not come to
    it, if the variables of that one are texts: the client sends it, it matches, and it is sent elsewhere or refused. *)
Theorem C100_clash_costs (F : floatlib) (U : urlenv) (H : Type) (gs : list (method * entry_point * H)) g g' n len :
  NoDup (map snd (accepted gs)) -> In g (accepted gs) -> In g' (accepted gs) ->
  plain_entry (snd (fst g)) -> plain_entry (snd (fst g')) -> clash (snd (fst g)) (snd (fst g')) ->
  exists m ep h ss r segs, ((m, ep, h) = g \/ (m, ep, h) = g') /\
    encode_request ep (SStruct n [(u "path", STuple (map SStr ss))]) len = Ok r /\
    parse_url (rb_target r) = Some (mkUrl (Some segs) None) /\ matches ep segs /\
    route (build gs) m (Some segs) <> Ok (inl h).
Proof. exact (clash_costs gs g g' n len). Qed.

(** Without that a path may be there for the method and yet be answered 405, or be there and be answered 404. *)
Theorem C100_search_refuted :
  exists (gs : list (method * entry_point * nat)) segs segs' ep ep' h h',
    In (MGet, ep, h) (accepted gs) /\ matches ep segs /\ route (build gs) MGet (Some segs) = Ok (inr MethodNotAllowed) /\
    In (MGet, ep', h') (accepted gs) /\ matches ep' segs' /\ route (build gs) MGet (Some segs') = Ok (inr NotFound).
Proof.
  exists (ex_users ++ [ex_import]), [u "users"; u "import"], [u "users"; u "import"; u "posts"].
  exists [Val (u "users"); Var], [Val (u "users"); Var; Val (u "posts")], 1%nat, 2%nat.
  split; [left; reflexivity|]. split; [cbn; auto|]. split; [vm_compute; reflexivity|].
  split; [right; left; reflexivity|]. split; [cbn; auto | vm_compute; reflexivity].
Qed.

(** Tables that are free of clashes and one that is not; the server of C50 is one. *)
Example C100_case :
  check_table ex_users = true /\ check_table (ex_users ++ [(MPost, [Val (u "users"); Var], 5%nat); (MGet, [Val (u "users")], 6%nat)]) = true /\
  check_table (ex_users ++ [ex_import]) = false /\ NoDup (map snd (accepted ex_users)) /\
  clash [Val (u "users"); Var] [Val (u "users"); Val (u "import")] /\ ~ clash [Val (u "a"); Var] [Val (u "b"); Val (u "c")] /\
  route (build ex_users) MGet (Some [u "users"; u "import"]) = Ok (inl 1%nat) /\
  route (build ex_users) MPost (Some [u "users"; u "import"]) = Ok (inr MethodNotAllowed) /\
  clash_free (registrations ex_ps2) /\
  In (MPost, ex_ep, ex_hproc2 MPost ex_ep) (accepted (registrations ex_ps2)) /\
  NoDup (map snd (accepted (ex_users ++ [ex_import]))) /\ In ex_import (accepted (ex_users ++ [ex_import])) /\
  @plain_entry ex_url [Val (u "users"); Var] /\ @plain_entry ex_url (snd (fst ex_import)).
Proof.
  split; [vm_compute; reflexivity|]. split; [vm_compute; reflexivity|]. split; [vm_compute; reflexivity|].
  split; [change (NoDup [1%nat; 2%nat; 3%nat]); repeat constructor; cbn; intuition discriminate|].
  split; [cbn; auto|]. split; [cbn; intros [E _]; discriminate|]. split; [vm_compute; reflexivity|].
  split; [vm_compute; reflexivity|]. split; [apply C100_check; vm_compute; reflexivity|]. split; [right; left; reflexivity|].
  split; [change (NoDup [1%nat; 2%nat; 3%nat; 4%nat]); repeat constructor; cbn; intuition discriminate|].
  split; [right; right; right; left; reflexivity|]. split; apply plain_entryb_ok; vm_compute; reflexivity.
Qed.

Print Assumptions C100_exactly.
Print Assumptions C100_search.
Print Assumptions C100_wrong_method.
Print Assumptions C100_grows.
Print Assumptions C100_check.
Print Assumptions C100_calls.
Print Assumptions C100_clash_costs.
Print Assumptions C100_search_refuted.
