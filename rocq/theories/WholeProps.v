(** * Property C87: a server's end of a connection is a function of the bytes that come on it, and so is a call. *)
From Verif Require Import Base Utf8 Decimal DepUrl Serde Procedure FieldSpec Status SerHeader SerRequest SerResponse DeHeader DeRequest DeResponse Router RouterSpec DepHttp
  Error Client ClientSpec ClientProofs Server ServerSpec EndToEndSpec SessionSpec HttpBytes HttpBytesSpec PoolBytesSpec HttpBytesLeftSpec HttpBytesLeft CutsSpec WholeSpec Whole
  Exhibit PathProps FieldProps RequestProps ResponseProps ProblemProps EndToEndProps SessionProps HttpBytesProps PoolBytesProps HttpBytesLeftProps CutsProps.
Open Scope N_scope.

(** Whatever bytes come on a connection, in whatever pieces: at any time the responses written are the first of those that
    [whole] makes of the bytes, they are all of them when the connection is over, which then ends as [whole] says; and in
    the end they are all written and the connection is over, unless something is waited for that does not come. *)
Theorem C87_server (F : floatlib) (U : urlenv) (R : Type) (explain : request bconn -> ekind -> ustr * option ustr * option (list ustr))
  (explained : method -> ustr -> list rheader -> ekind -> ustr * option ustr * option (list ustr)) (reason : status -> ustr)
  (trims : bool) (uri_byte : N -> bool) (sl : limits) (ps : list (hproc bconn R)) (manners : hproc bconn R -> manner R) c :
  (forall q k, explain q k = explained (q_method q) (q_target q) (q_headers q) k) -> (forall hp, In hp ps -> behaves hp (manners hp)) ->
  (length (b_held c) <= most_bytes sl)%nat ->
  let rounds := rounds explain reason (byte_link trims uri_byte sl) (build (registrations ps)) in
  let whole := whole explained reason (run (qstep trims uri_byte (most_headers sl)) QStart) (most_bytes sl) ps manners in
  (forall k, prefix (replied (fst (rounds k (task_new (Ready c))))) (fst (whole (b_closed c) (stream c))) /\
    forall e, ended (snd (rounds k (task_new (Ready c)))) = Some e -> (replied (fst (rounds k (task_new (Ready c)))), e) = whole (b_closed c) (stream c)) /\
  exists k0, forall k, (k0 <= k)%nat -> replied (fst (rounds k (task_new (Ready c)))) = fst (whole (b_closed c) (stream c)) /\
    ended (snd (rounds k (task_new (Ready c)))) = match snd (whole (b_closed c) (stream c)) with Unfinished => None | e => Some e end.
Proof. exact (fun Ex Hm => server_whole explain explained reason trims uri_byte sl ps manners Ex Hm c). Qed.
Print Assumptions C87_server.

(** Whatever bytes come back to a call: until it is over it waits, and it ends in what [found_in] makes of the bytes, with
    a connection on which what follows these is still to be read. *)
Theorem C87_call (F : floatlib) (U : urlenv) (trims : bool) (cl : limits) (p : proc) v body c : (length (b_held c) <= most_bytes cl)%nat ->
  let result k := reads_as (snd (drive (byte_wire trims cl) p k (call_new (v, body) (Ready c)))) in
  let found := found_in (most_bytes cl) (run (pstep trims (most_headers cl)) (PVersion (u "HTTP/1.1 "))) p v body (b_closed c) (stream c) in
  (forall k, result k = Waits \/ stands (result k) found) /\ exists k0, forall k, (k0 <= k)%nat -> stands (result k) found.
Proof. exact (call_whole trims cl p v body c). Qed.
Print Assumptions C87_call.

(** So for calls one after the other on the same connection. *)
Theorem C87_calls (F : floatlib) (U : urlenv) (trims : bool) (cl : limits) es c : (length (b_held c) <= most_bytes cl)%nat ->
  let found := found_all (most_bytes cl) (run (pstep trims (most_headers cl)) (PVersion (u "HTTP/1.1 "))) es (b_closed c) (stream c) in
  (forall n, prefix (snd (session (byte_wire trims cl) n es c)) found) /\ exists n0, forall n, (n0 <= n)%nat -> snd (session (byte_wire trims cl) n es c) = found.
Proof. exact (session_whole trims cl es c). Qed.
Print Assumptions C87_calls.

(** ** Cases: of the bytes of C76, which end in garbage, the server makes three replies and an error, and of a request
    whose body is cut off an error or nothing, as the connection is closed or not; a response with bytes after it is one
    answer, and then a failing call. *)
Definition ex_manners (hp : hproc bconn (value * bytes)) : manner (value * bytes) :=
  match hp_method hp with MPost => Skips (fun v _ _ _ => (v, [])) | _ => Takes (fun v _ _ _ b => (v, b)) end.
Definition ex_explained : method -> ustr -> list rheader -> ekind -> ustr * option ustr * option (list ustr) := fun _ _ _ _ => (u "Invalid", Some (u "not a bool"), Some [u "at x.rs:1"]).
Definition ex_whole := let F := ex_float in let U := ex_url in
  whole ex_explained ex_reason (run (qstep true ex_uri (most_headers server_limits)) QStart) (most_bytes server_limits) ex_psl ex_manners.
Definition ex_found := let F := ex_float in let U := ex_url in
  found_all (most_bytes ex_climits) (run (pstep true (most_headers ex_climits)) (PVersion (u "HTTP/1.1 "))).
Definition ex_cutoff : bytes := removelast (flat_map asking_bytes ex_inner).
Example C87_case : let F := ex_float in let U := ex_url in
  (forall q k, ex_explainb q k = ex_explained (q_method q) (q_target q) (q_headers q) k) /\ (forall hp, In hp ex_psl -> behaves hp (ex_manners hp)) /\
  length (b_held ex_sl7) = 0%nat /\ length (b_held ex_call9) = 20%nat /\
  (let '(l, e) := ex_whole (b_closed ex_sl7) (stream ex_sl7) in map snd l = [Some [7]; Some [3; 2; 1]; Some [7]] /\ e = Failing Other) /\
  ex_whole true ex_cutoff = ([], Failing Other) /\ ex_whole false ex_cutoff = ([], Unfinished) /\
  (let '(l, e) := ex_whole true (flat_map asking_bytes ex_inner) in map snd l = [Some [3; 2; 1]] /\ e = Closed) /\
  map snd (ex_found ex_pair (b_closed ex_call9) (stream ex_call9)) = [[7]; [3; 2; 1]] /\
  map snd (ex_found (ex_pair ++ ex_pair) (b_closed ex_call9) (stream ex_call9)) = [[7]; [3; 2; 1]; [7]].
Proof.
  split; [reflexivity|]. split; [intros hp [<-|[<-|[]]]; cbn; reflexivity|]. vm_compute. do 7 (split; [try split; reflexivity|]). reflexivity.
Qed.
