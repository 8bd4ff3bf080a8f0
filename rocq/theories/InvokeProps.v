(** * Property C91: a handler is run at most once for a request, with what that request said, and exactly once if it is answered. *)
From Verif Require Import Base Utf8 Decimal DepUrl Serde Procedure ScalarSpec PathSpec FieldSpec Status SerHeader SerRequest SerResponse DeHeader DeRequest DeResponse Router RouterSpec DepHttp
  UrlProofs PathTrip HeaderProofs RequestArrives HttpBytesLimits Error Client ClientSpec ClientProofs Server ServerSpec EndToEndSpec SessionSpec HttpBytes HttpBytesSpec PoolBytesSpec HttpBytesLeftSpec HttpBytesLeft CutsSpec WholeSpec Whole Invoke InvokeSpec InvokeProofs
  Exhibit PathProps FieldProps RequestProps ResponseProps ProblemProps EndToEndProps SessionProps HttpBytesProps PoolBytesProps HttpBytesLeftProps CutsProps WholeProps.
Open Scope N_scope.

(** The server of which the runs are counted is the one of the other properties. *)
Theorem C91_same_server (F : floatlib) (U : urlenv) (Conn R : Type) (explain : request Conn -> ekind -> ustr * option ustr * option (list ustr)) (reason : status -> ustr)
  (ln : link Conn) (ps : list (hproc Conn R)) k f :
  let ir := irounds explain reason ln (build (registrations ps)) k (itask_new f) in
  let r := rounds explain reason ln (build (registrations ps)) k (task_new f) in
  outside (fst ir) = fst r /\ iended (snd ir) = ended (snd r).
Proof. exact (same_rounds explain reason ln ps k f). Qed.
Print Assumptions C91_same_server.

(** Whatever a network does: all that has happened on a connection is the first of what is to happen, where each request
    read has the run it is worth, if any, and then the reply; and each part of that happens in the end. *)
Theorem C91_happens (F : floatlib) (U : urlenv) (Conn R : Type) (explain : request Conn -> ekind -> ustr * option ustr * option (list ustr)) (reason : status -> ustr)
  (ln : link Conn) (ps : list (hproc Conn R)) f :
  let done k := fst (irounds explain reason ln (build (registrations ps)) k (itask_new f)) in
  (forall k n, (k <= n)%nat -> prefix (done k) (happenings explain reason ln ps n f)) /\
  forall n, exists k0, forall k, (k0 <= k)%nat -> prefix (happenings explain reason ln ps n f) (done k).
Proof. exact (happens explain reason ln ps f). Qed.
Print Assumptions C91_happens.

(** A run comes right after a request is read, and after it nothing happens before the response is written. *)
Theorem C91_after_read (F : floatlib) (U : urlenv) (Conn R : Type) (explain : request Conn -> ekind -> ustr * option ustr * option (list ustr)) (reason : status -> ustr)
  (ln : link Conn) (ps : list (hproc Conn R)) k f l1 p x l2 :
  fst (irounds explain reason ln (build (registrations ps)) k (itask_new f)) = l1 ++ IInvokes p x :: l2 ->
  (exists l c, l1 = l ++ [IDoes (ARead c)]) /\ match l2 with [] => True | a :: _ => exists h b c, a = IDoes (AWrite h b c) end.
Proof. exact (run_after_read explain reason ln ps k f l1 p x l2). Qed.
Print Assumptions C91_after_read.
(** So between two runs on a connection a response is written and another request read. *)
Theorem C91_once (F : floatlib) (U : urlenv) (Conn R : Type) (explain : request Conn -> ekind -> ustr * option ustr * option (list ustr)) (reason : status -> ustr)
  (ln : link Conn) (ps : list (hproc Conn R)) k f l1 p x l2 p' x' l3 :
  fst (irounds explain reason ln (build (registrations ps)) k (itask_new f)) = l1 ++ IInvokes p x :: l2 ++ IInvokes p' x' :: l3 ->
  exists h b c l c', l2 = IDoes (AWrite h b c) :: l ++ [IDoes (ARead c')].
Proof. exact (once_each explain reason ln ps k f l1 p x l2 p' x' l3). Qed.
Print Assumptions C91_once.

(** Over bytes, in whatever pieces they come: the runs are the first of those that the bytes say, and in the end all of them. *)
Theorem C91_by_bytes (F : floatlib) (U : urlenv) (R : Type) (explain : request bconn -> ekind -> ustr * option ustr * option (list ustr))
  (explained : method -> ustr -> list rheader -> ekind -> ustr * option ustr * option (list ustr)) (reason : status -> ustr)
  (trims : bool) (uri_byte : N -> bool) (sl : limits) (ps : list (hproc bconn R)) (manners : hproc bconn R -> manner R) c :
  (forall q k, explain q k = explained (q_method q) (q_target q) (q_headers q) k) -> (forall hp, In hp ps -> behaves hp (manners hp)) ->
  (length (b_held c) <= most_bytes sl)%nat ->
  let ran k := invoked (fst (irounds explain reason (byte_link trims uri_byte sl) (build (registrations ps)) k (itask_new (Ready c)))) in
  let all := all_runs explained reason (run (qstep trims uri_byte (most_headers sl)) QStart) (most_bytes sl) ps manners (b_closed c) (stream c) in
  (forall k, prefix (ran k) all) /\ exists k0, forall k, (k0 <= k)%nat -> ran k = all.
Proof. exact (fun Ex Hm => runs_by_bytes explain explained reason trims uri_byte sl ps manners Ex Hm c). Qed.
Print Assumptions C91_by_bytes.

(** When requests are sent one after the other and the bytes are cut off anywhere, the runs are those that the first [j]
    requests are worth, each by itself, in order; these have come to their ends, all that are answered are among them, and
    at most one that is not.  A request is worth at most one run. *)
Theorem C91_calls (F : floatlib) (U : urlenv) (R : Type)
  (explained : method -> ustr -> list rheader -> ekind -> ustr * option ustr * option (list ustr)) (reason : status -> ustr)
  (trims : bool) (uri_byte : N -> bool) (sl : limits) (ps : list (hproc bconn R)) (manners : hproc bconn R -> manner R) closed l s :
  (forall hp, In hp ps -> exists mk, manners hp = Takes mk) ->
  Forall (fun a => fit_request uri_byte sl (a_method a) (a_request a) (a_body a)) l -> prefix s (flat_map asking_bytes l) ->
  let parse := run (qstep trims uri_byte (most_headers sl)) QStart in
  let answers := length (fst (whole explained reason parse (most_bytes sl) ps manners closed s)) in
  exists j, prefix (flat_map asking_bytes (firstn j l)) s /\ (answers <= j <= S answers)%nat /\
    all_runs explained reason parse (most_bytes sl) ps manners closed s = flat_map (worth ps manners) (firstn j l).
Proof.
  exact (fun Ht Fl P => match all_runs_of_calls explained reason trims uri_byte sl ps manners Ht closed l s Fl P with ex_intro _ j (conj A (conj B C)) => ex_intro _ j (conj A (conj C B)) end).
Qed.
Print Assumptions C91_calls.
Theorem C91_worth_once (F : floatlib) (U : urlenv) (R : Type) (ps : list (hproc bconn R)) (manners : hproc bconn R -> manner R) a : (length (worth ps manners a) <= 1)%nat.
Proof. exact (worth_once ps manners a). Qed.
Print Assumptions C91_worth_once.
(** The request of a call is worth a run of its own procedure, with the value and the body that the caller gave. *)
Theorem C91_own_value (F : floatlib) (U : urlenv) (R : Type) (trims : bool) (ps : list (hproc bconn R)) (manners : hproc bconn R -> manner R) (hp : hproc bconn R) mk n pa qu hd ss l body :
  In (hp_method hp, hp_entry hp, hp) (accepted (registrations ps)) -> unshadowed (accepted (registrations ps)) (hp_entry hp) (map enc (fill (hp_entry hp) ss)) ->
  plain_entry (hp_entry hp) -> hp_entry hp <> [] -> hp_req hp = TStruct n (typed_parts pa qu hd) ->
  path_fits (hp_entry hp) pa ss -> Forall path_safe ss -> first_ok (fill (hp_entry hp) ss) -> query_fits qu -> (pa = None -> qu = None) ->
  header_fits hd l -> forallb safe_header (l ++ [length_header (N.of_nat (length body))]) = true -> manners hp = Takes mk ->
  exists r, encode_request (hp_entry hp) (SStruct n (value_parts pa qu hd)) (N.of_nat (length body)) = Ok r /\
    (forallb safe_header (rb_headers r) = true ->
     worth ps manners (mkAsking (hp_method hp) r body) = [(hp, mk (SStruct n (value_parts pa qu hd)) (hp_method hp) (rb_target r) (rb_headers r) body)]).
Proof. exact (worth_own trims ps manners hp mk n pa qu hd ss l body). Qed.
Print Assumptions C91_own_value.

(** ** Cases: of the five calls of C70, answered, without a procedure, of another type, HEAD and answered, three are worth
    a run, with their own bodies; with the last byte missing the last is not run; and the server runs them.  With C74's
    handler, which leaves bodies behind, a body is taken for a request and run. *)
Definition ex_taking (hp : hproc bconn (value * bytes)) : manner (value * bytes) := Takes (fun v _ _ _ b => (v, b)).
Definition ex_runs := let F := ex_float in let U := ex_url in
  all_runs (R := value * bytes) ex_explained ex_reason (run (qstep true ex_uri (most_headers server_limits)) QStart) (most_bytes server_limits).
Definition ex_ran (ps : list (hproc bconn (value * bytes))) (k : nat) (c : bconn) := let F := ex_float in let U := ex_url in
  map (fun '(p, x) => (hp_method p, snd x)) (invoked (fst (irounds ex_explainb ex_reason (byte_link true ex_uri server_limits) (build (registrations ps)) k (itask_new (Ready c))))).
Definition ex_short (l : list (hproc bconn (value * bytes) * (value * bytes))) : list (method * bytes) := map (fun '(p, x) => (hp_method p, snd x)) l.
Example C91_case : let F := ex_float in let U := ex_url in
  (forall q k, ex_explainb q k = ex_explained (q_method q) (q_target q) (q_headers q) k) /\
  (forall hp, In hp ex_psb -> behaves hp (ex_taking hp)) /\ (forall hp, In hp ex_psb -> exists mk, ex_taking hp = Takes mk) /\
  Forall (fun a => fit_request ex_uri server_limits (a_method a) (a_request a) (a_body a)) ex_asked /\
  prefix (removelast ex_sent) (flat_map asking_bytes ex_asked) /\
  map (fun a => ex_short (worth ex_psb ex_taking a)) ex_asked = [[(MPost, [1; 2; 3])]; []; []; [(MHead, [4])]; [(MPost, [5; 6])]] /\
  ex_short (ex_runs ex_psb ex_taking false ex_sent) = [(MPost, [1; 2; 3]); (MHead, [4]); (MPost, [5; 6])] /\
  ex_short (ex_runs ex_psb ex_taking true (removelast ex_sent)) = [(MPost, [1; 2; 3]); (MHead, [4])] /\
  ex_ran ex_psb 400 ex_s = [(MPost, [1; 2; 3]); (MHead, [4]); (MPost, [5; 6])] /\
  ex_ran ex_psl 400 ex_sl = [(MPost, []); (MDelete, [1; 2; 3]); (MPost, [])].
Proof.
  split; [reflexivity|]. split; [intros hp [<-|[<-|[<-|[]]]]; cbn; reflexivity|]. split; [intros hp _; eexists; reflexivity|].
  split; [apply Forall_forall; intros x Ix; apply fit_checkedq; revert x Ix; apply forallb_forall; vm_compute; reflexivity|].
  split; [exists [last ex_sent 0]; symmetry; apply (app_removelast_last (l := ex_sent) 0); vm_compute; discriminate|].
  do 4 (split; [vm_compute; reflexivity|]). vm_compute. reflexivity.
Qed.
(** The hypotheses of [C91_own_value], met as in C70. *)
Example C91_case_own : let F := ex_float in let U := ex_url in
  exists r, encode_request ex_ep (SStruct (u "Req") (value_parts ex_pa ex_qu ex_head)) 3 = Ok r /\
    worth ex_psb ex_taking (mkAsking MPost r [1; 2; 3]) = [(ex_hprocb MPost ex_req_ty, (SStruct (u "Req") (value_parts ex_pa ex_qu ex_head), [1; 2; 3]))].
Proof.
  pose proof ex_head_fits as Hf. cbv zeta in *. destruct Hf as (l & Hf & Hs).
  pose proof C09_case as C9. cbv zeta in C9. destruct C9 as (_ & _ & P & Ne & Pf & Sa & Fo & Qf & _ & _ & _).
  destruct (@C91_own_value ex_float ex_url (value * bytes) true ex_psb ex_taking (ex_hprocb MPost ex_req_ty) (fun v _ _ _ b => (v, b)) (u "Req") ex_pa ex_qu ex_head [u "7"; u "a/b?%20.txt"] l [1; 2; 3])
    as (r & E & W); try assumption; try reflexivity.
  - vm_compute. auto.
  - vm_compute. auto.
  - discriminate.
  - apply with_length_safe. exact Hs.
  - exists r. split; [exact E|]. apply W. change (@encode_request ex_url ex_float ex_ep (SStruct (u "Req") (value_parts ex_pa ex_qu ex_head)) 3 = Ok r) in E. vm_compute in E. injection E as <-. vm_compute. reflexivity.
Qed.
