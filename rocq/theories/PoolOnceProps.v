(** * Property C92: however calls share the connections of a pool, each is run by servers at most once, and once if it is answered. *)
From Verif Require Import Base Utf8 Decimal DepUrl Serde Procedure ScalarSpec PathSpec FieldSpec Status SerHeader SerRequest SerResponse DeHeader DeRequest DeResponse Router RouterSpec DepHttp
  Error Client ClientSpec Server ServerSpec EndToEndSpec SessionSpec Pool PoolSystem PoolSystemSpec PoolAnswerSpec PoolFairSpec HttpBytes HttpBytesSpec PoolBytesSpec CutsSpec WholeSpec Invoke InvokeSpec
  PoolOnceSpec PoolOnceProofs PoolOnce
  PoolSystemReport
  Exhibit PathProps FieldProps RequestProps ResponseProps ProblemProps EndToEndProps SessionProps PoolProps PoolAnswerProps PoolServedProps HttpBytesProps PoolBytesProps CutsProps WholeProps InvokeProps.
Open Scope N_scope.

(** No call writes its request twice: there is no second attempt, on the same connection or on another one, whatever the
    pool, the network and the users do. *)
Theorem C92_no_retry (F : floatlib) (U : urlenv) tmax checks ls size d s tr : prun tmax checks ls (psys_new size d) = (s, tr) -> NoDup (writers tr).
Proof. exact (fun E => proj1 (writes_once tmax checks ls size d s tr E)). Qed.
Print Assumptions C92_no_retry.
(** What is written on a connection are the requests of these calls, each that of its own procedure, value and body. *)
Theorem C92_own_requests (F : floatlib) (U : urlenv) tmax checks ls size d s tr c : prun tmax checks ls (psys_new size d) = (s, tr) ->
  Forall2 (asks_as s) (writers_on c tr) (asked_on s c tr).
Proof. exact (fun E => proj2 (writes_once tmax checks ls size d s tr E) c). Qed.
Print Assumptions C92_own_requests.
(** With servers at the other ends that read what has come so far of what was written: after any number of rounds of each,
    on any connections, the handlers run are those of some of the calls, and no call is among them twice. *)
Theorem C92_at_most_once (F : floatlib) (U : urlenv) (R : Type) (explain : request bconn -> ekind -> ustr * option ustr * option (list ustr))
  (explained : method -> ustr -> list rheader -> ekind -> ustr * option ustr * option (list ustr)) (reason : status -> ustr)
  (trims : bool) (uri_byte : N -> bool) (sl : limits) (manners : hproc bconn R -> manner R) tmax checks ls size d s tr
  (ps : conn -> list (hproc bconn R)) (near : conn -> bconn) (k : conn -> nat) cs :
  (forall q k, explain q k = explained (q_method q) (q_target q) (q_headers q) k) ->
  prun tmax checks ls (psys_new size d) = (s, tr) ->
  (forall c hp, In hp (ps c) -> behaves hp (manners hp) /\ exists mk, manners hp = Takes mk) ->
  (forall c, (length (b_held (near c)) <= most_bytes sl)%nat) ->
  (forall c a, In a (asked_on s c tr) -> fit_request uri_byte sl (a_method a) (a_request a) (a_body a)) ->
  (forall c, prefix (stream (near c)) (flat_map asking_bytes (asked_on s c tr))) -> NoDup cs ->
  exists rans, NoDup (concat rans) /\ Forall2 (fun c ran => prefix ran (writers_on c tr) /\
    exists l, Forall2 (asks_as s) ran l /\
      invoked (fst (irounds explain reason (byte_link trims uri_byte sl) (build (registrations (ps c))) (k c) (itask_new (Ready (near c))))) = flat_map (worth (ps c) manners) l) cs rans.
Proof. exact (fun Ex => ran_once explain explained reason trims uri_byte sl manners Ex tmax checks ls size d s tr ps near k cs). Qed.
Print Assumptions C92_at_most_once.
(** A call that has finished is among those that the server at its address has run on its connection, once. *)
Theorem C92_answered_once (F : floatlib) (U : urlenv) (R : Type) (explain : request bconn -> ekind -> ustr * option ustr * option (list ustr))
  (explained : method -> ustr -> list rheader -> ekind -> ustr * option ustr * option (list ustr)) (reason : status -> ustr)
  (trims : bool) (uri_byte : N -> bool) (cl sl : limits) (manners : hproc bconn R -> manner R) tmax checks (ps : saddr -> list (hproc bconn R)) (far near : conn -> bconn) ls size d s tr i pc v b :
  (forall q k, explain q k = explained (q_method q) (q_target q) (q_headers q) k) ->
  prun tmax checks ls (psys_new size d) = (s, tr) -> Forall honest_label ls -> told_apart checks s tr ->
  over_tcp explain reason trims uri_byte cl sl ps far near s (plog tmax checks ls (psys_new size d)) ->
  (forall a hp, In hp (ps a) -> behaves hp (manners hp) /\ exists mk, manners hp = Takes mk) ->
  (forall c, (length (b_held (near c)) <= most_bytes sl)%nat) ->
  (forall c, prefix (stream (near c)) (flat_map asking_bytes (asked_on s c tr))) ->
  nth_error (s_calls s) i = Some pc -> c_state pc = Finished v b ->
  exists c ran l k0, In (EOpen c (c_addr pc)) tr /\ count_occ Nat.eq_dec ran i = 1%nat /\ prefix ran (writers_on c tr) /\ Forall2 (asks_as s) ran l /\
    forall k, (k0 <= k)%nat ->
      invoked (fst (irounds explain reason (byte_link trims uri_byte sl) (build (registrations (ps (c_addr pc)))) k (itask_new (Ready (near c))))) = flat_map (worth (ps (c_addr pc)) manners) l.
Proof. exact (fun Ex => answered_once explain explained reason trims uri_byte sl manners Ex tmax checks cl ps far near ls size d s tr i pc v b). Qed.
Print Assumptions C92_answered_once.

(** ** A case: the five calls of C73 over two connections. Of the three to one server two are worth a run, of the two to the
    other one is: the others are answered that there is no such method, or that the request is not of the type. With a byte
    missing at each end the last of each are not run. *)
Definition ex_at (c : conn) := ex_serversb (ex_to c).
Definition ex_less (c : conn) : bconn := let b := removelast (stream (ex_nearb c)) in mkBconn [] (cut (length b) 29 b) true None.
Example C92_case : let F := ex_float in let U := ex_url in let s := ex_stateb 31 in let tr := concat (map snd (ex_logb 31)) in
  prun 100 true (map ex_schedb (seq 0 31)) (psys_new 3 10) = (s, tr) /\
  (forall q k, ex_explainb q k = ex_explained (q_method q) (q_target q) (q_headers q) k) /\
  Forall honest_label (map ex_schedb (seq 0 31)) /\ told_apart true s tr /\
  over_tcp ex_explainb ex_reason true ex_uri ex_climits server_limits ex_serversb ex_farb ex_nearb s (ex_logb 31) /\
  (forall a hp, In hp (ex_serversb a) -> behaves hp (ex_taking hp) /\ exists mk, ex_taking hp = Takes mk) /\
  (forall c, (length (b_held (ex_nearb c)) <= most_bytes server_limits)%nat /\ (length (b_held (ex_less c)) <= most_bytes server_limits)%nat) /\
  (forall c, prefix (stream (ex_nearb c)) (flat_map asking_bytes (asked_on s c tr)) /\ prefix (stream (ex_less c)) (flat_map asking_bytes (asked_on s c tr))) /\
  writers tr = [0; 1; 3; 2; 4]%nat /\ writers_on 0%nat tr = [0; 3; 4]%nat /\ writers_on 1%nat tr = [1; 2]%nat /\
  map (fun pc => match c_state pc with Finished _ b => length b | _ => 0%nat end) (s_calls s) = [3; 187; 0; 60; 3]%nat /\
  map (fun c => ex_ran (ex_at c) 400 (ex_nearb c)) [0; 1]%nat = [[(MPost, [1; 2; 3]); (MPost, [5; 6; 7])]; [(MHead, [4])]] /\
  map (fun c => ex_ran (ex_at c) 400 (ex_less c)) [0; 1]%nat = [[(MPost, [1; 2; 3])]; []].
Proof.
  intros F U s tr. pose proof C73_case as C. cbv zeta in C. destruct C as (Ho & _ & _ & _ & _ & Un & _). specialize (Un 31%nat ltac:(lia)). destruct Un as (_ & _ & _ & O).
  assert (Ne : forall c, stream (ex_nearb c) = flat_map asking_bytes (asked_on s c tr)) by (intros [|[|c]]; vm_compute; reflexivity).
  split; [unfold tr, ex_logb; rewrite <- PoolSystemReport.prun_log; apply surjective_pairing|]. split; [reflexivity|]. split; [apply Forall_forall; intros l I; apply in_map_iff in I; destruct I as (n & <- & _); apply Ho|]. split; [left; reflexivity|]. split; [exact O|].
  split; [intros a hp Ih; split; [|eexists; reflexivity]; unfold ex_serversb in Ih; destruct (saddr_eqb a ex_a); repeat (destruct Ih as [<-|Ih]; [cbn; reflexivity|]); destruct Ih|].
  split; [intros c; split; apply Nat.le_0_l|].
  split; [intros c; rewrite <- Ne; split; [exists []; symmetry; apply app_nil_r|]|].
  - destruct c as [|[|c]]; [exists [last (stream (ex_nearb 0%nat)) 0] | exists [last (stream (ex_nearb 1%nat)) 0] | exists []]; vm_compute; reflexivity.
  - do 5 (split; [vm_compute; reflexivity|]). vm_compute. reflexivity.
Qed.
