(** * Property C95: the load that calls through a pool make. *)
From Verif Require Import Base Utf8 DepUrl FieldSpec Serde Procedure Router SerRequest Error Client ClientSpec Pool PoolSpec PoolSystem PoolSystemSpec PoolLoadSpec PoolLoad Exhibit PathProps RequestProps ClientProps PoolProps PoolSystemProps.
Open Scope N_scope.

(** In every execution, on any network: there are never more connections than the pool's size, the calls going on and the
    connections just given back together. *)
Theorem C95_alive (F : floatlib) (U : urlenv) tmax checks size d ls s tr : prun tmax checks ls (psys_new size d) = (s, tr) ->
  N.of_nat (length (holders s)) <= size + N.of_nat (how_many going s) + N.of_nat (on_their_way s).
Proof. exact (holders_bound tmax checks size d ls s tr). Qed.
Print Assumptions C95_alive.

(** Never more connections have been opened than calls have got past connecting; and never more commands wait for the pool than
    there were calls, and calls that came to an end. *)
Theorem C95_opened_and_sent (F : floatlib) (U : urlenv) tmax checks size d ls s tr : prun tmax checks ls (psys_new size d) = (s, tr) ->
  (openings tr <= how_many past s)%nat /\ (length (s_queue s) <= length (s_calls s) + how_many over s)%nat.
Proof. exact (load_bound tmax checks size d ls s tr). Qed.
Print Assumptions C95_opened_and_sent.

(** The size of the pool does not bound the connections: whatever it is, calls that go on at the same time have as many
    connections as they are, even to one address. *)
Theorem C95_size_bounds_connections_refuted (F : floatlib) (U : urlenv) tmax checks (addr : saddr) (p : proc) v (body : bytes) h :
  encode_request (pr_entry p) v (N.of_nat (length body)) = Ok h ->
  forall size d n, exists ls s tr, prun tmax checks ls (psys_new size d) = (s, tr) /\ NoDup (holders s) /\ length (holders s) = n /\ openings tr = n /\ s_opened s = repeat addr n.
Proof. exact (fun E => crowded tmax checks addr p v body h E). Qed.
Print Assumptions C95_size_bounds_connections_refuted.

(** ** Cases: the calls of C36, with a connection released, one in use and calls that ended in all ways; ten calls through a
    pool of size 3. *)
Example C95_case : let U := ex_url in let F := ex_float in
  (let '(s, tr) := prun 100 true (firstn 4 ex_first) (psys_new 3 10) in holders s = [0%nat] /\ how_many going s = 0%nat /\ on_their_way s = 1%nat /\ openings tr = 1%nat /\ length (s_queue s) = 1%nat) /\
  (let '(s, tr) := prun 100 true ex_first (psys_new 3 10) in holders s = [0%nat] /\ how_many going s = 2%nat /\ how_many over s = 3%nat /\ how_many past s = 5%nat /\ openings tr = 2%nat /\ length (s_queue s) = 1%nat) /\
  (exists h, encode_request (pr_entry (ex_proc MPost)) ex_req (N.of_nat 2) = Ok h) /\
  (let '(s, tr) := prun 100 true (crowding ex_a (ex_proc MPost) ex_req [1; 2] 10) (psys_new 3 10) in
   holders s = seq 0 10 /\ how_many going s = 10%nat /\ openings tr = 10%nat /\ length (s_queue s) = 0%nat /\ idle_conns (s_pool s) = []).
Proof. split; [vm_compute; repeat split|]. split; [vm_compute; repeat split|]. split; [eexists; vm_compute; reflexivity|]. vm_compute. repeat split. Qed.
