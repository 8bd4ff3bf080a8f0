(** * Property C65: a call through a pool is lost only for a cause, and so is the pool. *)
From Verif Require Import Base Decimal Serde Procedure Router SerRequest DeHeader DeResponse DepUrl Error Client ClientSpec Pool PoolSpec PoolSystem PoolSystemSpec PoolCauseSpec PoolCause
  Exhibit PathProps RequestProps ClientProps PoolProps PoolSystemProps.
Open Scope N_scope.

(** A finished call has decoded a response that came for it.  A failed one has one of the six causes, each with the kind of its error; a
    dropped one was dropped by its user. *)
Theorem C65_every_end_explained (F : floatlib) (U : urlenv) tmax checks size d ls s tr i pc : prun tmax checks ls (psys_new size d) = (s, tr) -> nth_error (s_calls s) i = Some pc ->
  explained s (plog tmax checks ls (psys_new size d)) i pc.
Proof. exact (explained_all tmax checks ls size d s tr i pc). Qed.
Print Assumptions C65_every_end_explained.

(** A pool is gone because it was dropped, or because an address was reported at a time to which the suspension cannot be added, or, in a
    program with overflow checks, because of 2^64 connections given back. *)
Theorem C65_pool_lost (F : floatlib) (U : urlenv) tmax checks size d ls s tr : prun tmax checks ls (psys_new size d) = (s, tr) -> s_pool s = None ->
  pool_cause tmax checks d (plog tmax checks ls (psys_new size d)).
Proof. exact (pool_lost tmax checks ls size d s tr). Qed.
Print Assumptions C65_pool_lost.

(** If connecting, writing and reading always come to something, and nobody drops the pool: it stays, no address is reported, and a call fails
    only because its request cannot be written or the response that came for it cannot be read. *)
Theorem C65_well_pool_stays (F : floatlib) (U : urlenv) tmax checks size d ls s tr : prun tmax checks ls (psys_new size d) = (s, tr) ->
  Forall goes_well (plog tmax checks ls (psys_new size d)) -> (checks = false \/ given_back tr < 2 ^ 64) ->
  s_pool s <> None /\ forall a, ~ reported (plog tmax checks ls (psys_new size d)) a.
Proof. intros E W Sm. split; [exact (well_alive tmax checks ls size d s tr E W Sm) | exact (well_unreported tmax checks ls size d W)]. Qed.
Print Assumptions C65_well_pool_stays.
Theorem C65_well_failures (F : floatlib) (U : urlenv) tmax checks size d ls s tr i pc k : prun tmax checks ls (psys_new size d) = (s, tr) ->
  Forall goes_well (plog tmax checks ls (psys_new size d)) -> (checks = false \/ given_back tr < 2 ^ 64) ->
  nth_error (s_calls s) i = Some pc -> c_state pc = Broken k ->
  encoding pc = Err k \/ exists x b, received (pr_method (c_proc pc)) (plog tmax checks ls (psys_new size d)) i x b /\ decoding_of pc x = Err k.
Proof. exact (well_broken tmax checks ls size d s tr i pc k). Qed.
Print Assumptions C65_well_failures.

(** The run of the case of C48 has all ends but a panic; here the events behind them. *)
Example C65_case : let U := ex_url in let F := ex_float in let '(s, tr) := prun 100 true (ex_first ++ ex_last) (psys_new 3 10) in
  let lg := plog 100 true (ex_first ++ ex_last) (psys_new 3 10) in
  state_of 0 s = Some (Finished ex_response [104; 105]) /\ (exists x0, nth_error lg 3 = Some (LPoll 0 quick, [EOpen 0%nat ex_a; EAct 0 (Write x0 [1; 2] 0%nat); EAct 0 (ReadHead 0%nat);
    EAct 0 (ReadBody (mkResponse 200 [(u "X-Id", u "17")] 0%nat)); ERelease 0 ex_a 0%nat])) /\
  state_of 1 s = Some Dropped /\ nth_error lg 8 = Some (LDrop 1, []) /\
  state_of 3 s = Some (Broken Other) /\ nth_error lg 13 = Some (LPool 5 (Failed FromIo), []) /\ nth_error lg 14 = Some (LPoll 3 quick, [EBlacklist 3 ex_b]) /\
  state_of 4 s = Some (Broken Other) /\ addr_of 4 s = Some ex_b /\ state_of 5 s = Some (Broken Other) /\ s_pool s = None /\ nth_error lg 20 = Some (LPoolDrop, []).
Proof. vm_compute. repeat split. eexists. reflexivity. Qed.

(** All goes well, with overflow checks: the first call's request is no structure, the second is answered without its header, the third is finished. *)
Definition ex_bare : wire conn := {|
  w_write := fun r b c => Later (Ready c);
  w_head := fun c => Ready (mkResponse 200 [] c);
  w_body := fun r => Ready (r, [])
|}.
Definition ex_well : list plabel :=
  [LCall ex_a (ex_proc MPost) (SUnit, []); ex_call ex_a; ex_call ex_b; LPool 1 (Ready tt); LPool 2 (Later (Ready tt)); LPool 3 (Ready tt); LPoll 0 quick; LPoll 1 ex_bare; LPoll 2 quick; LPoll 1 ex_bare; LPoll 1 ex_bare; LPool 4 (Ready tt)]%Z.
Example C65_well_case : let U := ex_url in let F := ex_float in let '(s, tr) := prun 100 true ex_well (psys_new 3 10) in
  let lg := plog 100 true ex_well (psys_new 3 10) in
  Forall goes_well lg /\ given_back tr < 2 ^ 64 /\ given_back tr = 1 /\ length lg = 12%nat /\
  option_map (fun pc => (c_state pc, encoding pc)) (nth_error (s_calls s) 0) = Some (Broken Invalid, Err Invalid) /\
  option_map (fun pc => (c_state pc, decoding_of pc (mkResponse 200 [] 1%nat))) (nth_error (s_calls s) 1) = Some (Broken Invalid, Err Invalid) /\
  state_of 2 s = Some (Finished ex_response [104; 105]).
Proof.
  vm_compute. split; [|repeat split]. repeat (constructor; [try exact I; try (eexists; reflexivity); repeat (constructor; [try exact I; eexists; reflexivity|]); try constructor|]). constructor.
Qed.
