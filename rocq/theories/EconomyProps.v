(** * Property C98: how many connections calls through a pool use up. *)
From Verif Require Import Base Utf8 DepUrl FieldSpec Serde Procedure Router SerRequest Error Client ClientSpec Pool PoolSpec PoolSystem PoolSystemSpec PoolLoadSpec EconomySpec Economy Exhibit PathProps RequestProps ClientProps PoolProps PoolSystemProps.
Open Scope nat_scope.

(** In every execution, on any network: if no more than [k a] calls to each address [a] ever go on at the same time, and the pool
    has room for that many connections to all the addresses, then no more than [k a] connections are ever opened to [a], but for
    one for each call to [a] that did not succeed. *)
Theorem C98_economy (F : floatlib) (U : urlenv) tmax checks size (al : list saddr) (k : saddr -> nat) d ls s tr :
  NoDup al -> no_aliases al -> (N.of_nat (total k al) <= size)%N -> (N.of_nat (length ls) <= 2 ^ 64 - 1)%N -> Forall (goes_to al) ls ->
  prun tmax checks ls (psys_new size d) = (s, tr) ->
  (forall m a, how_many (going_to a) (fst (prun tmax checks (firstn m ls) (psys_new size d))) <= k a) ->
  forall a, openings_to a tr <= k a + how_many (lost_to a) s.
Proof. exact (fun A B C D E G H => economy tmax checks size al k A B C d ls s tr G D E H). Qed.
Print Assumptions C98_economy.

(** Calls made one after the other to each address, in a pool with room for a connection to each, that all succeed or still go
    on: one connection to each address is enough for all of them. *)
Theorem C98_one_connection (F : floatlib) (U : urlenv) tmax checks size (al : list saddr) d ls s tr :
  NoDup al -> no_aliases al -> (N.of_nat (length al) <= size)%N -> (N.of_nat (length ls) <= 2 ^ 64 - 1)%N -> Forall (goes_to al) ls ->
  prun tmax checks ls (psys_new size d) = (s, tr) ->
  (forall m a, how_many (going_to a) (fst (prun tmax checks (firstn m ls) (psys_new size d))) <= 1) ->
  forall a, how_many (lost_to a) s = 0 -> openings_to a tr <= 1.
Proof. exact (fun A B C D E G H a L => one_connection tmax checks size al A B C d ls s tr G D E H a L). Qed.
Print Assumptions C98_one_connection.

(** The room is needed: calls one at a time, all successful, to two addresses in turn through a pool of size 1 open a new
    connection each. *)
Definition in_turn (al : list saddr) : list plabel := flat_map (fun x => [LCall (snd x) (ex_proc MPost) (ex_req, [1; 2]%N); LPool 1 (Ready tt); LPoll (fst x) quick; LPool 2 Never]) (combine (seq 0 (length al)) al).
Theorem C98_without_room_refuted : exists (F : floatlib) (U : urlenv) tmax checks size (al : list saddr) d ls s tr a,
  NoDup al /\ no_aliases al /\ length ls = 24 /\ Forall (goes_to al) ls /\ prun tmax checks ls (psys_new size d) = (s, tr) /\
  (forall m a, how_many (going_to a) (fst (prun tmax checks (firstn m ls) (psys_new size d))) <= 1) /\
  how_many (lost_to a) s = 0 /\ size = 1%N /\ openings_to a tr = 3.
Proof.
  exists ex_float, ex_url, 100%Z, true, 1%N, [ex_a; ex_b], 10%Z, (in_turn [ex_a; ex_b; ex_a; ex_b; ex_a; ex_b]).
  destruct (prun 100 true (in_turn [ex_a; ex_b; ex_a; ex_b; ex_a; ex_b]) (psys_new 1 10)) as [s tr] eqn:E. exists s, tr, ex_a.
  split; [repeat constructor; cbn; intuition discriminate|]. split; [intros a b Ia Ib; cbn in Ia, Ib; destruct Ia as [<-|[<-|[]]], Ib as [<-|[<-|[]]]; (reflexivity || discriminate)|]. split; [reflexivity|].
  split; [cbn; repeat (constructor; [cbn; tauto|]); constructor|]. split; [reflexivity|]. split; [apply at_most; vm_compute; reflexivity|].
  vm_compute in E. injection E as <- <-. vm_compute. auto.
Qed.
Print Assumptions C98_without_room_refuted.

(** So is that no two addresses share IP and port: with an older idle connection to the alias, each call opens a new connection. *)
Theorem C98_with_aliases_refuted : exists (F : floatlib) (U : urlenv) tmax checks size (al : list saddr) d ls s tr a,
  NoDup al /\ (N.of_nat (length al) <= size)%N /\ length ls = 16 /\ Forall (goes_to al) ls /\ prun tmax checks ls (psys_new size d) = (s, tr) /\
  (forall m a, how_many (going_to a) (fst (prun tmax checks (firstn m ls) (psys_new size d))) <= 1) /\
  how_many (lost_to a) s = 0 /\ openings_to a tr = 3.
Proof.
  exists ex_float, ex_url, 100%Z, true, 9%N, [ex_6; ex_6'], 10%Z, (in_turn [ex_6; ex_6'; ex_6'; ex_6']).
  destruct (prun 100 true (in_turn [ex_6; ex_6'; ex_6'; ex_6']) (psys_new 9 10)) as [s tr] eqn:E. exists s, tr, ex_6'.
  split; [repeat constructor; cbn; intuition discriminate|]. split; [discriminate|]. split; [reflexivity|].
  split; [cbn; repeat (constructor; [cbn; tauto|]); constructor|]. split; [reflexivity|]. split; [apply at_most; vm_compute; reflexivity|].
  vm_compute in E. injection E as <- <-. vm_compute. auto.
Qed.
Print Assumptions C98_with_aliases_refuted.

(** ** Cases: six calls to two addresses with room for both; eight calls, two at a time, with the releases taken
    late and one call dropped while it has a connection: two connections, and one for the call that was dropped. *)
Definition ex_pairs : list plabel := let c := ex_call ex_a in
  [c; c; LPool 1 (Ready tt); LPoll 0 quick; LPool 2 (Ready tt); c; LPoll 1 ex_wire; LPool 3 Never; LPool 4 Never; LPoll 2 quick; LDrop 1; c; c; LPool 5 Never; LPool 6 Never; LPool 7 (Later (Ready tt)); LPoll 3 quick;
   LPoll 4 quick; c; LPoll 4 quick; LPool 8 Never; LPool 9 Never; LPoll 5 quick; c; c; LPool 10 Never; LPool 10 Never; LPool 11 (Failed FromIo); LPool 12 (Failed FromIo); LPoll 6 quick; LPoll 7 quick]%Z.
Example C98_case : let U := ex_url in let F := ex_float in
  (let ls := in_turn [ex_a; ex_b; ex_a; ex_b; ex_a; ex_b] in let '(s, tr) := prun 100 true ls (psys_new 2 10) in
   openings_to ex_a tr = 1 /\ openings_to ex_b tr = 1 /\ how_many over s = 6 /\ how_many (lost_to ex_a) s = 0) /\
  (forall m a, how_many (going_to a) (fst (prun 100 true (firstn m (in_turn [ex_a; ex_b; ex_a; ex_b; ex_a; ex_b])) (psys_new 2 10))) <= 1) /\
  (let '(s, tr) := prun 100 true ex_pairs (psys_new 2 10) in openings_to ex_a tr = 3 /\ how_many (lost_to ex_a) s = 1 /\ length (s_calls s) = 8) /\
  (forall m a, how_many (going_to a) (fst (prun 100 true (firstn m ex_pairs) (psys_new 2 10))) <= 2) /\ Forall (goes_to [ex_a]) ex_pairs /\
  no_aliases [ex_a; ex_b] /\ NoDup [ex_a; ex_b] /\ total (fun _ => 2) [ex_a] = 2.
Proof.
  intros U F. split; [vm_compute; auto|]. split; [apply at_most; vm_compute; reflexivity|]. split; [vm_compute; auto|]. split; [apply at_most; vm_compute; reflexivity|].
  split; [cbn; repeat (constructor; [cbn; tauto|]); constructor|]. split; [intros a b Ia Ib; cbn in Ia, Ib; destruct Ia as [<-|[<-|[]]], Ib as [<-|[<-|[]]]; (reflexivity || discriminate)|].
  split; [repeat constructor; cbn; intuition discriminate | reflexivity].
Qed.
