(** * Properties C41, C42: calls and errors. *)
From Verif Require Import Base Decimal Serde Procedure Router SerRequest DeHeader DeResponse DepUrl Error Client ClientSpec HeaderProofs ClientProofs Exhibit PathProps RequestProps.
Open Scope N_scope.

(** ** C41 *)
(** However often a call is polled, its actions are a first part of those of the sequential program, and all of them with
    the same result when it is over. *)
Theorem C41_steps_in_order (F : floatlib) (U : urlenv) (Conn : Type) (w : wire Conn) (p : proc) v body connect n :
  let '(t, o) := drive w p n (call_new (v, body) connect) in
  match o with
  | Ok (Pending _) => exists t', fst (sequential w p v body connect) = t ++ t'
  | _ => t = fst (sequential w p v body connect) /\ reads_as o = snd (sequential w p v body connect)
  end.
Proof. exact (call_steps w p v body connect n). Qed.
Print Assumptions C41_steps_in_order.

(** Nothing is written before the connection is there, the request is written once, to that connection, nothing is read
    before it is written, and a body only after the head and never for HEAD. *)
Theorem C41_actions (F : floatlib) (U : urlenv) (Conn : Type) (w : wire Conn) (p : proc) v b connect :
  let t := fst (sequential w p v b connect) in
  t = [] \/
  exists c r, settle connect = Comes c /\ encode_request (pr_entry p) v (N.of_nat (length b)) = Ok r /\
    (t = [Write r b c] \/
     exists c1, settle (w_write w r b c) = Comes c1 /\
       (t = [Write r b c; ReadHead c1] \/
        exists h, settle (w_head w c1) = Comes h /\ pr_method p <> MHead /\ t = [Write r b c; ReadHead c1; ReadBody h])).
Proof. exact (seq_trace w p v b connect). Qed.
Print Assumptions C41_actions.

(** A response is yielded only after all the steps, and is what was decoded; its body is empty for HEAD. *)
Theorem C41_yield (F : floatlib) (U : urlenv) (Conn : Type) (w : wire Conn) (p : proc) v b connect x y c0 :
  snd (sequential w p v b connect) = Yields x y c0 ->
  exists c r c1 h h', settle connect = Comes c /\ encode_request (pr_entry p) v (N.of_nat (length b)) = Ok r /\
    settle (w_write w r b c) = Comes c1 /\ settle (w_head w c1) = Comes h /\
    (if is_head p then h' = h /\ y = [] else settle (w_body w h) = Comes (h', y)) /\
    de_response (r_code h') (r_headers h') (pr_resp p) = Ok x /\ c0 = r_conn h' /\
    fst (sequential w p v b connect) = [Write r b c; ReadHead c1] ++ (if is_head p then [] else [ReadBody h]).
Proof. exact (seq_yields w p v b connect x y c0). Qed.
Print Assumptions C41_yield.

(** If every step comes to something, finitely many polls finish the call; otherwise none do. *)
Theorem C41_finishes (F : floatlib) (U : urlenv) (Conn : Type) (w : wire Conn) (p : proc) v b connect :
  (snd (sequential w p v b connect) <> Waits ->
   exists n0, forall n, (n0 <= n)%nat -> over (snd (drive w p n (call_new (v, b) connect)))) /\
  (snd (sequential w p v b connect) = Waits -> forall n, ~ over (snd (drive w p n (call_new (v, b) connect)))).
Proof. exact (conj (call_finishes w p v b connect) (fun S n => call_waits w p v b connect n S)). Qed.
Print Assumptions C41_finishes.

(** Panics are those of writing the request (C11), once there is a connection. *)
Theorem C41_panics_iff (F : floatlib) (U : urlenv) (Conn : Type) (w : wire Conn) (p : proc) v b connect :
  (forall c h, settle (w_head w c) = Comes h -> names_ok (r_headers h) = true) ->
  (forall c h h' x, settle (w_head w c) = Comes h -> settle (w_body w h) = Comes (h', x) -> names_ok (r_headers h') = true) ->
  (snd (sequential w p v b connect) = Panics <->
   (exists c, settle connect = Comes c) /\ encode_request (pr_entry p) v (N.of_nat (length b)) = Panic).
Proof. exact (seq_panics w p v b connect). Qed.
Print Assumptions C41_panics_iff.

(** The same of the polls: the loop in [poll] always ends, and a poll panics when the request is to be written and cannot be. *)
Theorem C41_polls_end (F : floatlib) (U : urlenv) (Conn : Type) (w : wire Conn) (p : proc) v b connect n :
  (forall c h, settle (w_head w c) = Comes h -> names_ok (r_headers h) = true) ->
  (forall c h h' x, settle (w_head w c) = Comes h -> settle (w_body w h) = Comes (h', x) -> names_ok (r_headers h') = true) ->
  let o := snd (drive w p n (call_new (v, b) connect)) in
  o <> Diverge /\ (o = Panic -> encode_request (pr_entry p) v (N.of_nat (length b)) = Panic) /\
  (forall c, settle connect = Comes c -> encode_request (pr_entry p) v (N.of_nat (length b)) = Panic -> over o -> o = Panic).
Proof.
  intros Nh Nb. cbv zeta. destruct (call_panics w p Nh Nb v b connect n) as [A B]. split; [exact A|]. split; [exact B|].
  intros c. exact (call_panics_then w p Nh Nb v b connect n c).
Qed.
Print Assumptions C41_polls_end.

(** A call with delays everywhere: seven polls, three actions, and the decoded response. *)
Definition ex_wire : wire nat := {|
  w_write := fun r b c => Later (Later (Ready c));
  w_head := fun c => Later (Ready (mkResponse 200 [(u "X-Id", u "17")] c));
  w_body := fun r => Later (Later (Ready (r, [104; 105])))
|}.
Definition ex_proc (m : method) : proc := {| pr_method := m; pr_entry := ex_ep;
  pr_resp := TStruct (u "R") [(u "status", TInt U16); (u "header", TStruct (u "H") [(u "x-id", TInt U8)])] |}.
Definition ex_response : value := SStruct (u "R") [(u "status", SInt U16 200%Z); (u "header", SStruct (u "H") [(u "x-id", SInt U8 17%Z)])].
Example C41_case : let U := ex_url in let F := ex_float in
  (exists r, drive ex_wire (ex_proc MPost) 7 (call_new (ex_req, [1; 2]) (Later (Ready 5%nat))) =
     ([Write r [1; 2] 5%nat; ReadHead 5%nat; ReadBody (mkResponse 200 [(u "X-Id", u "17")] 5%nat)], Ok (Done ex_response [104; 105] 5%nat))) /\
  (exists k, snd (drive ex_wire (ex_proc MPost) 6 (call_new (ex_req, [1; 2]) (Later (Ready 5%nat)))) = Ok (Pending k)) /\
  (exists r, drive ex_wire (ex_proc MHead) 5 (call_new (ex_req, [1; 2]) (Later (Ready 5%nat))) =
     ([Write r [1; 2] 5%nat; ReadHead 5%nat], Ok (Done ex_response [] 5%nat))) /\
  snd (sequential ex_wire (ex_proc MPost) ex_req [] (Failed FromIo)) = Fails Other /\
  snd (sequential ex_wire (ex_proc MPost) ex_req [] Never) = Waits /\
  snd (sequential ex_wire (ex_proc MPost) (SStruct (u "R") []) [] (Ready 5%nat)) = Panics /\
  snd (drive ex_wire (ex_proc MPost) 2 (call_new (SStruct (u "R") [], []) (Later (Ready 5%nat)))) = Panic /\
  (forall c h, settle (w_head ex_wire c) = Comes h -> names_ok (r_headers h) = true) /\
  (forall c h h' x, settle (w_head ex_wire c) = Comes h -> settle (w_body ex_wire h) = Comes (h', x) -> names_ok (r_headers h') = true).
Proof.
  cbv zeta. split; [eexists; vm_compute; reflexivity|]. split; [eexists; vm_compute; reflexivity|]. split; [eexists; vm_compute; reflexivity|].
  split; [reflexivity|]. split; [reflexivity|]. split; [vm_compute; reflexivity|]. split; [vm_compute; reflexivity|].
  split; [intros c h [= <-]; reflexivity | intros c h h' x [= <-] [= <- _]; reflexivity].
Qed.

(** ** C42 *)
Theorem C42_kind_by_origin s : error_of s = Invalid <-> malformed (origin s).
Proof. exact (kind_by_origin s). Qed.
Print Assumptions C42_kind_by_origin.

Theorem C42_wrapping_preserves s t : origin s = origin t -> error_of s = error_of t.
Proof. exact (same_origin s t). Qed.
Print Assumptions C42_wrapping_preserves.

(** I/O, HTTP, channels and timeouts. *)
Theorem C42_other s : In (origin s) [FromIo; FromIoWith; FromMiasht; FromRecv; FromNone; FromSerdeconv Other] -> error_of s = Other.
Proof. exact (other_by_origin s). Qed.
Print Assumptions C42_other.

Example C42_case :
  error_of (FromPhase IxC (FromSome (FromPhase IxA FromUtf8))) = Invalid /\ origin (FromPhase IxC (FromSome (FromPhase IxA FromUtf8))) = FromUtf8 /\
  error_of (FromPhase IxB FromNone) = Other /\ origin (FromPhase IxB FromNone) = FromNone.
Proof. repeat split; reflexivity. Qed.
