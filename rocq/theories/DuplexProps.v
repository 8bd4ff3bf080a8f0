(** * Property C75: a client and a server joined by two byte pipes of bounded size, each having its turn in any order. *)
From Verif Require Import Base Utf8 Decimal DepUrl Serde Procedure FieldSpec Status SerHeader SerRequest SerResponse DeHeader DeRequest DeResponse Router RouterSpec DepHttp
  Error Client ClientSpec Server ServerSpec EndToEndSpec SessionSpec HttpBytes HttpBytesSpec PoolBytesSpec Duplex DuplexSpec DuplexProofs ResponseTrip
  Exhibit PathProps FieldProps RequestProps ResponseProps ProblemProps EndToEndProps SessionProps HttpBytesProps PoolBytesProps HttpBytesLeftProps.
Open Scope N_scope.

(** Whatever the order of turns and however few bytes go through in each, the answers that have come are the first of the
    right ones, and neither end fails. *)
Theorem C75_answers (F : floatlib) (U : urlenv) (R : Type) (explain : request bconn -> ekind -> ustr * option ustr * option (list ustr)) (reason : status -> ustr)
  (trims : bool) (uri_byte : N -> bool) (cl sl : limits) (ps : list (hproc bconn R)) (cap_up cap_down : nat) es os ls :
  (forall hp, In hp ps -> waits_for_body hp) -> (0 < most_bytes sl)%nat -> Forall2 (exchanged explain reason trims uri_byte cl sl ps) es os ->
  let s := drun explain reason trims uri_byte cl sl ps cap_up cap_down ls (duplex_new es) in
  (exists rest, os = d_got s ++ rest) /\ d_client s <> CStops /\ d_server s <> SStops.
Proof. exact (fun W M X => all_goes explain reason trims uri_byte cl sl ps cap_up cap_down es os W M X ls). Qed.
Print Assumptions C75_answers.

(** No more bytes are on the way than there is room for, and only one way at a time. *)
Theorem C75_pipes (F : floatlib) (U : urlenv) (R : Type) (explain : request bconn -> ekind -> ustr * option ustr * option (list ustr)) (reason : status -> ustr)
  (trims : bool) (uri_byte : N -> bool) (cl sl : limits) (ps : list (hproc bconn R)) (cap_up cap_down : nat) es os ls :
  (forall hp, In hp ps -> waits_for_body hp) -> (0 < most_bytes sl)%nat -> Forall2 (exchanged explain reason trims uri_byte cl sl ps) es os ->
  let s := drun explain reason trims uri_byte cl sl ps cap_up cap_down ls (duplex_new es) in
  (length (d_up s) <= cap_up)%nat /\ (length (d_down s) <= cap_down)%nat /\ (d_up s = [] \/ d_down s = []).
Proof. exact (fun W M X => all_bounds explain reason trims uri_byte cl sl ps cap_up cap_down es os W M X ls). Qed.
Print Assumptions C75_pipes.

(** The two never wait for each other: if a turn of one byte of either end and a turn of the handler change nothing, then
    every answer has come. *)
Theorem C75_no_deadlock (F : floatlib) (U : urlenv) (R : Type) (explain : request bconn -> ekind -> ustr * option ustr * option (list ustr)) (reason : status -> ustr)
  (trims : bool) (uri_byte : N -> bool) (cl sl : limits) (ps : list (hproc bconn R)) (cap_up cap_down : nat) es os ls :
  (forall hp, In hp ps -> waits_for_body hp) -> (0 < most_bytes sl)%nat -> Forall2 (exchanged explain reason trims uri_byte cl sl ps) es os ->
  (0 < cap_up)%nat -> (0 < cap_down)%nat ->
  let s := drun explain reason trims uri_byte cl sl ps cap_up cap_down ls (duplex_new es) in
  (forall l, In l [LClient 1; LServer 1; LHandler] -> dstep explain reason trims uri_byte cl sl ps cap_up cap_down l s = s) -> d_got s = os.
Proof. exact (fun W M X A B => all_unstuck explain reason trims uri_byte cl sl ps cap_up cap_down es os W M X A B ls). Qed.
Print Assumptions C75_no_deadlock.

(** From whatever they have come to, if each end and the handler go on having turns, every answer comes in the end, and
    nothing is left on the way. *)
Theorem C75_all_answered (F : floatlib) (U : urlenv) (R : Type) (explain : request bconn -> ekind -> ustr * option ustr * option (list ustr)) (reason : status -> ustr)
  (trims : bool) (uri_byte : N -> bool) (cl sl : limits) (ps : list (hproc bconn R)) (cap_up cap_down : nat) es os ls sched :
  (forall hp, In hp ps -> waits_for_body hp) -> (0 < most_bytes sl)%nat -> Forall2 (exchanged explain reason trims uri_byte cl sl ps) es os ->
  (0 < cap_up)%nat -> (0 < cap_down)%nat ->
  always_again client_moves sched -> always_again server_moves sched -> always_again handler_moves sched ->
  exists n0, forall n, (n0 <= n)%nat ->
    drun explain reason trims uri_byte cl sl ps cap_up cap_down (turns sched n) (drun explain reason trims uri_byte cl sl ps cap_up cap_down ls (duplex_new es)) = mkDuplex [] CIdle os (SHeads []) [] [].
Proof. exact (fun W M X A B => all_end explain reason trims uri_byte cl sl ps cap_up cap_down es os W M X A B ls sched). Qed.
Print Assumptions C75_all_answered.

(** A handler that begins by reading the whole body is one that waits for it. *)
Theorem C75_readers_wait (R : Type) (f : value -> request bconn -> bytes * bconn -> fut (request bconn * R)) (hp : hproc bconn R) :
  (forall v q, hp_body hp v q = fbind (read_body (q_conn q)) (f v q)) -> waits_for_body hp.
Proof. exact (reads_first f hp). Qed.
Print Assumptions C75_readers_wait.

(** But if a handler answers without waiting for the body, and neither the rest of the request nor the answer has room on the
    way, then the two wait for each other: no order of turns brings an answer. *)
Theorem C75_deadlock (F : floatlib) (U : urlenv) (R : Type) (explain : request bconn -> ekind -> ustr * option ustr * option (list ustr)) (reason : status -> ustr)
  (trims : bool) (uri_byte : N -> bool) (cl sl : limits) (ps : list (hproc bconn R)) (cap_up cap_down : nat) e es head out :
  answered_at_once explain reason trims uri_byte sl ps e head out ->
  (most_bytes sl + cap_up < length (head ++ e_body e))%nat -> (cap_down < length out)%nat ->
  forall ls, d_got (drun explain reason trims uri_byte cl sl ps cap_up cap_down ls (duplex_new (e :: es))) = [].
Proof. exact (stuck_run explain reason trims uri_byte cl sl ps cap_up cap_down e es head out). Qed.
Print Assumptions C75_deadlock.

(** ** A case: five calls, through pipes of 5 and of 3 bytes *)
Definition ex_turns (n : nat) : dlabel := match (n mod 3)%nat with 0%nat => LClient 7 | 1%nat => LServer 4 | _ => LHandler end.
Definition ex_duplex (es : list errand) (n : nat) : duplex := let F := ex_float in let U := ex_url in
  drun ex_explainb ex_reason true ex_uri ex_climits server_limits ex_psb 5 3 (turns ex_turns n) (duplex_new es).
Example C75_case : let F := ex_float in let U := ex_url in
  (forall hp, In hp ex_psb -> waits_for_body hp) /\ (0 < most_bytes server_limits)%nat /\
  Forall2 (exchanged ex_explainb ex_reason true ex_uri ex_climits server_limits ex_psb) [ex_errand MPost [1; 2; 3]; ex_errand MHead [4]] [ex_ok [3; 2; 1]; ex_ok []] /\
  always_again client_moves ex_turns /\ always_again server_moves ex_turns /\ always_again handler_moves ex_turns /\
  ex_duplex [ex_errand MPost [1; 2; 3]; ex_errand MHead [4]] 600 = mkDuplex [] CIdle [ex_ok [3; 2; 1]; ex_ok []] (SHeads []) [] [] /\
  map (fun o => match fst o with SStructVariant _ x _ | SNewtypeVariant _ x _ => (x, length (snd o)) | _ => ([], O) end) (d_got (ex_duplex ex_errands (N.to_nat 1500))) =
    [(u "Ok", 3%nat); (u "MethodNotAllowed", 60%nat); (u "BadRequest", 187%nat); (u "Ok", 0%nat); (u "Ok", 2%nat)].
Proof.
  pose proof C70_case_handled as S. cbv zeta in *.
  split; [intros hp [<-|[<-|[<-|[]]]]; apply (C75_readers_wait _ (fun v q '(b, c) => Ready (ex_take c q, (v, b)))); reflexivity|].
  split; [vm_compute; lia|].
  split; [constructor; [apply C70_handled; exact ((S _ (or_intror (or_introl eq_refl)) [1; 2; 3] eq_refl)) | constructor; [apply C70_handled; exact ((S _ (or_introl eq_refl) [4] eq_refl)) | constructor]]|].
  assert (Md : forall n r, (r < 3 -> (n * 3 + r) mod 3 = r)%nat) by (intros n r L; rewrite Nat.add_comm, Nat.mod_add by lia; apply Nat.mod_small; exact L).
  split; [intros n; exists (n * 3 + 0)%nat; split; [lia|]; exists 7%nat; unfold ex_turns; rewrite Md by lia; split; [lia | reflexivity]|].
  split; [intros n; exists (n * 3 + 1)%nat; split; [lia|]; exists 4%nat; unfold ex_turns; rewrite Md by lia; split; [lia | reflexivity]|].
  split; [intros n; exists (n * 3 + 2)%nat; split; [lia|]; unfold ex_turns; rewrite Md by lia; reflexivity|].
  split; vm_compute; reflexivity.
Qed.
(** A body of 9000 bytes that the handler does not wait for, through pipes of 200 and of 50 bytes. *)
Definition ex_long : errand := ex_errand MPost (repeat 0 (N.to_nat 9000)).
Definition ex_long_head : bytes := match ex_asked1 ex_long with [x] => request_head (a_method x) (a_request x) | _ => [] end.
Definition ex_long_out : bytes := let F := ex_float in match encode_response (SStructVariant (u "Res") (u "Ok") (head_val ex_head)) 1 with
  | Ok h => replying_bytes ex_reason (h, Some [7]) | _ => [] end.
Example C75_deadlock_case : let F := ex_float in let U := ex_url in
  answered_at_once ex_explainb ex_reason true ex_uri server_limits ex_psl ex_long ex_long_head ex_long_out /\
  (most_bytes server_limits + 200 < length (ex_long_head ++ e_body ex_long))%nat /\ (50 < length ex_long_out)%nat.
Proof.
  cbv zeta. split; [|split; apply Nat.ltb_lt; vm_compute; reflexivity].
  assert (E : exists r, ex_asked1 ex_long = [mkAsking MPost r (e_body ex_long)]) by (eexists; vm_compute; reflexivity).
  destruct E as (r & E).
  assert (Er : @encode_request ex_url ex_float (pr_entry (e_proc ex_long)) (e_value ex_long) (N.of_nat (length (e_body ex_long))) = Ok r).
  { unfold ex_asked1 in E. destruct (encode_request _ _ _) as [r'| | |]; try discriminate E. congruence. }
  exists r. split; [exact Er|]. split; [unfold ex_long_head; rewrite E; reflexivity|].
  split; [apply (fit_checkedq (mkAsking MPost r (e_body ex_long))); assert (Z : forallb fit_checkq (ex_asked1 ex_long) = true) by (vm_compute; reflexivity); rewrite E in Z; cbn [forallb] in Z; apply andb_true_iff in Z; exact (proj1 Z)|].
  vm_compute in Er. apply (f_equal (fun x => match x with Ok r => r | _ => r end)) in Er. rewrite <- Er.
  intros [m t hs c] Em Et Eh. cbn [q_method q_target q_headers rb_target rb_headers] in Em, Et, Eh. subst t hs. assert (m = MPost) as -> by exact Em. clear Em. do 3 eexists. vm_compute. split; reflexivity.
Qed.
