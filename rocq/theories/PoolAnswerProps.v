(** * Property C62: every finished call through a pool has the answer to its own request. *)
From Verif Require Import Base Utf8 Decimal DepUrl Serde Procedure FieldSpec Status SerHeader SerRequest SerResponse DeHeader DeRequest DeResponse Router RouterSpec DepHttp
  Error Client ClientSpec Server ServerSpec EndToEndSpec SessionSpec SessionProofs Pool PoolSystem PoolSystemSpec PoolAnswerSpec PoolAnswer
  Exhibit PathProps FieldProps RequestProps ResponseProps ProblemProps EndToEndProps SessionProps PoolProps.
Open Scope N_scope.

(** Whatever the schedule, whichever calls share a connection, whatever fails: if the servers read the requests of a
    connection in the order in which they were written on it, and the responses read on it are those the server wrote, in
    order, then a call that finished has what the server at its own address replies to its own request. *)
Theorem C62_own_answer (F : floatlib) (U : urlenv) (W : httpenv) (SConn R : Type)
  (explain : request SConn -> ekind -> ustr * option ustr * option (list ustr)) (reason : status -> ustr) (ln : link SConn)
  (ps : saddr -> list (hproc SConn R)) (near : conn -> SConn) (queue : SConn -> list asking) (content : SConn -> bytes)
  tmax checks ls size d s tr i pc v b :
  prun tmax checks ls (psys_new size d) = (s, tr) -> Forall honest_label ls -> told_apart checks s tr ->
  reading ln ps queue content -> (forall c, agrees (queue (near c)) (asked_on s c tr)) ->
  orderly explain reason ln ps near (fun c a => In (EOpen c a) tr) [] (plog tmax checks ls (psys_new size d)) ->
  nth_error (s_calls s) i = Some pc -> c_state pc = Finished v b -> own_answer explain reason ln ps content pc v b.
Proof. exact (own_answers explain reason ln ps near queue content tmax checks ls size d s tr i pc v b). Qed.
Print Assumptions C62_own_answer.

(** In particular a call of which C50 and C52 say what it comes to, comes to that. *)
Theorem C62_as_meant (F : floatlib) (U : urlenv) (W : httpenv) (SConn R : Type)
  (explain : request SConn -> ekind -> ustr * option ustr * option (list ustr)) (reason : status -> ustr) (ln : link SConn)
  (ps : saddr -> list (hproc SConn R)) (near : conn -> SConn) (queue : SConn -> list asking) (content : SConn -> bytes)
  tmax checks ls size d s tr i pc v b o :
  prun tmax checks ls (psys_new size d) = (s, tr) -> Forall honest_label ls -> told_apart checks s tr ->
  reading ln ps queue content -> (forall c, agrees (queue (near c)) (asked_on s c tr)) ->
  orderly explain reason ln ps near (fun c a => In (EOpen c a) tr) [] (plog tmax checks ls (psys_new size d)) ->
  nth_error (s_calls s) i = Some pc -> c_state pc = Finished v b ->
  SessionSpec.served (ps (c_addr pc)) queue content (mkErrand (c_proc pc) (fst (c_req pc)) (snd (c_req pc))) o -> (v, b) = o.
Proof.
  intros Er Fh Sm Rd Ag Or En Es Se. exact (own_is_meant explain reason ln ps queue content pc v b o
    (own_answers explain reason ln ps near queue content tmax checks ls size d s tr i pc v b Er Fh Sm Rd Ag Or En Es) (served_meant explain reason ln (ps (c_addr pc)) queue content _ _ Se)).
Qed.
Print Assumptions C62_as_meant.

(** ** A case: five calls to two servers, two of them open at the same time, over two connections that are used again. *)
Definition ex_ps4 := [ex_hproc3 MDelete ex_bool_ty; ex_hproc3 MHead ex_req_ty].
Definition ex_servers (a : saddr) := if saddr_eqb a ex_a then ex_ps3 else ex_ps4.
Definition ex_to (c : conn) : saddr := match c with O => ex_a | _ => ex_b end.
(** The errands of the calls made to either, in order. *)
Definition ex_asking (e : errand) : list asking := let F := ex_float in let U := ex_url in
  match encode_request (pr_entry (e_proc e)) (e_value e) (N.of_nat (length (e_body e))) with Ok r => [mkAsking (pr_method (e_proc e)) r (e_body e)] | _ => [] end.
Definition ex_near (c : conn) : sconn :=
  mkSconn match c with
          | O => flat_map ex_asking [ex_errand MPost [1; 2; 3]; ex_errand MPut []; ex_errand MPost [5; 6; 7]]
          | S O => flat_map ex_asking [ex_errand MDelete [9]; ex_errand MHead [4]]
          | _ => [] end [].
Notation ex_replies c := (@replies_on ex_float ex_url sconn (value * bytes) ex_explain3 ex_reason (@script_link ex_http) ex_servers ex_near (ex_to c) c 40).
(** A network for the call that is the [k]th to use its connection. *)
Definition ex_net (slow : bool) (k : nat) : wire conn := let W := ex_http in {|
  w_write := fun _ _ c => if slow then Later (Ready c) else Ready c;
  w_head := fun c => match nth_error (ex_replies c) k with
    | Some (h, _) => Later (Ready (mkResponse (code_of (pb_status h)) (arrived (pb_headers h)) c))
    | None => Failed FromIo end;
  w_body := fun x => match nth_error (ex_replies (r_conn x)) k with Some (_, Some b) => if slow then Later (Ready (x, b)) else Ready (x, b) | _ => Failed FromIo end
|}.
Definition ex_do (a : saddr) (e : errand) : plabel * nat := (LCall a (e_proc e) (e_value e, e_body e), O).
Definition ex_pool (now : Z) : plabel * nat := (LPool now (Ready tt), O).
Definition ex_at (i : nat) (slow : bool) (k : nat) : plabel * nat := (LPoll i (ex_net slow k), k).
Definition ex_turns4 : list (plabel * nat) :=
  [ex_do ex_a (ex_errand MPost [1; 2; 3]); ex_do ex_b (ex_errand MDelete [9]); ex_pool 1; ex_pool 2;
   ex_at 0 true 0; ex_at 1 false 0; ex_at 0 true 0; ex_at 1 true 0; ex_at 0 true 0; ex_at 1 true 0; ex_pool 3; ex_at 0 true 0; ex_pool 3;
   ex_do ex_b (ex_errand MHead [4]); ex_do ex_a (ex_errand MPut []); ex_pool 4; ex_pool 5; ex_at 3 false 1; ex_at 2 true 1; ex_at 3 false 1; ex_at 2 false 1; ex_pool 6;
   ex_do ex_a (ex_errand MPost [5; 6; 7]); ex_pool 7; ex_at 2 false 1; ex_at 4 false 2; ex_at 4 false 2].
Definition ex_ends4 (s : psys) := map (fun pc => match c_state pc with
    | Finished (SStructVariant _ x _) b | Finished (SNewtypeVariant _ x _) b => Some (x, length b) | _ => None end) (s_calls s).
(** Checking the order of a run by computing. *)
Definition act_check (k : nat) (before : list pevent) (a : act conn) : bool :=
  match a with Write _ _ _ => true | ReadHead c => Nat.eqb (heads c before) k | ReadBody x => Nat.eqb (pred (heads (r_conn x) before)) k end.
Fixpoint acts_check (k : nat) (before t : list pevent) : bool :=
  match t with [] => true | e :: t => match e with EAct _ a => act_check k before a | _ => true end && acts_check k (before ++ [e]) t end.
Fixpoint run_check (ls : list (plabel * nat)) (before : list pevent) (s : psys) : bool := let F := ex_float in let U := ex_url in
  match ls with
  | [] => true
  | (l, k) :: ls => match pstep 100 true l s with Some (s, t) => acts_check k before t && run_check ls (before ++ t) s | None => run_check ls before s end
  end.
Definition ex_wired (l : plabel * nat) : Prop := match fst l with LPoll _ w => exists slow, w = ex_net slow (snd l) | _ => True end.
Lemma acts_checked (opened : conn -> saddr -> Prop) slow k t : (forall c a, opened c a -> ex_servers a = ex_servers (ex_to c)) -> forall before, acts_check k before t = true ->
  let F := ex_float in let U := ex_url in let W := ex_http in acts_ok ex_explain3 ex_reason script_link ex_servers ex_near opened (ex_net slow k) before t.
Proof.
  intros Ho. cbv zeta. induction t as [|e t IH]; intros before; [intros _; exact I|]. cbn [acts_check]. rewrite andb_true_iff. intros [E1 E2]. split; [|apply IH, E2].
  destruct e as [c a|i a|i a c|i a]; try exact I. destruct a as [r b c|c|x]; cbn [act_check] in E1; try apply Nat.eqb_eq in E1.
  - exact I.
  - intros x a. cbn [ex_net w_head]. destruct (nth_error (ex_replies c) k) as [[h b]|] eqn:En; [|discriminate]. intros [= <-] Op. exists h, b. split.
    + exists 40%nat. rewrite (replies_ext ex_explain3 ex_reason script_link ex_servers ex_near _ _ c 40 (Ho c a Op)), E1. exact En.
    + split; [reflexivity|]. intros hs E. cbn [r_headers]. unfold arrived. rewrite E. reflexivity.
  - intros x' b. cbn [ex_net w_body]. destruct (nth_error (ex_replies (r_conn x)) k) as [[h [b0|]]|] eqn:En; try discriminate.
    intros E. assert (Q : x' = x /\ b = b0) by (destruct slow; injection E as -> ->; auto). destruct Q as [-> ->]. split; [reflexivity|]. split; [reflexivity|].
    intros a Op. exists h, 40%nat. rewrite (replies_ext ex_explain3 ex_reason script_link ex_servers ex_near _ _ _ 40 (Ho _ a Op)), E1. exact En.
Qed.
Lemma run_checked (opened : conn -> saddr -> Prop) ls : (forall c a, opened c a -> ex_servers a = ex_servers (ex_to c)) -> Forall ex_wired ls -> forall before s, run_check ls before s = true ->
  let F := ex_float in let U := ex_url in let W := ex_http in orderly ex_explain3 ex_reason script_link ex_servers ex_near opened before (plog 100 true (map fst ls) s).
Proof.
  intros Ho. cbv zeta. induction 1 as [|[l k] ls Hl Fl IH]; intros before s; [intros _; exact I|]. cbn [run_check map fst plog]. destruct (pstep 100 true l s) as [[s1 t]|]; [|apply IH].
  rewrite andb_true_iff. intros [E1 E2]. split; [|apply IH, E2]. destruct l; try exact I. destruct Hl as [slow Hw]. cbn [snd] in Hw. rewrite Hw. exact (acts_checked opened slow k t Ho before E1).
Qed.
Lemma ex_net_honest slow k : honest (ex_net slow k).
Proof.
  split; [|split].
  - intros r b c c'. cbn [ex_net w_write]. destruct slow; intros [= <-]; reflexivity.
  - intros c x. cbn [ex_net w_head]. destruct (nth_error (ex_replies c) k) as [[h b]|]; [|discriminate]. intros [= <-]. reflexivity.
  - intros x x' b. cbn [ex_net w_body]. destruct (nth_error (ex_replies (r_conn x)) k) as [[h [b0|]]|]; try discriminate. destruct slow; intros [= <- <-]; reflexivity.
Qed.

Definition ex_final := let F := ex_float in let U := ex_url in prun 100 true (map fst ex_turns4) (psys_new 3 10).
Example C62_case : let F := ex_float in let U := ex_url in let W := ex_http in
  Forall honest_label (map fst ex_turns4) /\ reading script_link ex_servers sc_queue sc_content /\
  (forall c, agrees (sc_queue (ex_near c)) (asked_on (fst ex_final) c (snd ex_final))) /\
  orderly ex_explain3 ex_reason script_link ex_servers ex_near (fun c a => In (EOpen c a) (snd ex_final)) [] (plog 100 true (map fst ex_turns4) (psys_new 3 10)) /\
  ex_ends4 (fst ex_final) = [Some (u "Ok", 3%nat); Some (u "BadRequest", 187%nat); Some (u "Ok", 0%nat); Some (u "MethodNotAllowed", 60%nat); Some (u "Ok", 3%nat)] /\
  opens (snd ex_final) = [(0%nat, ex_a); (1%nat, ex_b)] /\
  map (fun c => length (asked_on (fst ex_final) c (snd ex_final))) [0; 1; 2]%nat = [3; 2; 0]%nat.
Proof.
  cbv zeta.
  assert (Wi : Forall ex_wired ex_turns4) by (repeat constructor; eexists; reflexivity).
  split; [|split; [|split; [|split; [|split; [|split]]]]].
  - repeat (apply Forall_cons; [first [exact I | apply ex_net_honest]|]). constructor.
  - apply (@script_reading ex_http). intros a p v q q' x I. unfold ex_servers in I. destruct (saddr_eqb a ex_a); repeat (destruct I as [<-|I]; [intros [= <- _]; reflexivity|]); destruct I.
  - intros c n x y E1 E2. destruct c as [|[|c]]; [| |cbn [ex_near sc_queue] in E1; destruct n; discriminate E1].
    + assert (Q : sc_queue (ex_near 0%nat) = asked_on (fst ex_final) 0%nat (snd ex_final)) by (vm_compute; reflexivity). rewrite Q, E2 in E1. injection E1 as E1. symmetry. exact E1.
    + assert (Q : sc_queue (ex_near 1%nat) = asked_on (fst ex_final) 1%nat (snd ex_final)) by (vm_compute; reflexivity). rewrite Q, E2 in E1. injection E1 as E1. symmetry. exact E1.
  - apply run_checked; [|exact Wi | vm_compute; reflexivity]. intros c a I. 
    assert (Q : opens (snd ex_final) = [(0%nat, ex_a); (1%nat, ex_b)]) by (vm_compute; reflexivity). apply PoolSystemAddr.opens_in in I. rewrite Q in I.
    destruct I as [[= <- <-]|[[= <- <-]|[]]]; reflexivity.
  - vm_compute. reflexivity.
  - vm_compute. reflexivity.
  - vm_compute. reflexivity.
Qed.

(** That the network keeps order is needed: here the first call is given the response to the last one. *)
Definition ex_swapped : list plabel := map (fun l => match l with LPoll O _ => LPoll O (ex_net true 2) | l => l end) (map fst ex_turns4).
Definition ex_mixed := let F := ex_float in let U := ex_url in prun 100 true ex_swapped (psys_new 3 10).
Theorem C62_order_needed : exists (F : floatlib) (U : urlenv) (W : httpenv) explain reason ln (ps : saddr -> list (hproc sconn (value * bytes))) near queue content ls s tr i pc v b,
  prun 100 true ls (psys_new 3 10) = (s, tr) /\ Forall honest_label ls /\ reading ln ps queue content /\ (forall c, agrees (queue (near c)) (asked_on s c tr)) /\
  nth_error (s_calls s) i = Some pc /\ c_state pc = Finished v b /\ ~ own_answer explain reason ln ps content pc v b.
Proof.
  pose proof C62_case as C. pose proof C52_case as C5. cbv zeta in C, C5. destruct C as (_ & Rd & _). destruct C5 as (Se & _).
  assert (Q : exists pc v, nth_error (s_calls (fst ex_mixed)) 0 = Some pc /\ c_state pc = Finished v [7; 6; 5] /\ c_addr pc = ex_a /\ job_of pc = ex_errand MPost [1; 2; 3]) by (do 2 eexists; vm_compute; auto).
  destruct Q as (pc & v & E1 & E2 & E3 & E4).
  exists ex_float, ex_url, ex_http, ex_explain3, ex_reason, (@script_link ex_http), ex_servers, ex_near, sc_queue, sc_content, ex_swapped, (fst ex_mixed), (snd ex_mixed), 0%nat, pc, v, [7; 6; 5].
  split; [exact (surjective_pairing _)|]. split; [repeat (apply Forall_cons; [first [exact I | apply ex_net_honest]|]); constructor|]. split; [exact Rd|].
  split; [|split; [exact E1 | split; [exact E2|]]].
  - intros c n x y D1 D2. destruct c as [|[|c]]; [| |cbn [ex_near sc_queue] in D1; destruct n; discriminate D1].
    + assert (Q : sc_queue (ex_near 0%nat) = asked_on (fst ex_mixed) 0%nat (snd ex_mixed)) by (vm_compute; reflexivity). rewrite Q, D2 in D1. injection D1 as D1. symmetry. exact D1.
    + assert (Q : sc_queue (ex_near 1%nat) = asked_on (fst ex_mixed) 1%nat (snd ex_mixed)) by (vm_compute; reflexivity). rewrite Q, D2 in D1. injection D1 as D1. symmetry. exact D1.
  - intros O. assert (P : (v, [7; 6; 5]) = ex_ok [3; 2; 1]).
    { apply (@own_is_meant ex_float ex_url ex_http sconn (value * bytes) ex_explain3 ex_reason (@script_link ex_http) ex_servers sc_queue sc_content pc v [7; 6; 5] _ O). rewrite E3, E4. apply served_meant. exact Se. }
    discriminate P.
Qed.
Print Assumptions C62_order_needed.
