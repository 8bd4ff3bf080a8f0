(** * Calls that are not answered and headers that are not carried (for C71 and C72). *)
From Verif Require Import Base Utf8 Decimal DepUrl Serde Procedure ScalarSpec PathSpec FieldSpec Status SerPath SerQuery SerHeader SerRequest SerResponse DeHeader DeRequest DeResponse Router RouterSpec DepHttp
  UrlProofs RequestSpec PathTrip HeaderProofs RequestArrives ResponseTrip Error Client ClientSpec Server ServerSpec EndToEndSpec SessionSpec HttpBytes HttpBytesSpec HttpBytesProofs HttpBytesSession HttpTargets HttpBytesLimits.
Open Scope N_scope.

(** Calls of the entry point [/x/_]. *)
Definition x_entry : list segment := [Val (u "x"); Var].
Definition x_headers : list (ustr * value) := map (fun i => (65 :: show_N (N.of_nat i), SStr (u "1"))) (seq 0 32).
Definition x_call (path : ustr) (head : list (ustr * value)) : value :=
  SStruct (u "Req") [(u "path", STuple [SStr path]); (u "header", SStruct (u "H") head)].
Definition x_many : value := x_call (u "a") x_headers.
Definition x_long : value := x_call (repeat 97 (N.to_nat 8100)) [].
Definition x_bar : value := x_call (u "a|b") [].

Definition plainb (c : N) : bool := cleanb c && negb (c =? 124).
Definition x_check (v : value) (k : reqb -> bool) `{urlenv} `{floatlib} : Prop :=
  match encode_request x_entry v 0 with
  | Ok r => forallb safe_header (rb_headers r) && negb (match rb_target r with [] => true | _ => false end) && k r = true
  | _ => False
  end.
Lemma many_check (U : urlenv) (F : floatlib) : x_check x_many (fun r => forallb plainb (rb_target r) && (33 <=? length (rb_headers r))%nat).
Proof. destruct U as [[|] [|] sp ho fu]; vm_compute; reflexivity. Qed.
Lemma long_check (U : urlenv) (F : floatlib) : x_check x_long (fun r => forallb plainb (rb_target r) && (N.to_nat 8097 <=? length (rb_target r))%nat).
Proof. destruct U as [[|] [|] sp ho fu]; vm_compute; reflexivity. Qed.
Lemma bar_check (U : urlenv) (F : floatlib) : x_check x_bar (fun r => ustr_eqb (rb_target r) (u "/x/a|b")).
Proof. destruct U as [[|] [|] sp ho fu]; vm_compute; reflexivity. Qed.
Lemma x_checked (U : urlenv) (F : floatlib) v k : x_check v k ->
  exists r, encode_request x_entry v 0 = Ok r /\ forallb safe_header (rb_headers r) = true /\ rb_target r <> [] /\ k r = true.
Proof.
  unfold x_check. destruct (encode_request x_entry v 0) as [r| | |]; try contradiction. rewrite !andb_true_iff, negb_true_iff. intros [[S N] K]. exists r.
  repeat split; auto. intros E. rewrite E in N. discriminate N.
Qed.
Lemma plain_taken (uri_byte : N -> bool) l : (forall c, clean c -> c <> 124 -> uri_byte c = true) -> forallb plainb l = true -> forall c, In c l -> uri_byte c = true /\ c <> 32.
Proof.
  intros T P c I. rewrite forallb_forall in P. specialize (P c I). unfold plainb in P. rewrite andb_true_iff, negb_true_iff in P. destruct P as [P N]. apply N.eqb_neq in N.
  pose proof (cleanb_ok [c]) as Q. cbn [forallb] in Q. rewrite P in Q. specialize (Q eq_refl). inversion_clear Q. split; [apply T; assumption|]. destruct H as [H _]. lia.
Qed.
Lemma head_longer m r : (length (rb_target r) <= length (request_head m r))%nat.
Proof. unfold request_head. rewrite !app_length. lia. Qed.

Theorem calls_not_answered (F : floatlib) (U : urlenv) v : In v [x_many; x_long; x_bar] ->
  wf_value v = true /\ exists r, encode_request x_entry v 0 = Ok r /\ forallb safe_header (rb_headers r) = true /\
    forall (R : Type) explain reason trims uri_byte (ps : list (hproc bconn R)) s z,
    (forall c, clean c -> c <> 124 -> uri_byte c = true) -> uri_byte 124 = false -> (length (b_held s) <= most_bytes server_limits)%nat -> stream s = request_head MGet r ++ z ->
    forall k, replied (fst (rounds explain reason (byte_link trims uri_byte server_limits) (build (registrations ps)) k (task_new (Ready s)))) = [].
Proof.
  intros [<-|[<-|[<-|[]]]]; (split; [vm_compute; reflexivity|]).
  - destruct (x_checked U F _ _ (many_check U F)) as (r & E & S & N & K). apply andb_true_iff in K. destruct K as [P L]. apply Nat.leb_le in L.
    exists r. split; [exact E|]. split; [exact S|]. intros R explain reason trims uri_byte ps s z T _ Eh Es.
    apply (too_big_not_answered explain reason trims uri_byte server_limits ps s MGet r z N (plain_taken _ _ T P) S); [right; exact L | exact Eh | exact Es].
  - destruct (x_checked U F _ _ (long_check U F)) as (r & E & S & N & K). apply andb_true_iff in K. destruct K as [P L]. apply Nat.leb_le in L.
    exists r. split; [exact E|]. split; [exact S|]. intros R explain reason trims uri_byte ps s z T _ Eh Es.
    apply (too_big_not_answered explain reason trims uri_byte server_limits ps s MGet r z N (plain_taken _ _ T P) S); [left | exact Eh | exact Es].
    pose proof (head_longer MGet r). cbn [most_bytes server_limits]. lia.
  - destruct (x_checked U F _ _ (bar_check U F)) as (r & E & S & N & K). apply ustr_eqb_eq in K.
    exists r. split; [exact E|]. split; [exact S|]. intros R explain reason trims uri_byte ps s z T Tb Eh Es.
    refine (proj1 (odd_target_not_answered explain reason trims uri_byte server_limits ps s MGet r z (u "/x/a") 124 (u "b") K _ Tb _ Eh Es)); [|discriminate].
    apply plain_taken; [exact T | reflexivity].
Qed.

(** One call, written by the client from a value of an ordinary type, that the server takes for two requests. *)
Definition x_trick : ustr := u "1" ++ crlf ++ u "Content-Length: 0" ++ crlf ++ crlf ++ u "DELETE /all HTTP/1.1" ++ crlf ++ u "B: 2".
Definition x_split : value := x_call (u "a") [(u "A", SStr x_trick)].
Definition x_first : reqb := mkReqb (u "/x/a") [(u "A", u "1"); (u "Content-Length", u "0")].
Definition x_second : reqb := mkReqb (u "/all") [(u "B", u "2"); (u "Content-Length", u "0")].
Definition x_split_bytes `{urlenv} `{floatlib} : Prop :=
  match encode_request x_entry x_split 0 with
  | Ok r => ustr_eqb (request_head MGet r) (request_head MGet x_first ++ request_head MDelete x_second) = true
  | _ => False
  end.
Lemma split_bytes (U : urlenv) (F : floatlib) : x_split_bytes.
Proof. destruct U as [[|] [|] sp ho fu]; vm_compute; reflexivity. Qed.
Lemma small_fits (uri_byte : N -> bool) m r h : (forall c, clean c -> c <> 124 -> uri_byte c = true) -> rb_target r <> [] -> forallb plainb (rb_target r) = true ->
  forallb safe_header (rb_headers r) = true -> rb_headers r = [h; (u "Content-Length", u "0")] -> is_length h = false ->
  (length (request_head m r) <= most_bytes server_limits)%nat -> fit_request uri_byte server_limits m r [].
Proof.
  intros T N P S E Hh L. split; [split; [exact N | apply plain_taken; assumption] | exact S | | exact L | rewrite E; cbn; lia].
  rewrite E. exists [h], (u "Content-Length"), []. split; [reflexivity|]. split; [reflexivity|]. intros x [<-|[]] X. apply is_length_iff in X. congruence.
Qed.
Theorem one_call_two_requests (F : floatlib) (U : urlenv) :
  wf_value x_split = true /\ exists r, encode_request x_entry x_split 0 = Ok r /\
  forall trims uri_byte s, (forall c, clean c -> c <> 124 -> uri_byte c = true) -> stream s = request_head MGet r ->
  exists q1 c q2, settle (l_read (byte_link trims uri_byte server_limits) s) = Comes (Got q1) /\ q_method q1 = MGet /\ q_target q1 = u "/x/a" /\
    settle (read_body (q_conn q1)) = Comes ([], c) /\
    settle (l_read (byte_link trims uri_byte server_limits) c) = Comes (Got q2) /\ q_method q2 = MDelete /\ q_target q2 = u "/all".
Proof.
  split; [vm_compute; reflexivity|]. pose proof (split_bytes U F) as B. unfold x_split_bytes in B. destruct (encode_request x_entry x_split 0) as [r| | |]; try contradiction.
  apply ustr_eqb_eq in B. exists r. split; [reflexivity|]. intros trims uri_byte s T Es. rewrite B in Es.
  assert (F1 : fit_request uri_byte server_limits MGet x_first []) by (apply (small_fits _ _ _ (u "A", u "1")); [exact T | discriminate | reflexivity | reflexivity | reflexivity | reflexivity | apply Nat.leb_le; reflexivity]).
  assert (F2 : fit_request uri_byte server_limits MDelete x_second []) by (apply (small_fits _ _ _ (u "B", u "2")); [exact T | discriminate | reflexivity | reflexivity | reflexivity | reflexivity | apply Nat.leb_le; reflexivity]).
  destruct (request_read trims uri_byte server_limits s MGet x_first [] (request_head MDelete x_second) F1 Es) as (q1 & E1 & M1 & T1 & _ & W1 & _).
  destruct (body_comes _ _ _ W1) as (c & E2 & S2 & _).
  destruct (request_read trims uri_byte server_limits c MDelete x_second [] [] F2) as (q2 & E3 & M3 & T3 & _); [rewrite S2, !app_nil_r; reflexivity|].
  exists q1, c, q2. repeat split; assumption.
Qed.

(** A header that arrives as two. *)
Theorem header_arrives_as_two trims : byte_deliver trims [(u "A", u "1" ++ crlf ++ u "B: 2")] = Some [(u "A", u "1"); (u "B", u "2")].
Proof. destruct trims; reflexivity. Qed.
