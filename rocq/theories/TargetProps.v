(** * Property C67: request targets of every form. *)
From Verif Require Import Base Utf8 DepUrl DepHttp HeaderProofs Serde Procedure Router RouterSpec SerResponse Problem Status Client ClientSpec Server ServerSpec ServerProofs UrlSpec TargetSpec Targets Exhibit JsonProps ProblemProps ServerProps.
Open Scope N_scope.

(** Any target of visible characters is refused, has a path, or has none, as TargetSpec.v says. *)
Theorem C67_every_target (U : urlenv) t : Forall visible t ->
  (target_means t Refused <-> parse_url t = None) /\
  (forall p q, target_means t (Rooted p q) <-> parse_url t = Some (mkUrl (Some p) q)) /\
  (forall q, target_means t (Unrooted q) <-> parse_url t = Some (mkUrl None q)).
Proof. exact (target_read t). Qed.
Print Assumptions C67_every_target.

(** Each has one meaning. *)
Theorem C67_one_meaning (U : urlenv) t : Forall visible t -> exists m, target_means t m /\ forall m', target_means t m' -> m' = m.
Proof. exact (target_once t). Qed.
Print Assumptions C67_one_meaning.

(** The task that serves a connection panics exactly on the dangerous ones. *)
Theorem C67_panics_iff (F : floatlib) (U : urlenv) (Conn R : Type) explain reason ln (ps : list (hproc Conn R)) r :
  names_ok (q_headers r) = true -> Forall visible (q_target r) -> (reply_to explain reason ln ps r = Crashes <-> dangerous (q_target r)).
Proof. exact (dangerous_iff explain reason ln ps r). Qed.
Print Assumptions C67_panics_iff.

(** The refused ones are answered with 400, once their bodies have been read. *)
Theorem C67_refused_answered (F : floatlib) (U : urlenv) (Conn R : Type) explain reason ln (ps : list (hproc Conn R)) r r' :
  Forall visible (q_target r) -> target_means (q_target r) Refused -> settle (l_drain ln r) = Comes r' ->
  exists h b, reply_to explain reason ln ps r = Sends (q_conn r') h b /\ code_of (pb_status h) = 400.
Proof. exact (refused_answered explain reason ln ps r r'). Qed.
Print Assumptions C67_refused_answered.

(** Every request in authority form ("CONNECT who:port") is dangerous when its host begins with a letter, whatever the server's procedures. *)
Theorem C67_authority_form (F : floatlib) (U : urlenv) (Conn R : Type) explain reason ln (ps : list (hproc Conn R)) r who port :
  authority_form who port -> ~ spells who (u "file") -> ~ spells who (u "http") -> ~ known_scheme who ->
  names_ok (q_headers r) = true -> q_target r = who ++ u ":" ++ port -> reply_to explain reason ln ps r = Crashes.
Proof. exact (authority_panics explain reason ln ps r who port). Qed.
Print Assumptions C67_authority_form.

(** Absolute form: the host is checked and then forgotten. *)
Theorem C67_absolute_form (U : urlenv) s who r m : spells s (u "http") -> who <> [] ->
  (forall c, In c who -> visible c /\ ~ separates c /\ c <> 63 /\ c <> 35) -> host_ok true who = true -> Forall visible r ->
  match r with d :: _ => ~ separates d | [] => True end ->
  (target_means (s ++ u "://" ++ who ++ u "/" ++ r) m <-> target_means (u "/" ++ r) m).
Proof. exact (absolute_form s who r m). Qed.
Print Assumptions C67_absolute_form.

(** Targets of all forms, with their meanings. *)
Definition ex_targets : list (ustr * meaning) := [
  (u "/a/%2E/../b?x='y#z", Rooted [u "b"] (Some (u "x=%27y")));
  (u "HTTP://who:80/a/b?x", Rooted [u "a"; u "b"] (Some (u "x")));
  (u "http://who", Rooted [[]] None);
  (u "http://who?x", Rooted [[]] (Some (u "x")));
  (u "https:\who\a", Rooted [u "a"] None);
  (u "http:a/b", Rooted [u "a"; u "b"] None);
  (u "http://", Refused);
  (u "file:///a", Refused);
  (u "//who/a", Rooted [u "a"] None);
  (u "*", Rooted [u "*"] None);
  (u "127.0.0.1:443", Rooted [u "127.0.0.1:443"] None);
  (u "example.com:443", Unrooted None);
  (u "foo://who", Unrooted None);
  (u "foo://who/a\b?'", Rooted [u "a\b"] (Some (u "'")));
  (u "foo:/a/../b", Rooted [u "b"] None);
  (u "mailto:x?y", Unrooted (Some (u "y")))].
Definition visibleb (c : N) : bool := (33 <=? c) && (c <=? 126).
Lemma visibleb_ok t : forallb visibleb t = true -> Forall visible t.
Proof. intros E. rewrite forallb_forall in E. apply Forall_forall. intros c I. specialize (E c I). unfold visibleb in E. unfold visible. lia. Qed.
Example C67_case_targets : Forall (fun '(t, m) => @target_means ex_url t m) ex_targets.
Proof. repeat (constructor; [apply target_iff; [apply visibleb_ok; vm_compute; reflexivity | vm_compute; reflexivity]|]). constructor. Qed.
Example C67_case_refused : exists h b,
  @reply_to ex_float ex_url ex_conn value ex_explain ex_reason ex_link ex_procs (mkRequest MGet (u "http:///") [] []) = Sends [] h b /\ code_of (pb_status h) = 400.
Proof.
  refine (@C67_refused_answered ex_float ex_url ex_conn value ex_explain ex_reason ex_link ex_procs (mkRequest MGet (u "http:///") [] []) (mkRequest MGet (u "http:///") [] []) _ _ eq_refl).
  - apply visibleb_ok. reflexivity.
  - apply (@target_iff ex_url); [apply visibleb_ok; reflexivity | vm_compute; reflexivity].
Qed.
Lemma ex_authority : authority_form (u "example.com") (u "443").
Proof.
  split; [|split; [discriminate|]].
  2:{ change (u "443") with [52; 52; 51]. repeat (constructor; [unfold is_figure; lia|]). constructor. }
  exists 101, (u "xample.com"). split; [reflexivity|]. split; [right; lia|].
  apply Forall_forall. intros c I. apply scheme_char_iff. revert c I. apply forallb_forall. reflexivity.
Qed.
Example C67_case_connect : @reply_to ex_float ex_url ex_conn value ex_explain ex_reason ex_link ex_procs (mkRequest MConnect (u "example.com:443") [] []) = Crashes.
Proof.
  apply (@C67_authority_form ex_float ex_url ex_conn value ex_explain ex_reason ex_link ex_procs _ (u "example.com") (u "443") ex_authority); [..|reflexivity | reflexivity].
  - rewrite spells_file. discriminate.
  - rewrite spells_http. discriminate.
  - rewrite known_iff. discriminate.
Qed.
Example C67_case_absolute : @target_means ex_url (u "Http://who:80/a/b?c") (Rooted [u "a"; u "b"] (Some (u "c"))).
Proof.
  pose proof (@C67_absolute_form ex_url (u "Http") (u "who:80") (u "a/b?c") (Rooted [u "a"; u "b"] (Some (u "c")))) as Q. apply Q; clear Q.
  - apply spells_http. reflexivity.
  - discriminate.
  - change (u "who:80") with [119; 104; 111; 58; 56; 48]. intros c I. cbn [In] in I. unfold visible, separates. lia.
  - reflexivity.
  - apply visibleb_ok. reflexivity.
  - cbn. unfold separates. lia.
  - apply (@target_iff ex_url); [apply visibleb_ok; reflexivity | vm_compute; reflexivity].
Qed.
