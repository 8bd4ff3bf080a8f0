(** * Property C53: exactly the JSON texts are read, and exactly the problem documents are accepted. *)
From Verif Require Import Base Utf8 Decimal Serde Status Json JsonText JsonSpec JsonProofs JsonDe JsonProps Exhibit Problem ProblemSpec ProblemProofs ProblemProps JsonSound ProblemExactSpec ProblemExact JsonType.
Open Scope N_scope.

(** A text is read as a tree exactly when the grammar of RFC 8259 says it stands for it, within the nesting limit. *)
Theorem C53_reads_exactly (J : jsonfloat) s j : parse_json s = Ok j <-> json_document s j.
Proof. exact (parse_json_iff s j). Qed.
Print Assumptions C53_reads_exactly.

(** Every other text is refused: no panic, no other error. *)
Theorem C53_refuses_the_rest (J : jsonfloat) s : (forall j, ~ json_document s j) <-> parse_json s = Err Invalid.
Proof.
  split.
  - intros N. destruct (parse_json_refuses s) as [[j E]|E]; [|exact E]. apply parse_json_iff in E. elim (N j E).
  - intros E j D. apply parse_json_iff in D. congruence.
Qed.
Print Assumptions C53_refuses_the_rest.

(** No text stands for two trees. *)
Theorem C53_unambiguous (J : jsonfloat) s j j' : json_document s j -> json_document s j' -> j = j'.
Proof. intros D D'. apply parse_json_iff in D, D'. congruence. Qed.
Print Assumptions C53_unambiguous.

(** A body is read as a problem exactly when it is the UTF-8 of a text of a document that represents the problem. *)
Theorem C53_problem_exactly (F : floatlib) (J : jsonfloat) url_norm b p :
  problem_read url_norm b = Ok p <-> exists s j, utf8_decode b = Some s /\ json_document s j /\ represents url_norm j p.
Proof. exact (problem_read_exact url_norm b p). Qed.
Print Assumptions C53_problem_exactly.

(** Then the response gets this problem and keeps the status it came with, whatever status the problem has. *)
Theorem C53_body_taken (F : floatlib) (J : jsonfloat) url_norm r b s j p :
  utf8_decode b = Some s -> json_document s j -> represents url_norm j p -> pr_set_body url_norm r b = mkPresp (pr_status r) p.
Proof.
  intros D T R.
  assert (E : problem_read url_norm b = Ok p) by (apply problem_read_exact; exists s, j; auto).
  unfold pr_set_body. rewrite E. reflexivity.
Qed.
Print Assumptions C53_body_taken.

(** Otherwise the response keeps the problem it had. *)
Theorem C53_other_bodies_ignored (F : floatlib) (J : jsonfloat) url_norm r b :
  (forall p s j, utf8_decode b = Some s -> json_document s j -> ~ represents url_norm j p) -> pr_set_body url_norm r b = r.
Proof.
  intros N. unfold pr_set_body. destruct (problem_read url_norm b) as [p|e| |] eqn:E; try reflexivity. apply problem_read_exact in E. destruct E as (s & j & D & T & R). elim (N p s j D T R).
Qed.
Print Assumptions C53_other_bodies_ignored.

(** So a client that reads a problem response with such a body gets a problem of status 500, whatever the status of the response. *)
Theorem C53_unread_body_is_500 (F : floatlib) (J : jsonfloat) url_norm reason v d b :
  pr_decoded reason v = Some d -> (forall p s j, utf8_decode b = Some s -> json_document s j -> ~ represents url_norm j p) ->
  pr_problem (pr_set_body url_norm d b) = AboutBlank (reason StInternalServerError) 500.
Proof.
  intros D N. rewrite (C53_other_bodies_ignored F J url_norm d b N). unfold pr_decoded in D.
  repeat match type of D with match ?x with _ => _ end = _ => destruct x; try discriminate D end; injection D as <-; reflexivity.
Qed.
Print Assumptions C53_unread_body_is_500.

(** It is refused with [Invalid]: no panic, no other error. *)
Theorem C53_other_bodies_refused (F : floatlib) (J : jsonfloat) url_norm b :
  (forall p s j, utf8_decode b = Some s -> json_document s j -> ~ represents url_norm j p) <-> problem_read url_norm b = Err Invalid.
Proof.
  split.
  - intros N. destruct (problem_refuses url_norm b) as [[p E]|E]; [|exact E]. apply problem_read_exact in E. destruct E as (s & j & D & T & R). elim (N p s j D T R).
  - intros E p s j D T R. assert (X := proj2 (problem_read_exact url_norm b p) (ex_intro _ s (ex_intro _ j (conj D (conj T R))))). congruence.
Qed.
Print Assumptions C53_other_bodies_refused.

Definition ex_doc (t : ustr) (c : ustr) : ustr := u "{""type"":""" ++ t ++ u """," ++ c ++ u "}".
Example C53_case : let F := ex_jfloat in let J := ex_json in
  (* escapes, surrogate pairs, numbers, white space, repeated members *)
  json_document (u " [""\u00E9\uD83D\ude00\/"", 7.0, 10, {""a"":null, ""a"":[]} ] ")
    (JArr [JStr [233; 128512; 47]; JFloat (u "7.0"); JInt 10; JObj [(u "a", JNull); (u "a", JArr [])]]) /\
  (* refused: lone surrogates, leading zeros, trailing commas, control characters, trailing text *)
  Forall (fun s => forall j, ~ json_document s j)
    [u """\ud83d"""; u """\ude00"""; u "01"; u "1."; u "[1,]"; u "{""a""}"; [34; 10; 34]; u "nul"; u "1 1"; u "+1"; u "[}"; u ""] /\
  (* an object with other members, twice; an array that stops early *)
  represents ex_url_norm (JObj [(u "x", JNull); (u "title", JStr (u "T")); (u "type", JStr about_tag); (u "status", JInt 404); (u "x", JArr [])]) (AboutBlank (u "T") 404) /\
  represents ex_url_norm (JArr [JStr trackable_tag; JStr (u "T"); JInt 400; JNull; JStr (u "HTTP://host")]) (Trackable (u "T") 400 None (Some (u "http://host/")) None) /\
  problem_read ex_url_norm (ex_doc (u "about:blank") (u """title"":""T"",""status"":404")) = Ok (AboutBlank (u "T") 404) /\
  pr_set_body ex_url_norm (mkPresp (Some 400) ex_track) (ex_doc (u "about:blank") (u """title"":""T"",""status"":404")) = mkPresp (Some 400) (AboutBlank (u "T") 404) /\
  pr_decoded ex_reason (pr_value (mkPresp (Some 404) ex_track)) = Some (mkPresp (Some 404) (AboutBlank (u "Internal Server Error") 500)) /\
  (* known members twice, missing, of another type, out of range; a URL that is none; an array too long *)
  Forall (fun b => pr_set_body ex_url_norm (mkPresp None ex_track) b = mkPresp None ex_track)
    [ex_doc (u "about:blank") (u """title"":""T"",""status"":404,""type"":""about:blank""");
     ex_doc (u "about:blank") (u """title"":""T"",""status"":404,""title"":""T""");
     ex_doc (u "about:blank") (u """title"":""T"""); ex_doc (u "about:blank") (u """title"":1,""status"":404");
     ex_doc (u "about:blank") (u """title"":""T"",""status"":65536"); ex_doc (u "about:blank") (u """title"":""T"",""status"":404.0");
     ex_doc (u "about:blank") (u """title"":""T"",""status"":-1");
     ex_doc trackable_tag (u """title"":""T"",""status"":404,""instance"":""nowhere""");
     u "[""about:blank"",""T"",404,null]"; [255]].
Proof.
  cbv zeta. split; [apply parse_json_iff; vm_compute; reflexivity|]. split; [repeat (apply Forall_cons; [apply C53_refuses_the_rest; vm_compute; reflexivity|]); constructor|].
  split; [refine (proj1 (@problem_exact ex_jfloat ex_json ex_url_norm _ _) _); vm_compute; reflexivity|]. split; [refine (proj1 (@problem_exact ex_jfloat ex_json ex_url_norm _ _) _); vm_compute; reflexivity|]. split; [vm_compute; reflexivity|]. split; [vm_compute; reflexivity|]. split; [vm_compute; reflexivity|].
  repeat (apply Forall_cons; [vm_compute; reflexivity|]). constructor.
Qed.
