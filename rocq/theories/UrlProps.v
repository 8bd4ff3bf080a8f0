(** * Property C59: request targets, character by character. *)
From Verif Require Import Base Utf8 Decimal DepUrl Serde Procedure ScalarSpec PathSpec FieldSpec SerPath SerQuery SerHeader SerRequest
  UrlProofs RequestSpec RequestProofs RequestTrip Utf8Spec Utf8Exact UrlSpec UrlExact Exhibit PathProps FieldProps RequestProps.
Open Scope N_scope.

(** The target of a request that is sent is the text for its path and query, and nothing else is. *)
Theorem C59_request_target (U : urlenv) (F : floatlib) ep v len r : entry_ok ep -> wf_value v = true -> encode_request ep v len = Ok r ->
  exists variant ps q hs tss ql, body_of v = Some (variant, parts ps q hs) /\
    Forall2 (args_for ep) match ps with [] => [SUnit] | _ => ps end tss /\ query_part q ql /\
    (forall t, target (flat_map (fill ep) tss) ql t <-> t = rb_target r).
Proof. exact (request_target_exact ep v len r). Qed.
Print Assumptions C59_request_target.

(** The text a path and a query are written as. *)
Theorem C59_target_exact (U : urlenv) segs pairs t : forallb str_ok segs = true ->
  match pairs with Some l => forallb (fun kv => str_ok (fst kv) && str_ok (snd kv)) l = true | None => True end ->
  (target segs pairs t <-> t = url_text (fold_left push segs [[]]) (option_map pairs_text pairs)).
Proof. exact (target_exact segs pairs t). Qed.
Print Assumptions C59_target_exact.

(** What any query text is read as. *)
Theorem C59_query_read (p : option (list ustr)) q l : str_ok q = true -> (query_pairs (mkUrl p (Some q)) = l <-> query_says q l).
Proof. exact (query_read_iff p q l). Qed.
Print Assumptions C59_query_read.

(** What any target of visible characters, beginning with one slash, is read as. *)
Theorem C59_target_read (U : urlenv) t p q : Forall visible t -> match t with c :: _ => ~ separates c | _ => True end ->
  (parse_url (u "/" ++ t) = Some (mkUrl p q) <-> exists segs, p = Some segs /\ target_says (u "/" ++ t) segs q).
Proof. exact (target_read_iff t p q). Qed.
Print Assumptions C59_target_read.

Example C59_case : let U := ex_url in let F := ex_float in
  entry_ok ex_ep /\ wf_value ex_req = true /\
  match encode_request ex_ep ex_req 12 with
  | Ok r => rb_target r = u "/users/7/files/a%2Fb%3F%2520.txt?id=7&name=a+b%26c%3D%C3%BC&deep=false"
  | _ => False
  end.
Proof.
  cbv zeta. split; [|split; vm_compute; reflexivity].
  intros c I. cbn in I. intuition; match goal with H : Val _ = Val _ |- _ => injection H as <-; reflexivity | H : Var = Val _ |- _ => discriminate H end.
Qed.
(** Tabs vanish, after which dots are dots; carets and controls are escaped or kept as the release has it. *)
Example C59_target_case :
  (let U := ex_url in target [u "a^"; u " x "; [46; 9]; u "b"] (Some [(u "k y", [233; 10]); ([], u "*")]) (u "/a%5E/%20x%20//b?k+y=%C3%A9%0A&=*")) /\
  (let U := ex_url_old in target [u "a^"; u " x "; [46; 9; 46]; u "."; u "b"] None (u "/a^//b")).
Proof.
  cbv zeta. split; apply (@C59_target_exact _); vm_compute; auto.
Qed.
(** Escapes in either case, a percent sign on its own, a key on its own, empty pieces. *)
Lemma says_plain s : Forall (fun c => c < 128 /\ c <> 37 /\ c <> 43) s -> says_bytes s s.
Proof. induction 1 as [|c s (L & P & Q) _ IH]; [constructor|]. apply (SbChar c [c] s s); [exact P | exact Q | constructor; exact L | exact IH]. Qed.
Lemma text_plain s : Forall (fun c => c < 128) s -> lossy s s.
Proof. induction 1 as [|c s L _ IH]; [constructor|]. apply (LsChar c [c] s s); [constructor; exact L | exact IH]. Qed.
Example C59_query_case : query_says (u "a=%c3%A9=+&&50%&") [(u "a", [233; 61; 32]); (u "50%", [])].
Proof.
  apply (QsMore (u "a=%c3%A9=+") (u "a", [233; 61; 32]) (u "&50%&") [(u "50%", [])]);
    [discriminate | cbn; intuition discriminate | | apply (QsSkip (u "50%&")), (QsMore (u "50%") (u "50%", []) [] []); [discriminate | cbn; intuition discriminate | | constructor]].
  - left. exists (u "a"), (u "%c3%A9=+"). split; [reflexivity|]. split; [cbn; intuition discriminate|]. split.
    + exists [97]. split; [apply says_plain | apply text_plain]; repeat constructor; discriminate.
    + exists [195; 169; 61; 32]. split.
      * apply (SbEscape 12 3 99 51 (u "%A9=+")); [right; reflexivity | left; reflexivity|].
        apply (SbEscape 10 9 65 57 (u "=+")); [left; reflexivity | left; reflexivity|].
        apply (SbChar 61 [61] (u "+") [32]); [discriminate | discriminate | constructor; reflexivity|].
        apply (SbPlus [] []). constructor.
      * apply (LsChar 233 [195; 169] [61; 32] [61; 32]); [apply (Utf2 3 41); lia|]. apply text_plain. repeat constructor.
  - right. split; [cbn; intuition discriminate|]. split; [|reflexivity]. exists [53; 48; 37]. split; [|apply text_plain; repeat constructor].
    apply (SbChar 53 [53] (u "0%") [48; 37]); [discriminate | discriminate | constructor; reflexivity|].
    apply (SbChar 48 [48] (u "%") [37]); [discriminate | discriminate | constructor; reflexivity|].
    apply (SbPercent [] []); [|constructor]. intros (x & y & h & l & r & _ & _ & E). discriminate E.
Qed.
(** Escapes that are not UTF-8: what could begin a character is replaced as one. *)
Example C59_query_not_utf8 : query_says (u "%E2%82x&%C3%A9=%FF%80") [([65533; 120], []); ([233], [65533; 65533])].
Proof. apply (C59_query_read None); vm_compute; reflexivity. Qed.
(** Dots go up even when escaped, backslashes separate, quotes are escaped, a fragment is left out. *)
Example C59_read_case : let U := ex_url in
  target_says (u "/a\b/%2E./c""?x='y'#f") [u "a"; u "c%22"] (Some (u "x=%27y%27")) /\
  Forall visible (u "a\b/%2E./c""?x='y'#f").
Proof.
  cbv zeta. split; [|repeat constructor; discriminate].
  apply (@TgQuery ex_url (u "a\b/%2E./c""") [u "a"; u "b"; u "%2E."; u "c"""] [u "a"; u "c%22"] (u "x='y'") (u "x=%27y%27") (u "#f")).
  - intros c I. cbn in I. intuition (subst; discriminate).
  - apply (SsMore (u "a") 92 (u "b/%2E./c""")); [intros c I; cbn in I; unfold separates; intuition (subst; discriminate) | right; reflexivity|].
    apply (SsMore (u "b") 47 (u "%2E./c""")); [intros c I; cbn in I; unfold separates; intuition (subst; discriminate) | left; reflexivity|].
    apply (SsMore (u "%2E.") 47 (u "c""")); [intros c I; cbn in I; unfold separates; intuition (subst; discriminate) | left; reflexivity|].
    apply SsLast. intros c I; cbn in I; unfold separates; intuition (subst; discriminate).
  - exists [u "a"; u "b"; u "%2E."; u "c%22"]. split.
    + assert (P : forall s, Forall (fun c => ~ @odd_in_path ex_url c) s -> tidied (@odd_in_path ex_url) s s) by (induction 1; constructor; auto).
      assert (K : forall c, existsb (N.eqb c) (94 :: u """<>`{}") = false -> ~ @odd_in_path ex_url c).
      { intros c E [I|[_ I]]; rewrite <- not_true_iff_false in E; apply E; apply existsb_exists; [exists c; split; [right; exact I | apply N.eqb_refl] | exists c; split; [left; symmetry; exact I | apply N.eqb_refl]]. }
      do 3 (apply Forall2_cons; [apply P; repeat (apply Forall_cons; [apply K; reflexivity|]); apply Forall_nil|]). apply Forall2_cons; [|constructor].
      apply TiKept; [apply K; reflexivity|]. apply (TiEscaped _ 34 (u "%22") [] []); [left; left; reflexivity | apply (EsByte 2 2 50 50 [] []); [reflexivity | reflexivity | constructor] | constructor].
    + assert (D : forall s, existsb (ustr_eqb s) [u "."; u "%2e"; u "%2E"; u ".."; u ".%2e"; u ".%2E"; u "%2e."; u "%2e%2e"; u "%2e%2E"; u "%2E."; u "%2E%2e"; u "%2E%2E"] = false ->
        ~ stays_here s /\ ~ goes_up s).
      { intros s E. rewrite <- not_true_iff_false in E. split.
        - intros A. apply E. destruct A as [->|[->| ->]]; vm_compute; reflexivity.
        - intros (a & b & -> & A & B). apply E. destruct A as [->|[->| ->]], B as [->|[->| ->]]; vm_compute; reflexivity. }
      apply RePlain; [apply D; vm_compute; reflexivity | apply D; vm_compute; reflexivity|].
      apply RePlain; [apply D; vm_compute; reflexivity | apply D; vm_compute; reflexivity|].
      apply ReUp; [exists (u "%2E"), (u "."); split; [reflexivity|]; split; [right; right | left]; reflexivity|].
      apply RePlain; [apply D; vm_compute; reflexivity | apply D; vm_compute; reflexivity|]. apply (ReEnd [u "a"; u "c%22"]).
  - cbn. intuition discriminate.
  - assert (Q : ~ odd_in_query 120 /\ ~ odd_in_query 61 /\ ~ odd_in_query 121) by (unfold odd_in_query; cbn; intuition discriminate). destruct Q as (Q1 & Q2 & Q3).
    assert (E : escape [39] (u "%27")) by (apply (EsByte 2 7 50 55 [] []); [reflexivity | reflexivity | constructor]).
    assert (O : odd_in_query 39) by (right; right; right; left; reflexivity).
    apply TiKept; [exact Q1|]. apply TiKept; [exact Q2|]. apply (TiEscaped _ 39 (u "%27") (u "y'") (u "y%27")); [exact O | exact E|].
    apply TiKept; [exact Q3|]. apply (TiEscaped _ 39 (u "%27") [] []); [exact O | exact E | constructor].
  - right. exists (u "f"). reflexivity.
Qed.
