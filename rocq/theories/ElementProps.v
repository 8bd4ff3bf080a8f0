(** * Property C60: numbers, texts, names and addresses. *)
From Verif Require Import Base Utf8 Decimal Serde Procedure Router RouterProofs Pool ScalarSpec DepUrl SerHeader DepHttp SerRequest SerResponse Utf8Spec Utf8Exact ElementSpec ElementProofs
  UrlProofs PathSpec FieldSpec SerPath SerQuery Msgpack TypeSpec RequestSpec WrittenSpec WrittenTrip IntTrip Exhibit PathProps RequestProps.
Open Scope N_scope.

(** An integer is written as its shortest decimal numeral, in a query, in headers and in a path, and so is the length of a body. *)
Theorem C60_integers_written (U : urlenv) (F : floatlib) :
  (forall n vs nm k z p x, In (nm, SInt k z) vs -> wf_value (SStruct n vs) = true -> good_path p -> query_sent (SStruct n vs) p x ->
     exists s, In (nm, s) (query_pairs x) /\ decimal z s) /\
  (forall n vs nm k z len hs, In (nm, SInt k z) vs -> header_sent (SStruct n vs) len hs -> exists s, In (utf8_encode nm, s) hs /\ decimal z s) /\
  (forall ep kzs segs, plain_entry ep -> ep <> [] -> length kzs = var_count ep -> path_sent ep (STuple (map int_value kzs)) segs ->
     exists ss, segs = fill ep ss /\ Forall2 (fun kz s => decimal (snd kz) s) kzs ss).
Proof. exact (conj query_int_written (conj header_int_written path_ints_written)). Qed.
Print Assumptions C60_integers_written.
Theorem C60_length_sent (U : urlenv) (F : floatlib) :
  (forall ep v len r, encode_request ep v len = Ok r -> exists hs s, rb_headers r = hs ++ [(u "Content-Length", s)] /\ decimal (Z.of_N len) s) /\
  (forall v len r, encode_response v len = Ok r -> exists hs s, pb_headers r = hs ++ [(u "Content-Length", s)] /\ decimal (Z.of_N len) s).
Proof. exact (conj request_length response_length). Qed.
Print Assumptions C60_length_sent.
Example C60_length_case : let U := ex_url in let F := ex_float in
  match encode_request ex_ep ex_req 12 with
  | Ok r => rb_headers r = [(u "x-token", u "s3 cr=t"); (u "x-retry", u "3")] ++ [(u "Content-Length", u "12")]
  | _ => False
  end /\
  match encode_response (SUnitVariant (u "Res") (u "Created")) 1024 with
  | Ok r => pb_headers r = [] ++ [(u "Content-Length", u "1024")]
  | _ => False
  end.
Proof. vm_compute. auto. Qed.
Example C60_integers_case : decimal (-9223372036854775808) (u "-9223372036854775808") /\ decimal 0 (u "0") /\ decimal 18446744073709551615 (u "18446744073709551615") /\
  ~ decimal 7 (u "07") /\ ~ decimal 7 (u "+7") /\ ~ decimal 0 (u "-0").
Proof. repeat split; rewrite decimal_exact; try (vm_compute; reflexivity); vm_compute; discriminate. Qed.
Example C60_written_case : let U := ex_url in let F := ex_float in
  let v := SStruct (u "Q") [(u "name", SStr (u "a b")); (u "at", SInt I64 (-40))] in
  let ep := [Val (u "users"); Var; Var] in
  wf_value v = true /\ good_path [[]] /\
  (exists x, query_sent v [[]] x /\ query_pairs x = [(u "name", u "a b"); (u "at", u "-40")]) /\
  (exists hs, header_sent v 3 hs /\ hs = [(u "name", u "a b"); (u "at", u "-40"); (u "Content-Length", u "3")]) /\
  plain_entry ep /\ length [(U8, 7%Z); (I8, (-1)%Z)] = var_count ep /\
  path_sent ep (STuple (map int_value [(U8, 7%Z); (I8, (-1)%Z)])) [u "users"; u "7"; u "-1"].
Proof.
  cbv zeta. split; [reflexivity|]. split; [apply good_root|].
  split; [exists (mkUrl (Some [[]]) (Some (u "name=a+b&at=-40"))); split; [sent | vm_compute; reflexivity]|].
  split; [eexists; split; [sent | vm_compute; reflexivity]|].
  split; [apply plain_entryb_ok; reflexivity|]. split; [reflexivity | sent].
Qed.

(** A text is written as its UTF-8 bytes and read from these only; where bytes are read leniently, what is not UTF-8 is replaced. *)
Theorem C60_texts_written t b : str_ok t = true -> (utf8_encode t = b <-> text_bytes t b).
Proof. intros Ok. rewrite text_bytes_iff. split; [intros <-; auto | intros [_ ->]; reflexivity]. Qed.
Print Assumptions C60_texts_written.
Theorem C60_texts_read b t : utf8_decode b = Some t <-> text_bytes t b.
Proof. exact (utf8_decode_iff b t). Qed.
Print Assumptions C60_texts_read.
Theorem C60_texts_read_leniently b t : utf8_lossy b = t <-> lossy b t.
Proof. symmetry. exact (utf8_lossy_iff b t). Qed.
Print Assumptions C60_texts_read_leniently.
Example C60_texts_case : text_bytes [233; 8364; 128512] [195; 169; 226; 130; 172; 240; 159; 152; 128] /\
  (forall t, ~ text_bytes t [192; 128]) /\ (forall t, ~ text_bytes t [237; 160; 128]) /\ lossy [240; 159; 152; 226; 130; 172; 192; 128] [65533; 8364; 65533; 65533].
Proof.
  split; [apply C60_texts_read; vm_compute; reflexivity|].
  split; [intros t Q; apply C60_texts_read in Q; vm_compute in Q; discriminate|].
  split; [intros t Q; apply C60_texts_read in Q; vm_compute in Q; discriminate|].
  apply C60_texts_read_leniently. vm_compute. reflexivity.
Qed.

(** Header names are compared without regard to the case of ASCII letters. *)
Theorem C60_names s t : lowercase s = t <-> Forall2 small s t.
Proof. rewrite lowercase_exact. split; intros Q; symmetry; exact Q. Qed.
Print Assumptions C60_names.
Example C60_names_case : Forall2 small (u "X-Request_ID[9]") (u "x-request_id[9]") /\ ~ Forall2 small (u "x") (u "X").
Proof. split; [apply C60_names; vm_compute; reflexivity | intros Q; apply C60_names in Q; vm_compute in Q; discriminate]. Qed.

(** The headers taken for ones that HTTP carries unchanged. *)
Theorem C60_headers_that_travel h : safe_header h = true <-> travels h.
Proof. exact (safe_header_iff h). Qed.
Print Assumptions C60_headers_that_travel.
Example C60_headers_case : (travels (u "X-Token_1", u "a b;" ++ [233]) /\ travels (u "e", []) /\
  ~ travels (u "a:b", u "x") /\ ~ travels (u "a", u " x") /\ ~ travels (u "a", [120; 10; 121]))%type.
Proof.
  assert (B : forall h, safe_header h = false -> ~ travels h) by (intros h E T; apply C60_headers_that_travel in T; congruence).
  split; [apply C60_headers_that_travel; vm_compute; reflexivity|]. split; [apply C60_headers_that_travel; vm_compute; reflexivity|].
  split; [|split]; apply B; vm_compute; reflexivity.
Qed.

(** Methods, constants of entry points and addresses are the same only if they are equal. *)
Theorem C60_sameness :
  (forall a b, method_eqb a b = true <-> a = b) /\ (forall a b, key_eqb a b = true <-> a = b) /\
  (forall a b, ustr_eqb a b = true <-> a = b) /\ (forall a b, saddr_eqb a b = true <-> a = b).
Proof. exact (conj method_eqb_eq (conj key_eqb_eq (conj ustr_eqb_eq saddr_eqb_eq))). Qed.
Print Assumptions C60_sameness.
(** The order of a pool's connections does not look at the flow label and scope of an address. *)
Theorem C60_connection_order x y :
  (cid_cmp x y = Lt <-> sooner (places x) (places y)) /\ (cid_cmp x y = Eq <-> places x = places y) /\ (cid_cmp x y = Gt <-> sooner (places y) (places x)).
Proof. exact (cid_cmp_exact x y). Qed.
Print Assumptions C60_connection_order.
Example C60_connection_case :
  let x := mkCid (AddrV4 2130706433 80) 9 in let y := mkCid (AddrV4 2130706433 443) 1 in let z := mkCid (AddrV6 1 80 5 6) 0 in
  sooner (places x) (places y) /\ sooner (places y) (places z) /\ places z = places (mkCid (AddrV6 1 80 0 0) 0).
Proof.
  cbv zeta. split; [exists [4; 2130706433], 80, 443, [9], [1]; repeat split|]. split; [|reflexivity]. exists [], 4, 6, [2130706433; 443; 1], [1; 80; 0]. repeat split.
Qed.
