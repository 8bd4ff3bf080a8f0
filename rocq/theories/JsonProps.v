(** * Property C46: JSON fields. *)
From Verif Require Import Base Utf8 Decimal DepUrl Serde Procedure ScalarSpec PathSpec FieldSpec FieldProofs SerPath SerQuery SerHeader SerRequest DePath DeQuery DeHeader DepHttp
  UrlProofs QueryProofs HeaderProofs Exhibit Json JsonText JsonSpec JsonProofs JsonDe JsonTrip JsonField JsonFieldProofs WrittenSpec WrittenTrip.
Open Scope N_scope.

(** Floats for the cases: natural numbers, printed "7.0". *)
Definition ex_jfloat : floatlib :=
  {| fshow := show_N; fparse64 := digits_val; fparse32 := digits_val; fwiden := fun x => x;
     f64_of_int := Z.to_N; f32_of_int := Z.to_N; fjson64 := fun x => show_N x ++ u ".0"; fjson32 := fun x => show_N x ++ u ".0"; fshow_ascii := show_N_ascii |}.
Definition ex_jparse (t : ustr) : option N := digits_val (firstn (length t - 2) t).
Definition ex_json : jsonfloat := {| jparse64 := ex_jparse; jparse32 := ex_jparse |}.
Lemma ex_float_ok x : float_text (show_N x ++ u ".0") /\ ex_jparse (show_N x ++ u ".0") = Some x.
Proof.
  split.
  - exists [], (show_N x), (u ".0"), []. rewrite app_nil_r. split; [reflexivity|]. split; [left; reflexivity|]. split; [apply show_N_int_part|]. split; [|split; [left; reflexivity|]].
    + right. exists [48]. split; [reflexivity|]. split; [discriminate | reflexivity].
    + intros [E _]. discriminate E.
  - unfold ex_jparse. rewrite app_length. cbn [length u]. change (length (u ".0")) with 2%nat. rewrite Nat.add_sub, firstn_app, Nat.sub_diag, firstn_all. cbn [firstn]. rewrite app_nil_r. apply show_N_digits.
Qed.

(** A type with everything in it, and a value. *)
Definition ex_jty : ty := TStruct (u "S")
  [(u "id", TInt I64); (u "tags", TSeq TStr); (u "w", TOption TF64); (u "no", TOption TBool); (u "m", TMap (TInt U8) (TTuple [TBool; TUnit]));
   (u "e", TEnum (u "E") [(u "A", VUnit); (u "B", VNewtype TChar); (u "C", VStruct [(u "x", TBytes)])])].
Definition ex_jval : value := SStruct (u "S")
  [(u "id", SInt I64 (-42)); (u "tags", SSeq [SStr (u "a" ++ [34; 92; 10; 8364]); SStr []]); (u "w", SSome (SF64 7)); (u "no", SNone);
   (u "m", SMap [(SInt U8 3, STuple [SBool true; SUnit]); (SInt U8 0, STuple [SBool false; SUnit])]);
   (u "e", SStructVariant (u "E") (u "C") [(u "x", SBytes [0; 255])])].
Definition ex_jtree : json := match @to_json ex_jfloat ex_jval with Ok j => j | _ => JNull end.

(** The text of a value, in either form, is decoded to the value. *)
Theorem C46_text_round_trip (F : floatlib) (J : jsonfloat) t v j : has_ty t v = true -> json_faithful v -> to_json v = Ok j -> (nesting j < 128)%nat ->
  (s <- to_json_string v ;; from_json_str t s) = Ok v /\ (s <- to_json_string_pretty v ;; from_json_str t s) = Ok v.
Proof. intros T Jf E D. unfold to_json_string, to_json_string_pretty. rewrite E. exact (json_text_trip t v j T Jf E D). Qed.
Print Assumptions C46_text_round_trip.

(** So is every other spelling of the same tree: white space, escapes. *)
Theorem C46_any_spelling (F : floatlib) (J : jsonfloat) t j x w w' : jtext j x -> ws w -> ws w' -> (nesting j < 128)%nat ->
  from_json_str t (w ++ x ++ w') = from_json t j.
Proof. intros X W W' D. unfold from_json_str. rewrite (parse_json_complete j x w w' X W W' D). reflexivity. Qed.
Print Assumptions C46_any_spelling.

(** Structs with JSON fields and other fields, in a query: [ws] is what the fields give the serializer ... *)
Theorem C46_query (U : urlenv) (F : floatlib) (J : jsonfloat) n fs vs p : NoDup (map fst fs) -> Forall (fun f => str_ok (fst f) = true) fs -> Forall2 (fits query_faithful) fs vs -> good_path p ->
  exists ws x s', Forall2 (fun f '(kv, kw) => field_value (fst (snd f)) (snd kv) = Ok (snd kw) /\ field_read (fst (snd f)) (snd (snd f)) (snd kw) = Ok (snd kv)) fs (combine vs ws) /\
    length ws = length vs /\ query_sent (SStruct n ws) p x /\ de_query (TStruct n (map wire_ty fs)) (qde_new (query_pairs x)) = Ok (SStruct n ws, s').
Proof. exact (query_json_sent n fs vs p). Qed.
Print Assumptions C46_query.

(** ... in a header section ... *)
Theorem C46_header (F : floatlib) (J : jsonfloat) n fs vs len : NoDup (map fst fs) -> Forall (fun f => lower_name (fst f) /\ fst f <> u "content-length") fs -> Forall2 (fits header_faithful) fs vs ->
  exists ws hs s', Forall2 (fun f '(kv, kw) => field_value (fst (snd f)) (snd kv) = Ok (snd kw) /\ field_read (fst (snd f)) (snd (snd f)) (snd kw) = Ok (snd kv)) fs (combine vs ws) /\
    length ws = length vs /\ header_sent (SStruct n ws) len hs /\ names_ok hs = true /\
    de_header (TStruct n (map wire_ty fs)) (hde_new hs) = Ok (SStruct n ws, s').
Proof. exact (header_json_sent n fs vs len). Qed.
Print Assumptions C46_header.

(** ... and as a path variable. *)
Theorem C46_path (U : urlenv) (F : floatlib) (J : jsonfloat) pre post c t v s : c <> Plain -> Forall plain_const pre -> Forall plain_const post -> carried c t v s ->
  let ep := map Val pre ++ Var :: map Val post in
  path_safe s ->
  exists p s' w, field_value c v = Ok w /\ ser_path ep (STuple [w]) (pser_new ep [[]]) = Ok p /\
    de_path (TTuple [field_ty c t]) (mkPde false (p_path p) ep (var_count ep)) = Ok (STuple [w], s') /\ field_read c t w = Ok v.
Proof. exact (path_json pre post c t v s). Qed.
Print Assumptions C46_path.

(** HTTP carries the compact text in a header unless it contains the character DEL ... *)
Theorem C46_compact_header_carried (F : floatlib) (J : jsonfloat) n t v s : carried AsJson t v s -> ~ In 127 s -> n <> [] -> forallb token_char n = true ->
  safe_header (n, utf8_encode s) = true.
Proof. exact (json_header_safe n t v s). Qed.
Print Assumptions C46_compact_header_carried.

(** ... but not the pretty text of a non-empty array or object, which has line breaks; nor can that be a path variable. *)
Theorem C46_pretty_header_not_carried n j : (exists x l, j = JArr (x :: l)) \/ (exists x l, j = JObj (x :: l)) -> safe_header (n, utf8_encode (print_pretty 0 j)) = false.
Proof. exact (pretty_not_in_header n j). Qed.
Print Assumptions C46_pretty_header_not_carried.
Theorem C46_pretty_path_unsafe (U : urlenv) j : (exists x l, j = JArr (x :: l)) \/ (exists x l, j = JObj (x :: l)) -> ~ path_safe (print_pretty 0 j).
Proof. exact (pretty_not_in_path j). Qed.
Print Assumptions C46_pretty_path_unsafe.

(** Reading JSON ends with a value or the error [Invalid] for every text. *)
Theorem C46_reading_total (J : jsonfloat) s : match parse_json s with Ok _ => True | Err k => k = Invalid | _ => False end.
Proof. exact (parse_json_total s). Qed.
Print Assumptions C46_reading_total.

Lemma ex_carried c : let F := ex_jfloat in let J := ex_json in carried c ex_jty ex_jval (match c with AsJsonPretty => print_pretty 0 ex_jtree | _ => print_json ex_jtree end).
Proof.
  cbv zeta. split; [vm_compute; reflexivity|]. split; [|split; [destruct c; vm_compute; reflexivity|]].
  - cbn [ex_jval json_faithful fold_right snd json_null]. pose proof (ex_float_ok 7) as [A B]. repeat split; auto.
  - exists ex_jtree. split; [vm_compute; reflexivity|]. split; [vm_compute; repeat constructor | reflexivity].
Qed.
Example C46_case : let F := ex_jfloat in let J := ex_json in
  print_json ex_jtree =
    u "{""id"":-42,""tags"":[""a\""\\\n" ++ [8364] ++ u """,""""],""w"":7.0,""no"":null,""m"":{""3"":[true,null],""0"":[false,null]},""e"":{""C"":{""x"":[0,255]}}}" /\
  from_json_str ex_jty (print_json ex_jtree) = Ok ex_jval /\
  from_json_str (TTuple [TStr; TF64]) (u " [ ""\u20aC\ud83d\uDE00\/"" ,1e2.0 ] ") = Err Invalid /\
  from_json_str (TTuple [TStr; TF64]) (u " [ ""\u20aC\ud83d\uDE00\/"" ,12.0 ] ") = Ok (STuple [SStr [8364; 128512; 47]; SF64 12]) /\
  Forall2 (fits query_faithful) [(u "q", (AsJson, ex_jty)); (u "n", (Plain, TInt U8)); (u "p", (AsJsonPretty, ex_jty))] [(u "q", ex_jval); (u "n", SInt U8 5); (u "p", ex_jval)] /\
  Forall2 (fits header_faithful) [(u "x-q", (AsJson, ex_jty))] [(u "x-q", ex_jval)] /\
  safe_header (u "x-q", utf8_encode (print_json ex_jtree)) = true /\
  (exists x l, ex_jtree = JObj (x :: l)) /\ safe_header (u "x-q", utf8_encode (print_pretty 0 ex_jtree)) = false.
Proof.
  cbv zeta. split; [vm_compute; reflexivity|]. split; [vm_compute; reflexivity|]. split; [vm_compute; reflexivity|]. split; [vm_compute; reflexivity|].
  split; [|split; [|split; [vm_compute; reflexivity|split; [eexists _, _; vm_compute; reflexivity | vm_compute; reflexivity]]]].
  - constructor; [split; [reflexivity | exists (print_json ex_jtree); apply (ex_carried AsJson)]|]. constructor; [split; [reflexivity | split; reflexivity]|].
    constructor; [split; [reflexivity | exists (print_pretty 0 ex_jtree); apply (ex_carried AsJsonPretty)] | constructor].
  - constructor; [split; [reflexivity | exists (print_json ex_jtree); apply (ex_carried AsJson)] | constructor].
Qed.
(** A path-safe one. *)
Example C46_path_case : let U := ex_url in let F := ex_jfloat in let J := ex_json in
  carried AsJson (TTuple [TInt I8; TStr]) (STuple [SInt I8 (-1); SStr (u "/%")]) (u "[-1,""/%""]") /\ path_safe (u "[-1,""/%""]").
Proof.
  cbv zeta. split.
  - split; [reflexivity|]. split; [repeat split|]. split; [reflexivity|]. exists (JArr [JInt (-1); JStr (u "/%")]). split; [reflexivity|]. split; [cbn; repeat constructor | vm_compute; reflexivity].
  - apply path_safeb_spec. reflexivity.
Qed.
