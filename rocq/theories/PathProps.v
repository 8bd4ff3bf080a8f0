(** * Properties C01, C02, C04, C05, C06 and the path parts of C13-C15. *)
From Verif Require Import Base Utf8 Decimal DepUrl Serde Procedure Router RouterSpec ScalarSpec PathSpec SerPath DePath Msgpack
  UrlProofs PathProofs PathTrip WrittenSpec WrittenTrip IntTrip Exhibit.
Open Scope N_scope.

(** An entry point and a tuple type for the cases: "/users/<u32>/files/<string>". *)
Definition ex_ep : entry_point := [Val (u "users"); Var; Val (u "files"); Var].
Definition ex_ts : list ty := [TInt U32; TStr].
Definition ex_vs : list value := [SInt U32 7; SStr (u "a/b?%20.txt")].

(** ** C01 *)
Theorem C01_text_accepted_iff k s z : parse_int k s = Some z <-> int_text k s z.
Proof. exact (parse_int_spec k s z). Qed.
Print Assumptions C01_text_accepted_iff.

Theorem C01_written_text_is_read_back k z : in_range k z = true -> int_text k (show_int z) z.
Proof. intros R. exact (proj1 (parse_int_spec k (show_int z) z) (parse_show_int k z R)). Qed.
Print Assumptions C01_written_text_is_read_back.

Theorem C01_path (F : floatlib) ep segs k z :
  (exists s', de_path (TTuple [TInt k]) (mkPde false segs ep (var_count ep)) = Ok (STuple [SInt k z], s')) <->
  exists e s, var_texts ep segs 1 = Some [e] /\ unescapes e s /\ int_text k s z.
Proof. exact (de_int_iff ep segs k z). Qed.
Print Assumptions C01_path.

(** Integers that a client writes into a path are read back, at every width the other side may want. *)
Theorem C01_path_read_back (U : urlenv) (F : floatlib) ep kzs : plain_entry ep -> length kzs = var_count ep ->
  Forall (fun kz => in_range (fst kz) (snd kz) = true) kzs ->
  exists segs s', path_sent ep (STuple (map int_value kzs)) segs /\
    de_path (TTuple (map int_ty kzs)) (mkPde false segs ep (var_count ep)) = Ok (STuple (map int_value kzs), s').
Proof. exact (path_ints_trip ep kzs). Qed.
Print Assumptions C01_path_read_back.

Example C01_case :
  int_text I64 (show_int (-9223372036854775808)) (-9223372036854775808) /\
  parse_int I8 (u "128") = None /\ parse_int I8 (u "-128") = Some (-128)%Z /\ parse_int U8 (u "-0") = None /\
  parse_int U64 (u "18446744073709551616") = None /\ parse_int U16 (u "+00042") = Some 42%Z.
Proof. split; [apply parse_int_spec|]; vm_compute; auto. Qed.
Example C01_path_case : let U := ex_url in let F := ex_float in
  let ep := [Val (u "users"); Var; Var] in
  let kzs := [(U64, 18446744073709551615%Z); (I8, (-128)%Z)] in
  plain_entry ep /\ length kzs = var_count ep /\ Forall (fun kz => in_range (fst kz) (snd kz) = true) kzs /\
  path_sent ep (STuple (map int_value kzs)) [u "users"; u "18446744073709551615"; u "-128"] /\
  res_map fst (de_path (TTuple [TInt U64; TInt I8]) (mkPde false [u "users"; u "18446744073709551615"; u "-128"] ep 2)) = Ok (STuple [SInt U64 18446744073709551615; SInt I8 (-128)]) /\
  de_path (TTuple [TInt U64; TInt U8]) (mkPde false [u "users"; u "18446744073709551615"; u "-128"] ep 2) = Err Invalid.
Proof.
  cbv zeta. split; [apply plain_entryb_ok; reflexivity|]. split; [reflexivity|]. split; [repeat constructor|].
  split; [sent|]. split; vm_compute; reflexivity.
Qed.

(** ** C02 *)
Theorem C02_path_string_survives_iff (U : urlenv) (F : floatlib) pre post s :
  Forall plain_const pre -> Forall plain_const post -> str_ok s = true ->
  let ep := map Val pre ++ Var :: map Val post in
  (exists p s', ser_path ep (STuple [SStr s]) (pser_new ep [[]]) = Ok p /\
     de_path (TTuple [TStr]) (mkPde false (p_path p) ep (var_count ep)) = Ok (STuple [SStr s], s')) <->
  path_safe s /\ (s = [] -> pre = [] -> post = []).
Proof. exact (string_survives_full pre post s). Qed.
Print Assumptions C02_path_string_survives_iff.

Example C02_case : let U := ex_url in
  Forall plain_const [u "files"] /\ path_safe (u "a/../b?c=%41#\") /\
  ~ path_safe [233] /\ ~ path_safe (u ".." ) /\ ~ path_safe [97; 10].
Proof.
  cbv zeta. rewrite <- !path_safeb_spec. split; [constructor; [apply plain_constb_ok; reflexivity | constructor]|].
  vm_compute. repeat split; discriminate.
Qed.

(** ** C04 *)
Theorem C04_path_serialization (U : urlenv) (F : floatlib) ep v path :
  ser_path ep v (pser_new ep path) =
  match path_args v with
  | Some ts => if Nat.eqb (length ts) (var_count ep)
               then Ok (mkPser (fold_left push (fill ep ts) path) [] true)
               else Err Invalid
  | None => Err Invalid
  end.
Proof. exact (ser_path_spec ep v path). Qed.
Print Assumptions C04_path_serialization.

Example C04_case : let U := ex_url in let F := ex_float in
  path_args (STuple ex_vs) = Some [u "7"; u "a/b?%20.txt"] /\
  ser_path ex_ep (STuple ex_vs) (pser_new ex_ep [[]]) =
    Ok (mkPser [u "users"; u "7"; u "files"; u "a%2Fb%3F%2520.txt"] [] true) /\
  ser_path ex_ep (STuple [SInt U32 7]) (pser_new ex_ep [[]]) = Err Invalid /\
  ser_path ex_ep (SStr (u "x")) (pser_new ex_ep [[]]) = Err Invalid.
Proof. vm_compute. auto. Qed.

(** ** C05 *)
Theorem C05_path_decoding_never_panics (F : floatlib) ep segs t :
  safe (de_path t (mkPde false segs ep (var_count ep))).
Proof. exact (de_path_safe ep segs t). Qed.
Print Assumptions C05_path_decoding_never_panics.

(** A tuple is decoded exactly from the segments at the variables' positions, all earlier constants agreeing. *)
Theorem C05_tuple_iff (F : floatlib) ep segs ts vs :
  (exists s', de_path (TTuple ts) (mkPde false segs ep (var_count ep)) = Ok (STuple vs, s')) <->
  exists es, var_texts ep segs (length ts) = Some es /\ length vs = length ts /\
    forall i t e v, nth_error ts i = Some t -> nth_error es i = Some e -> nth_error vs i = Some v -> reads t e v.
Proof. exact (de_tuple_iff ep segs ts vs). Qed.
Print Assumptions C05_tuple_iff.

(** A [Vec] takes all variables and compares all constants. *)
Theorem C05_vec_iff (F : floatlib) ep segs t vs :
  (exists s', de_path (TSeq t) (mkPde false segs ep (var_count ep)) = Ok (SSeq vs, s')) <->
  exists es, whole_texts ep segs = Some es /\ Forall2 (reads t) es vs.
Proof. exact (de_vec_iff ep segs t vs). Qed.
Print Assumptions C05_vec_iff.

Example C05_case : let F := ex_float in
  var_texts ex_ep [u "users"; u "7"; u "files"; u "a%2Fb"] 2 = Some [u "7"; u "a%2Fb"] /\
  reads (TInt U32) (u "7") (SInt U32 7) /\ reads TStr (u "a%2Fb") (SStr (u "a/b")) /\
  (exists s', de_path (TTuple ex_ts) (mkPde false [u "users"; u "7"; u "files"; u "a%2Fb"] ex_ep 2) =
     Ok (STuple [SInt U32 7; SStr (u "a/b")], s')) /\
  de_path (TTuple ex_ts) (mkPde false [u "users"; u "7"; u "file"; u "a%2Fb"] ex_ep 2) = Err Invalid /\
  (exists s', de_path (TSeq TStr) (mkPde false [u "users"; u "7"; u "files"; u "b"] ex_ep 2) =
     Ok (SSeq [SStr (u "7"); SStr (u "b")], s')).
Proof.
  cbv zeta. split; [reflexivity|]. split; [|split; [|split; [|split]]].
  - exists (u "7"). split; [apply percent_decode_spec|]; vm_compute; reflexivity.
  - exists (u "a/b"). split; [apply percent_decode_spec|]; vm_compute; reflexivity.
  - eexists. vm_compute. reflexivity.
  - vm_compute. reflexivity.
  - eexists. vm_compute. reflexivity.
Qed.

(** The tuple decoder does not look at constants after the last variable (the router has done so). *)
Theorem C05_tuple_compares_all_constants_refuted :
  exists (F : floatlib) ep segs ts vs s',
    de_path (TTuple ts) (mkPde false segs ep (var_count ep)) = Ok (STuple vs, s') /\
    length ts = var_count ep /\ whole_texts ep segs = None.
Proof.
  exists ex_float, [Var; Val (u "a")], [u "x"; u "b"], [TStr], [SStr (u "x")]. eexists.
  split; [vm_compute; reflexivity|]. split; reflexivity.
Qed.
Print Assumptions C05_tuple_compares_all_constants_refuted.

(** ** C06 *)
Theorem C06_typed_path_round_trip (U : urlenv) (F : floatlib) ep t v ts vs ss :
  path_shape t v ts vs -> plain_entry ep -> Forall2 faithful ts vs -> length ts = var_count ep ->
  all_some (map scalar_text vs) = Some ss -> Forall path_safe ss -> first_ok (fill ep ss) ->
  exists p s', ser_path ep v (pser_new ep [[]]) = Ok p /\
    parse_url (url_text (p_path p) None) = Some (mkUrl (Some (p_path p)) None) /\
    de_path t (mkPde false (p_path p) ep (var_count ep)) = Ok (v, s').
Proof. exact (path_trip_url ep t v ts vs ss). Qed.
Print Assumptions C06_typed_path_round_trip.

(** More precisely: whatever the types on the two sides, each component's text is read by itself. *)
Theorem C06_each_component_by_itself (U : urlenv) (F : floatlib) ep ss ts vs :
  plain_entry ep -> length ss = var_count ep -> length ts = var_count ep ->
  Forall path_safe ss -> first_ok (fill ep ss) ->
  (exists s', de_path (TTuple ts) (mkPde false (fold_left push (fill ep ss) [[]]) ep (var_count ep)) = Ok (STuple vs, s')) <->
  length vs = length ts /\
  forall i t x v, nth_error ts i = Some t -> nth_error ss i = Some x -> nth_error vs i = Some v -> read_scalar t x = Some v.
Proof. exact (client_path_iff ep ss ts vs). Qed.
Print Assumptions C06_each_component_by_itself.

Lemma ex_plain : @plain_entry ex_url ex_ep.
Proof. apply plain_entryb_ok. reflexivity. Qed.

Example C06_case : let U := ex_url in let F := ex_float in
  path_shape (TTuple ex_ts) (STuple ex_vs) ex_ts ex_vs /\ plain_entry ex_ep /\ Forall2 faithful ex_ts ex_vs /\
  length ex_ts = var_count ex_ep /\
  all_some (map scalar_text ex_vs) = Some [u "7"; u "a/b?%20.txt"] /\
  Forall path_safe [u "7"; u "a/b?%20.txt"] /\ first_ok (fill ex_ep [u "7"; u "a/b?%20.txt"]).
Proof.
  cbv zeta. split; [constructor|]. split; [exact ex_plain|]. split; [|split; [|split; [|split]]].
  - repeat constructor.
  - reflexivity.
  - vm_compute. reflexivity.
  - repeat apply Forall_cons; try apply path_safeb_spec; try reflexivity. constructor.
  - exact I.
Qed.

(** ** C13, path part *)
Theorem C13_path_true_refused (U : urlenv) (F : floatlib) ep vs ss segs ts i t v ws s' :
  plain_entry ep -> length ts = var_count ep ->
  all_some (map scalar_text vs) = Some ss -> Forall path_safe ss -> first_ok (fill ep ss) ->
  nth_error ts i = Some t -> nth_error vs i = Some v -> boolish t v -> path_sent ep (STuple vs) segs ->
  de_path (TTuple ts) (mkPde false segs ep (var_count ep)) <> Ok (STuple ws, s').
Proof. exact (path_true_sent ep vs ss segs ts i t v ws s'). Qed.
Print Assumptions C13_path_true_refused.

Example C13_path_case : let U := ex_url in let F := ex_float in
  plain_entry ex_ep /\ all_some (map scalar_text [SNewtypeStruct (u "Flag") (SBool true); SStr (u "x")]) = Some [u "ture"; u "x"] /\
  Forall path_safe [u "ture"; u "x"] /\ first_ok (fill ex_ep [u "ture"; u "x"]) /\
  boolish (TNewtype (u "Flag") TBool) (SNewtypeStruct (u "Flag") (SBool true)) /\
  path_sent ex_ep (STuple [SNewtypeStruct (u "Flag") (SBool true); SStr (u "x")]) (fold_left push (fill ex_ep [u "ture"; u "x"]) [[]]) /\
  (* [false] travels: it is [faithful], so C06 applies *)
  faithful TBool (SBool false).
Proof.
  cbv zeta. split; [exact ex_plain|]. split; [reflexivity|]. split; [|split; [repeat constructor|]; split; [repeat constructor|]; split; [sent | repeat constructor]].
  repeat apply Forall_cons; try apply path_safeb_spec; try reflexivity. constructor.
Qed.

Theorem C13_path_true_round_trip_refuted :
  exists (U : urlenv) (F : floatlib) ep p,
    ser_path ep (STuple [SBool true]) (pser_new ep [[]]) = Ok p /\
    de_path (TTuple [TBool]) (mkPde false (p_path p) ep (var_count ep)) = Err Invalid.
Proof. exists ex_url, ex_float, [Val (u "flag"); Var]. eexists. split; vm_compute; reflexivity. Qed.
Print Assumptions C13_path_true_round_trip_refuted.

(** ** C14, path part *)
Theorem C14_path_refused (F : floatlib) ep segs ts t vs s' :
  In t ts -> (t = TChar \/ t = TUnit \/ (exists n vs, t = TEnum n vs) \/ (exists n, t = TNewtype n TChar)) ->
  de_path (TTuple ts) (mkPde false segs ep (var_count ep)) <> Ok (STuple vs, s').
Proof. exact (path_refused ep segs ts t vs s'). Qed.
Print Assumptions C14_path_refused.

(** The client writes them nevertheless: characters and unit variants as components, a unit as a whole path. *)
Theorem C14_path_written (U : urlenv) (F : floatlib) ep c e x :
  (var_count ep = 2%nat -> exists p, ser_path ep (STuple [SChar c; SUnitVariant e x]) (pser_new ep [[]]) = Ok p /\
     p_path p = fold_left push (fill ep [[c]; x]) [[]]) /\
  (var_count ep = 0%nat -> exists p, ser_path ep SUnit (pser_new ep [[]]) = Ok p /\
     forall segs, de_path TUnit (mkPde false segs ep (var_count ep)) = Err Invalid).
Proof. exact (path_written_anyway ep c e x). Qed.
Print Assumptions C14_path_written.

Example C14_path_case : let U := ex_url in let F := ex_float in
  exists p, ser_path ex_ep (STuple [SChar 120; SUnitVariant (u "E") (u "V")]) (pser_new ex_ep [[]]) = Ok p /\
  de_path (TTuple [TChar; TEnum (u "E") [(u "V", VUnit)]]) (mkPde false (p_path p) ex_ep 2) = Err Invalid.
Proof. eexists. split; vm_compute; reflexivity. Qed.

(** ** C15, path part *)
Theorem C15_path_msgpack_not_written (U : urlenv) (F : floatlib) ep packed vs1 vs2 path :
  ser_path ep (msgpack_value packed) (pser_new ep path) = Err Invalid /\
  ser_path ep (STuple (vs1 ++ msgpack_value packed :: vs2)) (pser_new ep path) = Err Invalid.
Proof. exact (path_msgpack_not_written ep packed vs1 vs2 path). Qed.
Print Assumptions C15_path_msgpack_not_written.

Theorem C15_path_msgpack_not_read (F : floatlib) ep segs ts vs s' :
  In msgpack_ty ts -> de_path (TTuple ts) (mkPde false segs ep (var_count ep)) <> Ok (STuple vs, s').
Proof. exact (path_msgpack_not_read ep segs ts vs s'). Qed.
Print Assumptions C15_path_msgpack_not_read.

Example C15_path_case : let F := ex_float in
  In msgpack_ty [TStr; msgpack_ty] /\
  de_path (TTuple [TStr; msgpack_ty]) (mkPde false [u "users"; u "7"; u "files"; u "1"] ex_ep 2) = Err Invalid.
Proof. split; [right; left; reflexivity | vm_compute; reflexivity]. Qed.
