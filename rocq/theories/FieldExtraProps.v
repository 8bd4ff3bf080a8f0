(** * Properties C13 ([false]), C14 (the kind of refusals), C18 (duplicates beside unknown parameters). *)
From Verif Require Import Base Utf8 Decimal DepUrl Serde ScalarSpec PathSpec FieldSpec Procedure Msgpack SerPath SerQuery SerHeader SerRequest DePath DeQuery DeHeader DepHttp
  UrlProofs PathProofs PathTrip FieldProofs QueryProofs HeaderProofs FieldMore RequestSpec TypeSpec FieldExtra WrittenSpec WrittenTrip PathRefused Exhibit.
Open Scope N_scope.

(** ** C13: [false] arrives, whatever the other fields hold *)
Theorem C13_query_false_arrives (U : urlenv) (F : floatlib) n n' fs vs nm t v p x ws s' : NoDup (map fst fs) ->
  In (nm, t) fs -> In (nm, v) vs -> falsish t v ->
  incl (map fst vs) (map fst fs) -> wf_value (SStruct n vs) = true -> good_path p -> query_sent (SStruct n vs) p x ->
  de_query (TStruct n' fs) (qde_new (query_pairs x)) = Ok (SStruct n' ws, s') -> In (nm, v) ws.
Proof. exact (query_false_sent n n' fs vs nm t v p x ws s'). Qed.
Print Assumptions C13_query_false_arrives.

Theorem C13_header_false_arrives (F : floatlib) n n' fs vs nm t v len hs more ws s' : NoDup (map fst fs) ->
  In (nm, t) fs -> In (nm, v) vs -> falsish t v ->
  lower_name nm -> header_sent (SStruct n vs) len hs -> names_ok (hs ++ more) = true ->
  de_header (TStruct n' fs) (hde_new (hs ++ more)) = Ok (SStruct n' ws, s') -> In (nm, v) ws.
Proof. exact (header_false_sent n n' fs vs nm t v len hs more ws s'). Qed.
Print Assumptions C13_header_false_arrives.

Theorem C13_path_false_arrives (U : urlenv) (F : floatlib) ep vs ss segs ts i t v ws s' :
  plain_entry ep -> length ts = var_count ep ->
  all_some (map scalar_text vs) = Some ss -> Forall path_safe ss -> first_ok (fill ep ss) ->
  nth_error ts i = Some t -> nth_error vs i = Some v -> falsish t v -> path_sent ep (STuple vs) segs ->
  de_path (TTuple ts) (mkPde false segs ep (var_count ep)) = Ok (STuple ws, s') ->
  nth_error ws i = Some v.
Proof. exact (path_false_sent ep vs ss segs ts i t v ws s'). Qed.
Print Assumptions C13_path_false_arrives.

Example C13_false_case : let U := ex_url in let F := ex_float in
  let fs := [(u "a", TStr); (u "b", TOption TBool)] in
  let vs := [(u "a", SStr (u "x")); (u "b", SSome (SBool false))] in
  let ep := [Val (u "on"); Var; Var] in
  falsish (TOption TBool) (SSome (SBool false)) /\
  wf_value (SStruct (u "S") vs) = true /\
  (exists x, query_sent (SStruct (u "S") vs) [[]] x /\ u_query x = Some (u "a=x&b=false") /\
    res_map fst (de_query (TStruct (u "T") fs) (qde_new (query_pairs x))) = Ok (SStruct (u "T") vs)) /\
  (exists hs, header_sent (SStruct (u "S") vs) 3 hs /\ hs = [(u "a", u "x"); (u "b", u "false"); (u "Content-Length", u "3")] /\
    res_map fst (de_header (TStruct (u "T") fs) (hde_new (hs ++ [(u "Host", u "h")]))) = Ok (SStruct (u "T") vs)) /\
  falsish (TNewtype (u "Flag") TBool) (SNewtypeStruct (u "Flag") (SBool false)) /\
  path_sent ep (STuple [SNewtypeStruct (u "Flag") (SBool false); SStr (u "y")]) [u "on"; u "false"; u "y"] /\
  res_map fst (de_path (TTuple [TNewtype (u "Flag") TBool; TStr]) (mkPde false [u "on"; u "false"; u "y"] ep (var_count ep))) =
    Ok (STuple [SNewtypeStruct (u "Flag") (SBool false); SStr (u "y")]).
Proof.
  cbv zeta. split; [repeat constructor|]. split; [reflexivity|].
  split; [exists (mkUrl (Some [[]]) (Some (u "a=x&b=false"))); split; [sent | split; vm_compute; reflexivity]|].
  split; [eexists; split; [sent | split; vm_compute; reflexivity]|].
  split; [repeat constructor|]. split; [sent | vm_compute; reflexivity].
Qed.

(** ** C14: the refusals are [Invalid] wherever no self-describing type is around *)
Theorem C14_path_invalid (F : floatlib) ep segs ts t : forallb wf_ty ts = true ->
  In t ts -> (t = TChar \/ t = TUnit \/ (exists n vs, t = TEnum n vs) \/ (exists n, t = TNewtype n TChar)) ->
  de_path (TTuple ts) (mkPde false segs ep (var_count ep)) = Err Invalid.
Proof. exact (path_unreadable_kind ep segs ts t). Qed.
Print Assumptions C14_path_invalid.

Theorem C14_query_invalid (F : floatlib) n fs l nm t : wf_ty (TStruct n fs) = true -> In (nm, t) fs -> unreadable t ->
  de_query (TStruct n fs) (qde_new l) = Err Invalid.
Proof. exact (query_unreadable_kind n fs l nm t). Qed.
Print Assumptions C14_query_invalid.

Theorem C14_header_invalid (F : floatlib) n fs hs nm t : wf_ty (TStruct n fs) = true -> names_ok hs = true ->
  In (nm, t) fs -> unreadable t \/ t = TUnit ->
  de_header (TStruct n fs) (hde_new hs) = Err Invalid.
Proof. exact (header_unreadable_kind n fs hs nm t). Qed.
Print Assumptions C14_header_invalid.

(** A component of a path is never read as anything but a boolean, a number, a string, or a newtype of one of these. *)
Theorem C14_path_never_read (F : floatlib) ep segs ts t vs s' : In t ts -> never_in_path t ->
  de_path (TTuple ts) (mkPde false segs ep (var_count ep)) <> Ok (STuple vs, s').
Proof. exact (path_never ep segs ts t vs s'). Qed.
Print Assumptions C14_path_never_read.
Theorem C14_path_never_read_invalid (F : floatlib) ep segs ts t : forallb wf_ty ts = true -> In t ts -> never_in_path t ->
  de_path (TTuple ts) (mkPde false segs ep (var_count ep)) = Err Invalid.
Proof. exact (path_never_kind ep segs ts t). Qed.
Print Assumptions C14_path_never_read_invalid.

(** Characters and variants are written in queries and headers all the same. *)
Theorem C14_fields_written (F : floatlib) n vs len : (forall k v, In (k, v) vs -> (exists c, v = SChar c) \/ exists e x, v = SUnitVariant e x) ->
  (exists s, ser_query (SStruct n vs) qser_new = Ok s) /\ exists hs, header_sent (SStruct n vs) len hs /\ map fst hs = map (fun f => utf8_encode (fst f)) vs ++ [u "Content-Length"].
Proof. exact (fields_written_anyway n vs len). Qed.
Print Assumptions C14_fields_written.

Example C14_written_case : let vs := [(u "c", SChar 120); (u "e", SUnitVariant (u "E") (u "V"))] in
  (forall k v, In (k, v) vs -> (exists c, v = SChar c) \/ exists e x, v = SUnitVariant e x) /\
  never_in_path (TNewtype (u "N") (TOption TStr)) /\ never_in_path (TNewtype (u "N") (TNewtype (u "M") TChar)) /\ ~ never_in_path (TNewtype (u "N") TStr).
Proof.
  cbv zeta. split; [intros k v [E|[E|[]]]; injection E as <- <-; eauto|]. split; [apply NpNew, NpOption|]. split; [apply NpNew, NpNew, NpUnread, UnChar|].
  intros N. apply never_not_readable in N. discriminate.
Qed.

Example C14_invalid_case :
  wf_ty (TStruct (u "S") [(u "a", TStr); (u "c", TNewtype (u "N") TChar)]) = true /\ unreadable (TNewtype (u "N") TChar) /\
  forallb wf_ty [TStr; TEnum (u "E") [(u "V", VUnit)]] = true /\ names_ok [(u "Host", u "h")] = true.
Proof. repeat split; repeat constructor. Qed.

(** ** C18: duplicates as the decoder meets them *)
Theorem C18_query_duplicates_met_refused (F : floatlib) n fs l : NoDup (map fst fs) ->
  ~ NoDup (map fst (walk (map fst fs) (flat l))) ->
  exists e, de_query (TStruct n fs) (qde_new l) = Err e.
Proof. exact (query_twice_walk n fs l). Qed.
Print Assumptions C18_query_duplicates_met_refused.

(** A duplicate behind an unknown parameter can escape: the unknown parameter's value, if it is the name of a field, is taken for
    a key, and the key of the second occurrence for its value. *)
Theorem C18_query_duplicates_always_refused_refuted : exists (F : floatlib) n fs l k x y v,
  NoDup (map fst fs) /\ In k (map fst fs) /\ x <> y /\ In (k, x) l /\ In (k, y) l /\
  res_map fst (de_query (TStruct n fs) (qde_new l)) = Ok v.
Proof.
  exists ex_float, (u "S"), [(u "id", TInt U32); (u "q", TStr)], [(u "id", u "1"); (u "lang", u "q"); (u "id", u "2")], (u "id"), (u "1"), (u "2"),
    (SStruct (u "S") [(u "id", SInt U32 1); (u "q", SStr (u "id"))]).
  split; [repeat constructor; cbn; intros [E|[]] || intros []; discriminate|]. split; [left; reflexivity|]. split; [discriminate|].
  split; [left; reflexivity|]. split; [right; right; left; reflexivity|]. vm_compute. reflexivity.
Qed.
Print Assumptions C18_query_duplicates_always_refused_refuted.

Example C18_met_case : ~ NoDup (map fst (walk [u "id"; u "q"] (flat [(u "id", u "1"); (u "lang", u "en"); (u "id", u "2")]))).
Proof. intros N. change (NoDup [u "id"; u "id"]) in N. inversion N as [|a b Q _]. apply Q. left. reflexivity. Qed.
