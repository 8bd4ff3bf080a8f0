(** * Property C64: maps as queries and headers. *)
From Verif Require Import Base Utf8 Decimal DepUrl Serde ScalarSpec FieldSpec SerQuery SerHeader SerRequest DeQuery DeHeader DepHttp
  UrlProofs FieldProofs QueryProofs HeaderProofs RequestArrives MapSpec MapTrip WrittenSpec WrittenTrip Exhibit.
Open Scope N_scope.

(** A map as a query comes back without the entries whose value is absent. *)
Theorem C64_query_map (U : urlenv) (F : floatlib) tk tv kvs p : NoDup (map fst kvs) ->
  Forall (fun kv => entry_faithful tk (fst kv) /\ query_faithful tv (snd kv)) kvs -> good_path p ->
  exists x s', query_sent (SMap kvs) p x /\ de_query (TMap tk tv) (qde_new (query_pairs x)) = Ok (SMap (present kvs), s').
Proof. exact (query_map_sent tk tv kvs p). Qed.
Print Assumptions C64_query_map.

(** So exactly the maps without absent values come back as they were. *)
Theorem C64_query_map_same_iff (U : urlenv) (F : floatlib) tk tv kvs p x : NoDup (map fst kvs) ->
  Forall (fun kv => entry_faithful tk (fst kv) /\ query_faithful tv (snd kv)) kvs -> good_path p -> query_sent (SMap kvs) p x ->
  ((exists s', de_query (TMap tk tv) (qde_new (query_pairs x)) = Ok (SMap kvs, s')) <-> Forall (fun kv => snd kv <> SNone) kvs).
Proof. exact (query_map_sent_same_iff tk tv kvs p x). Qed.
Print Assumptions C64_query_map_same_iff.

(** Everything written as a whole comes back: structs, maps, and options and newtypes of them. *)
Theorem C64_query_whole (U : urlenv) (F : floatlib) t v p : query_whole t v -> good_path p ->
  exists x s', query_sent v p x /\ de_query t (qde_new (query_pairs x)) = Ok (v, s').
Proof. exact (query_whole_sent t v p). Qed.
Print Assumptions C64_query_whole.
Theorem C64_header_whole (F : floatlib) t v len : header_whole t v ->
  exists hs s', header_sent v len hs /\ names_ok hs = true /\ de_header t (hde_new hs) = Ok (v, s').
Proof. exact (header_whole_sent t v len). Qed.
Print Assumptions C64_header_whole.

(** A map as the headers, with names in lower case, comes back with one more entry, that of the body's length; and if
    numbers are no values of that map, the message is refused. *)
Theorem C64_header_map (F : floatlib) tk tv kvs len : NoDup (map fst kvs) ->
  Forall (fun kv => header_entry_faithful tk (fst kv) /\ header_faithful tv (snd kv) /\
    exists k, cell header_leaf (fst kv) = Some (Some k) /\ lower_name k) kvs ->
  exists hs, header_sent (SMap kvs) len hs /\ names_ok hs = true /\
    forall kc, header_read tk (u "content-length") = Ok kc -> ~ In kc (map fst kvs) ->
    (forall vc, header_read tv (show_N len) = Ok vc ->
      exists s', de_header (TMap tk tv) (hde_new hs) = Ok (SMap (present kvs ++ [(kc, vc)]), s')) /\
    (forall e, header_read tv (show_N len) = Err e -> de_header (TMap tk tv) (hde_new hs) = Err e).
Proof. exact (header_map_sent tk tv kvs len). Qed.
Print Assumptions C64_header_map.

Theorem C64_header_map_never_same (F : floatlib) tk tv kvs len hs s' : header_sent (SMap kvs) len hs ->
  (forall kc, header_read tk (u "content-length") = Ok kc -> ~ In kc (map fst kvs)) ->
  de_header (TMap tk tv) (hde_new hs) <> Ok (SMap kvs, s').
Proof. exact (header_map_sent_never tk tv kvs len hs s'). Qed.
Print Assumptions C64_header_map_never_same.

(** A map with two keys that differ only in case loses one of them. *)
Theorem C64_header_names_merge_refuted : exists (F : floatlib) kvs hs m s', NoDup (map fst kvs) /\ header_sent (SMap kvs) 0 hs /\
  de_header (TMap TStr TStr) (hde_new hs) = Ok (SMap m, s') /\ length kvs = 2%nat /\
  m = [(SStr (u "a"), SStr (u "2")); (SStr (u "content-length"), SStr (u "0"))].
Proof.
  exists ex_float, [(SStr (u "a"), SStr (u "1")); (SStr (u "A"), SStr (u "2"))]. do 3 eexists.
  split; [repeat constructor; [intros [E|[]]; discriminate E | intros []]|]. split; [sent|]. split; [vm_compute; reflexivity|]. split; reflexivity.
Qed.
Print Assumptions C64_header_names_merge_refuted.

Definition ex_map : list (value * value) :=
  [(SInt U8 3, SSome (SStr (u "a b"))); (SInt U8 1, SNone); (SInt U8 2, SSome (SStr []))].
Definition ex_hmap : list (value * value) :=
  [(SStr (u "x-a"), SSome (SInt U16 7)); (SStr (u "x-b"), SNone)].
Example C64_case : let U := ex_url in let F := ex_float in
  NoDup (map fst ex_map) /\ Forall (fun kv => entry_faithful (TInt U8) (fst kv) /\ query_faithful (TOption TStr) (snd kv)) ex_map /\
  query_sent (SMap ex_map) [[]] (mkUrl (Some [[]]) (Some (u "3=a+b&2="))) /\
  present ex_map = [(SInt U8 3, SSome (SStr (u "a b"))); (SInt U8 2, SSome (SStr []))] /\
  query_whole (TNewtype (u "Q") (TOption (TMap (TInt U8) (TOption TStr)))) (SNewtypeStruct (u "Q") (SSome (SMap (present ex_map)))) /\
  query_fits (Some (TMap (TInt U8) (TOption TStr), SMap (present ex_map))) /\
  NoDup (map fst ex_hmap) /\
  Forall (fun kv => header_entry_faithful TStr (fst kv) /\ header_faithful (TOption (TInt U16)) (snd kv) /\
    exists k, cell header_leaf (fst kv) = Some (Some k) /\ lower_name k) ex_hmap /\
  header_read TStr (u "content-length") = Ok (SStr (u "content-length")) /\ ~ In (SStr (u "content-length")) (map fst ex_hmap) /\
  header_read (TOption (TInt U16)) (show_N 12) = Ok (SSome (SInt U16 12)) /\ header_read (TOption (TInt U16)) (show_N 70000) = Err Invalid /\
  header_sent (SMap ex_hmap) 12 [(u "x-a", u "7"); (u "Content-Length", u "12")].
Proof.
  cbv zeta.
  assert (N : NoDup (map fst ex_map)) by (repeat constructor; cbn; intuition discriminate).
  assert (N2 : NoDup (map fst (present ex_map))) by (repeat constructor; cbn; intuition discriminate).
  assert (W : query_whole (H := ex_float) (TMap (TInt U8) (TOption TStr)) (SMap (present ex_map))) by (constructor; [exact N2 | repeat constructor]).
  split; [exact N|]. split; [repeat constructor|]. split; [sent|]. split; [reflexivity|].
  split; [apply QwNewtype, QwOption, W|]. split; [exact W|].
  split; [repeat constructor; cbn; intuition discriminate|].
  split; [constructor; [|constructor; [|constructor]]; (split; [reflexivity|]; split; [cbn; auto|]; eexists; split; [reflexivity | split; reflexivity])|].
  split; [reflexivity|]. split; [cbn; intuition discriminate|]. split; [vm_compute; reflexivity|]. split; [vm_compute; reflexivity|]. sent.
Qed.
