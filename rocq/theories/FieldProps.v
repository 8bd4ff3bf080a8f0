(** * Properties C01, C03, C07, C08, C13-C18, C47: queries and headers. *)
From Verif Require Import Base Utf8 Decimal DepUrl Serde ScalarSpec FieldSpec Msgpack SerQuery SerHeader SerRequest DeQuery DeHeader DepHttp
  UrlProofs FieldProofs QueryProofs HeaderProofs FieldMore RequestSpec WrittenSpec WrittenTrip IntTrip Exhibit.
Open Scope N_scope.

(** A struct type and values for the cases. *)
Definition ex_fs : list (ustr * ty) :=
  [(u "id", TInt U32); (u "name", TStr); (u "limit", TOption (TInt I8)); (u "deep", TNewtype (u "D") TBool)].
Definition ex_fv : list (ustr * value) :=
  [(u "id", SInt U32 7); (u "name", SStr (u "a b&c=" ++ [252])); (u "limit", SNone); (u "deep", SNewtypeStruct (u "D") (SBool false))].
Definition ex_nodup : NoDup (map fst ex_fs).
Proof. apply nodup_names_NoDup. reflexivity. Qed.

(** ** C01 *)
Theorem C01_query (F : floatlib) n nm k x z :
  (exists s', de_query (TStruct n [(nm, TInt k)]) (qde_new [(nm, x)]) = Ok (SStruct n [(nm, SInt k z)], s')) <-> int_text k x z.
Proof. exact (query_int_iff n nm k x z). Qed.
Print Assumptions C01_query.

Theorem C01_query_any_struct (F : floatlib) n fs l vs s' nm k : NoDup (map fst fs) -> In (nm, TInt k) fs ->
  de_query (TStruct n fs) (qde_new l) = Ok (SStruct n vs, s') ->
  exists x z, In (nm, x) (walk (map fst fs) (flat l)) /\ In (nm, SInt k z) vs /\ int_text k x z.
Proof. exact (query_int_field n fs l vs s' nm k). Qed.
Print Assumptions C01_query_any_struct.

Theorem C01_header (F : floatlib) n fs hs vs s' nm k : NoDup (map fst fs) -> names_ok hs = true -> In (nm, TInt k) fs ->
  de_header (TStruct n fs) (hde_new hs) = Ok (SStruct n vs, s') ->
  exists h s z, In h hs /\ lowercase (fst h) = nm /\ utf8_decode (snd h) = Some s /\ In (nm, SInt k z) vs /\ int_text k s z.
Proof. exact (header_int_field n fs hs vs s' nm k). Qed.
Print Assumptions C01_header.

(** Integers that one side writes into a query or into headers arrive, whatever the other fields hold. *)
Theorem C01_query_read_back (U : urlenv) (F : floatlib) n n' fs vs nm k z p x ws s' : NoDup (map fst fs) ->
  In (nm, TInt k) fs -> In (nm, SInt k z) vs -> in_range k z = true ->
  incl (map fst vs) (map fst fs) -> wf_value (SStruct n vs) = true -> good_path p -> query_sent (SStruct n vs) p x ->
  de_query (TStruct n' fs) (qde_new (query_pairs x)) = Ok (SStruct n' ws, s') -> In (nm, SInt k z) ws.
Proof. exact (query_int_arrives n n' fs vs nm k z p x ws s'). Qed.
Print Assumptions C01_query_read_back.

Theorem C01_header_read_back (F : floatlib) n n' fs vs nm k z len hs more ws s' : NoDup (map fst fs) ->
  In (nm, TInt k) fs -> In (nm, SInt k z) vs -> in_range k z = true ->
  lower_name nm -> header_sent (SStruct n vs) len hs -> names_ok (hs ++ more) = true ->
  de_header (TStruct n' fs) (hde_new (hs ++ more)) = Ok (SStruct n' ws, s') -> In (nm, SInt k z) ws.
Proof. exact (header_int_arrives n n' fs vs nm k z len hs more ws s'). Qed.
Print Assumptions C01_header_read_back.

Example C01_read_back_case : let U := ex_url in let F := ex_float in
  wf_value (SStruct (u "Q") ex_fv) = true /\ in_range U32 7 = true /\ good_path [[]] /\ lower_name (u "id") /\
  (exists x, query_sent (SStruct (u "Q") ex_fv) [[]] x /\
     res_map fst (de_query (TStruct (u "Q") ex_fs) (qde_new (query_pairs x))) = Ok (SStruct (u "Q") ex_fv)) /\
  (exists hs, header_sent (SStruct (u "Q") ex_fv) 3 hs /\ names_ok (hs ++ [(u "Host", u "h")]) = true /\
     res_map fst (de_header (TStruct (u "Q") ex_fs) (hde_new (hs ++ [(u "Host", u "h")]))) = Ok (SStruct (u "Q") ex_fv)).
Proof.
  cbv zeta. split; [reflexivity|]. split; [reflexivity|]. split; [apply good_root|]. split; [split; reflexivity|].
  split; [exists (mkUrl (Some [[]]) (Some (u "id=7&name=a+b%26c%3D%C3%BC&deep=false"))); split; [sent | vm_compute; reflexivity]|].
  exists [(u "id", u "7"); (u "name", u "a b&c=" ++ [195; 188]); (u "deep", u "false"); (u "Content-Length", u "3")].
  split; [sent|]. split; vm_compute; reflexivity.
Qed.

Example C01_fields_case : let F := ex_float in
  NoDup (map fst ex_fs) /\ In (u "id", TInt U32) ex_fs /\
  (exists vs s', de_query (TStruct (u "Q") ex_fs) (qde_new [(u "id", u "+042"); (u "name", []); (u "deep", u "true")]) = Ok (SStruct (u "Q") vs, s') /\
     In (u "id", SInt U32 42) vs) /\
  (exists vs s', de_header (TStruct (u "Q") ex_fs) (hde_new [(u "Id", u "42"); (u "name", []); (u "deep", u "true")]) = Ok (SStruct (u "Q") vs, s') /\
     In (u "id", SInt U32 42) vs) /\
  de_query (TStruct (u "Q") [(u "id", TInt U8)]) (qde_new [(u "id", u "256")]) = Err Invalid.
Proof.
  cbv zeta. split; [exact ex_nodup|]. split; [left; reflexivity|]. split; [|split].
  - do 2 eexists. split; [vm_compute; reflexivity | left; reflexivity].
  - do 2 eexists. split; [vm_compute; reflexivity | left; reflexivity].
  - vm_compute. reflexivity.
Qed.

(** ** C03 *)
Theorem C03_pairs_survive (U : urlenv) (F : floatlib) l p : pairs_ok l = true -> good_path p ->
  exists s, ser_query (SMap (map (fun kv => (SStr (fst kv), SStr (snd kv))) l)) qser_new = Ok s /\
    exists x, parse_url (url_text p (Some (qs_text s))) = Some x /\ query_pairs x = l /\ u_path x = Some p.
Proof. exact (query_through_url (SMap (map (fun kv => (SStr (fst kv), SStr (snd kv))) l)) l p (map_strings l)). Qed.
Print Assumptions C03_pairs_survive.

(** The same for everything that can be written as a query. *)
Theorem C03_written_pairs_survive (U : urlenv) (F : floatlib) v l p :
  query_written v = Some l -> pairs_ok l = true -> good_path p ->
  exists s, ser_query v qser_new = Ok s /\
    exists x, parse_url (url_text p (Some (qs_text s))) = Some x /\ query_pairs x = l /\ u_path x = Some p.
Proof. exact (query_through_url v l p). Qed.
Print Assumptions C03_written_pairs_survive.

Example C03_case : let U := ex_url in
  pairs_ok [([], []); (u "k&=+ %2B#", [8364; 0]); ([], [])] = true /\ good_path [[]].
Proof. split; [reflexivity | exact good_root]. Qed.

(** ** C07 *)
Theorem C07_query_round_trip (U : urlenv) (F : floatlib) n fs vs p : NoDup (map fst fs) -> Forall (fun f => str_ok (fst f) = true) fs ->
  Forall2 (fun f v => fst v = fst f /\ query_faithful (snd f) (snd v)) fs vs -> good_path p ->
  exists x s', query_sent (SStruct n vs) p x /\ de_query (TStruct n fs) (qde_new (query_pairs x)) = Ok (SStruct n vs, s').
Proof. exact (query_trip_sent n fs vs p). Qed.
Print Assumptions C07_query_round_trip.

Example C07_case : let U := ex_url in let F := ex_float in
  NoDup (map fst ex_fs) /\ Forall (fun f => str_ok (fst f) = true) ex_fs /\
  Forall2 (fun f v => fst v = fst f /\ query_faithful (snd f) (snd v)) ex_fs ex_fv /\ good_path [[]] /\
  query_sent (SStruct (u "Q") ex_fv) [[]] (mkUrl (Some [[]]) (Some (u "id=7&name=a+b%26c%3D%C3%BC&deep=false"))).
Proof. cbv zeta. split; [exact ex_nodup|]. split; [repeat constructor|]. split; [repeat constructor|]. split; [exact good_root|]. sent. Qed.

(** ** C08 *)
Theorem C08_header_round_trip (F : floatlib) n fs vs len : NoDup (map fst fs) ->
  Forall (fun f => lower_name (fst f) /\ fst f <> u "content-length") fs ->
  Forall2 (fun f v => fst v = fst f /\ header_faithful (snd f) (snd v)) fs vs ->
  exists hs s', header_sent (SStruct n vs) len hs /\ names_ok hs = true /\ de_header (TStruct n fs) (hde_new hs) = Ok (SStruct n vs, s').
Proof. exact (header_trip_sent n fs vs len). Qed.
Print Assumptions C08_header_round_trip.

(** Across the network, when HTTP can carry the header values. *)
Theorem C08_header_round_trip_http (F : floatlib) (H : httpenv) n fs vs len hs : NoDup (map fst fs) ->
  Forall (fun f => lower_name (fst f) /\ fst f <> u "content-length") fs ->
  Forall2 (fun f v => fst v = fst f /\ header_faithful (snd f) (snd v)) fs vs ->
  header_sent (SStruct n vs) len hs -> forallb safe_header hs = true ->
  exists hs' s', deliver hs = Some hs' /\ de_header (TStruct n fs) (hde_new hs') = Ok (SStruct n vs, s').
Proof. exact (header_trip_sent_http n fs vs len hs). Qed.
Print Assumptions C08_header_round_trip_http.

Example C08_case : let F := ex_float in
  NoDup (map fst ex_fs) /\ Forall (fun f => lower_name (fst f) /\ fst f <> u "content-length") ex_fs /\
  Forall2 (fun f v => fst v = fst f /\ header_faithful (snd f) (snd v)) ex_fs ex_fv /\
  exists hs, header_sent (SStruct (u "H") ex_fv) 12 hs /\ forallb safe_header hs = true.
Proof.
  cbv zeta. split; [exact ex_nodup|]. split; [|split].
  - repeat constructor; discriminate.
  - repeat constructor.
  - eexists. split; [sent | vm_compute; reflexivity].
Qed.

(** ** C13, query and header parts *)
Theorem C13_query_true_refused (U : urlenv) (F : floatlib) n n' fs vs nm t v p x : NoDup (map fst fs) ->
  In (nm, t) fs -> In (nm, v) vs -> boolish t v ->
  incl (map fst vs) (map fst fs) -> wf_value (SStruct n vs) = true -> good_path p -> query_sent (SStruct n vs) p x ->
  exists e, de_query (TStruct n' fs) (qde_new (query_pairs x)) = Err e.
Proof. exact (query_true_sent n n' fs vs nm t v p x). Qed.
Print Assumptions C13_query_true_refused.

Theorem C13_header_true_refused (F : floatlib) n n' fs vs nm t v len hs more : NoDup (map fst fs) ->
  In (nm, t) fs -> In (nm, v) vs -> boolish t v ->
  lower_name nm -> header_sent (SStruct n vs) len hs -> names_ok (hs ++ more) = true ->
  exists e, de_header (TStruct n' fs) (hde_new (hs ++ more)) = Err e.
Proof. exact (header_true_sent n n' fs vs nm t v len hs more). Qed.
Print Assumptions C13_header_true_refused.

Example C13_fields_case : let U := ex_url in let F := ex_float in
  let fs := [(u "a", TStr); (u "b", TOption TBool)] in
  let vs := [(u "a", SStr (u "x")); (u "b", SSome (SBool true))] in
  NoDup (map fst fs) /\ In (u "b", TOption TBool) fs /\ In (u "b", SSome (SBool true)) vs /\
  boolish (TOption TBool) (SSome (SBool true)) /\ incl (map fst vs) (map fst fs) /\ lower_name (u "b") /\
  wf_value (SStruct (u "S") vs) = true /\ query_sent (SStruct (u "S") vs) [[]] (mkUrl (Some [[]]) (Some (u "a=x&b=ture"))) /\
  header_sent (SStruct (u "S") vs) 12 [(u "a", u "x"); (u "b", u "ture"); (u "Content-Length", u "12")] /\
  names_ok ([(u "a", u "x"); (u "b", u "ture"); (u "Content-Length", u "12")] ++ [(u "Host", u "h")]) = true.
Proof.
  cbv zeta. split; [apply nodup_names_NoDup; reflexivity|]. split; [cbn; auto|]. split; [cbn; auto|].
  split; [repeat constructor|]. split; [intros x I; exact I|]. split; [split; reflexivity|]. split; [reflexivity|].
  split; [sent|]. split; [sent|]. reflexivity.
Qed.

(** ** C14, query and header parts *)
Theorem C14_query_refused (F : floatlib) n fs l nm t : NoDup (map fst fs) -> In (nm, t) fs -> unreadable t ->
  exists e, de_query (TStruct n fs) (qde_new l) = Err e.
Proof. exact (query_unreadable n fs l nm t). Qed.
Print Assumptions C14_query_refused.

Theorem C14_header_refused (F : floatlib) n fs hs nm t : NoDup (map fst fs) -> names_ok hs = true ->
  In (nm, t) fs -> unreadable t \/ t = TUnit ->
  exists e, de_header (TStruct n fs) (hde_new hs) = Err e.
Proof. exact (header_unreadable n fs hs nm t). Qed.
Print Assumptions C14_header_refused.

(** An optional field of such a type can only be absent. *)
Theorem C14_query_option_absent (F : floatlib) n fs l nm t vs s' : NoDup (map fst fs) -> In (nm, TOption t) fs -> unreadable t ->
  de_query (TStruct n fs) (qde_new l) = Ok (SStruct n vs, s') ->
  In (nm, SNone) vs /\ forall x, ~ In (nm, x) (walk (map fst fs) (flat l)).
Proof. exact (query_unreadable_option n fs l nm t vs s'). Qed.
Print Assumptions C14_query_option_absent.
Theorem C14_header_option_absent (F : floatlib) n fs hs nm t vs s' : NoDup (map fst fs) -> names_ok hs = true ->
  In (nm, TOption t) fs -> unreadable t ->
  de_header (TStruct n fs) (hde_new hs) = Ok (SStruct n vs, s') ->
  In (nm, SNone) vs /\ forall h, In h hs -> lowercase (fst h) <> nm.
Proof. exact (header_unreadable_option n fs hs nm t vs s'). Qed.
Print Assumptions C14_header_option_absent.

Example C14_fields_case : let F := ex_float in
  let fs := [(u "c", TChar); (u "o", TOption (TEnum (u "E") [(u "V", VUnit)]))] in
  let v := SStruct (u "S") [(u "c", SChar 120); (u "o", SSome (SUnitVariant (u "E") (u "V")))] in
  NoDup (map fst fs) /\ unreadable TChar /\ unreadable (TEnum (u "E") [(u "V", VUnit)]) /\
  query_written v = Some [(u "c", u "x"); (u "o", u "V")] /\ header_written v = Some [(u "c", u "x"); (u "o", u "V")] /\
  (exists s', de_query (TStruct (u "S") (skipn 1 fs)) (qde_new []) = Ok (SStruct (u "S") [(u "o", SNone)], s')).
Proof.
  cbv zeta. split; [apply nodup_names_NoDup; reflexivity|]. split; [constructor|]. split; [constructor|].
  split; [reflexivity|]. split; [reflexivity|]. eexists. vm_compute. reflexivity.
Qed.

(** ** C15, query and header parts *)
Theorem C15_query_msgpack_not_written (F : floatlib) n vs nm packed : In (nm, msgpack_value packed) vs ->
  ser_query (SStruct n vs) qser_new = Err Invalid /\ ser_query (msgpack_value packed) qser_new = Err Invalid.
Proof. exact (query_msgpack_not_written n vs nm packed). Qed.
Print Assumptions C15_query_msgpack_not_written.
Theorem C15_header_msgpack_not_written (F : floatlib) n vs nm packed hs : In (nm, msgpack_value packed) vs ->
  ser_header (SStruct n vs) (hser_new hs) = Err Invalid /\ ser_header (msgpack_value packed) (hser_new hs) = Err Invalid.
Proof. exact (header_msgpack_not_written n vs nm packed hs). Qed.
Print Assumptions C15_header_msgpack_not_written.
Theorem C15_query_msgpack_not_read (F : floatlib) n fs l nm : NoDup (map fst fs) -> In (nm, msgpack_ty) fs ->
  exists e, de_query (TStruct n fs) (qde_new l) = Err e.
Proof. exact (fun N I => query_unreadable n fs l nm _ N I (UnSeq _)). Qed.
Print Assumptions C15_query_msgpack_not_read.
Theorem C15_header_msgpack_not_read (F : floatlib) n fs hs nm : NoDup (map fst fs) -> names_ok hs = true -> In (nm, msgpack_ty) fs ->
  exists e, de_header (TStruct n fs) (hde_new hs) = Err e.
Proof. exact (fun N O I => header_unreadable n fs hs nm _ N O I (or_introl (UnSeq _))). Qed.
Print Assumptions C15_header_msgpack_not_read.

Example C15_fields_case : let F := ex_float in
  In (u "m", msgpack_value [147; 1; 2; 3]) [(u "a", SStr (u "x")); (u "m", msgpack_value [147; 1; 2; 3])] /\
  In (u "m", msgpack_ty) [(u "m", msgpack_ty)] /\
  de_query (TStruct (u "S") [(u "m", msgpack_ty)]) (qde_new [(u "m", u "1")]) = Err Invalid.
Proof. cbv zeta. split; [cbn; auto|]. split; [cbn; auto | vm_compute; reflexivity]. Qed.

(** ** C16 *)
Theorem C16_decoding_iff (F : floatlib) n fs l vs : NoDup (map fst fs) ->
  (exists s', de_query (TStruct n fs) (qde_new l) = Ok (SStruct n vs, s')) <->
  filled query_read fs (walk (map fst fs) (flat l)) vs.
Proof. exact (de_query_struct n fs l vs). Qed.
Print Assumptions C16_decoding_iff.

Theorem C16_unknown_last_ignored (F : floatlib) n fs l k x :
  (forall k' v, In (k', v) l -> In k' (map fst fs)) -> ~ In k (map fst fs) ->
  res_map fst (de_query (TStruct n fs) (qde_new (l ++ [(k, x)]))) = res_map fst (de_query (TStruct n fs) (qde_new l)).
Proof. exact (query_unknown_last n fs l k x). Qed.
Print Assumptions C16_unknown_last_ignored.

(** The value [nm] of an unknown parameter is taken for a key, and the next key [k2] for its value. *)
Theorem C16_unknown_value_becomes_key (F : floatlib) n fs l1 k nm k2 x2 l2 vs : NoDup (map fst fs) ->
  (forall k' v, In (k', v) l1 -> In k' (map fst fs)) -> ~ In k (map fst fs) -> In nm (map fst fs) ->
  (exists s', de_query (TStruct n fs) (qde_new (l1 ++ (k, nm) :: (k2, x2) :: l2)) = Ok (SStruct n vs, s')) <->
  filled query_read fs (l1 ++ (nm, k2) :: walk (map fst fs) (x2 :: flat l2)) vs.
Proof. exact (query_unknown_shifts n fs l1 k nm k2 x2 l2 vs). Qed.
Print Assumptions C16_unknown_value_becomes_key.

Theorem C16_unknown_ignored_anywhere_refuted :
  exists (F : floatlib) n fs l k x l2 vs vs' s s', NoDup (map fst fs) /\ ~ In k (map fst fs) /\
    de_query (TStruct n fs) (qde_new (l ++ l2)) = Ok (SStruct n vs, s) /\
    de_query (TStruct n fs) (qde_new (l ++ (k, x) :: l2)) = Ok (SStruct n vs', s') /\ vs <> vs'.
Proof.
  exists ex_float, (u "Q"), [(u "name", TStr)], [], (u "sort"), (u "name"), [(u "name", u "x")],
    [(u "name", SStr (u "x"))], [(u "name", SStr (u "name"))]. do 2 eexists.
  split; [apply nodup_names_NoDup; reflexivity|]. split; [intros [E|[]]; discriminate E|].
  split; [vm_compute; reflexivity|]. split; [vm_compute; reflexivity | discriminate].
Qed.
Print Assumptions C16_unknown_ignored_anywhere_refuted.

(** Nor can it fail only in the way of the extended query: a decodable query can become undecodable. *)
Theorem C16_unknown_never_hurts_refuted :
  exists (F : floatlib) n fs k x l2 vs s, NoDup (map fst fs) /\ ~ In k (map fst fs) /\
    de_query (TStruct n fs) (qde_new l2) = Ok (SStruct n vs, s) /\
    de_query (TStruct n fs) (qde_new ((k, x) :: l2)) = Err Invalid.
Proof.
  exists ex_float, (u "Q"), [(u "id", TInt U8)], (u "sort"), (u "id"), [(u "id", u "1")], [(u "id", SInt U8 1)]. eexists.
  split; [apply nodup_names_NoDup; reflexivity|]. split; [intros [E|[]]; discriminate E|].
  split; vm_compute; reflexivity.
Qed.
Print Assumptions C16_unknown_never_hurts_refuted.

Example C16_case : let F := ex_float in
  (forall k' v, In (k', v) [(u "id", u "1"); (u "name", u "x")] -> In k' (map fst ex_fs)) /\ ~ In (u "page") (map fst ex_fs) /\
  In (u "name") (map fst ex_fs).
Proof.
  cbv zeta. split; [intros k' v [[= <- _]|[[= <- _]|[]]]; cbn; auto|].
  split; [|cbn; auto]. cbn. intros [E|[E|[E|[E|[]]]]]; discriminate E.
Qed.

(** ** C17 *)
Theorem C17_unknown_headers_ignored (F : floatlib) n fs hs hs' : with_extra (map fst fs) hs hs' ->
  names_ok hs = true -> names_ok hs' = true ->
  res_map fst (de_header (TStruct n fs) (hde_new hs')) = res_map fst (de_header (TStruct n fs) (hde_new hs)).
Proof. exact (fun W O O' => de_header_same n fs hs' hs O' O (with_extra_relevant _ _ _ W)). Qed.
Print Assumptions C17_unknown_headers_ignored.

(** Exactly: a struct is decoded from the headers that bear its names, and nothing else. *)
Theorem C17_decoding_iff (F : floatlib) n fs hs vs : NoDup (map fst fs) -> names_ok hs = true ->
  (exists s', de_header (TStruct n fs) (hde_new hs) = Ok (SStruct n vs, s')) <->
  filled header_read fs (relevant (map fst fs) hs) vs.
Proof. exact (de_header_struct n fs hs vs). Qed.
Print Assumptions C17_decoding_iff.

Example C17_case :
  with_extra (map fst ex_fs) [(u "ID", u "1"); (u "Name", u "x")] [(u "Host", u "h"); (u "ID", u "1"); (u "X", []); (u "Name", u "x"); (u "Host", u "i")] /\
  names_ok [(u "Host", u "h"); (u "ID", u "1"); (u "X", []); (u "Name", u "x"); (u "Host", u "i")] = true.
Proof.
  split; [|reflexivity].
  repeat first [apply WENil | apply WEKeep | apply WEExtra; [vm_compute; intros [E|[E|[E|[E|[]]]]]; discriminate E|]].
Qed.

(** ** C18 *)
Theorem C18_query_duplicates_refused (F : floatlib) n fs l1 l2 l3 k x y : NoDup (map fst fs) ->
  (forall k' v, In (k', v) (l1 ++ (k, x) :: l2 ++ (k, y) :: l3) -> In k' (map fst fs)) ->
  exists e, de_query (TStruct n fs) (qde_new (l1 ++ (k, x) :: l2 ++ (k, y) :: l3)) = Err e.
Proof. exact (query_twice n fs l1 l2 l3 k x y). Qed.
Print Assumptions C18_query_duplicates_refused.
Theorem C18_header_duplicates_refused (F : floatlib) n fs hs1 hs2 hs3 a b : NoDup (map fst fs) ->
  names_ok (hs1 ++ a :: hs2 ++ b :: hs3) = true ->
  lowercase (fst a) = lowercase (fst b) -> In (lowercase (fst a)) (map fst fs) ->
  exists e, de_header (TStruct n fs) (hde_new (hs1 ++ a :: hs2 ++ b :: hs3)) = Err e.
Proof. exact (header_twice n fs hs1 hs2 hs3 a b). Qed.
Print Assumptions C18_header_duplicates_refused.

Example C18_case : let F := ex_float in
  (forall k' v, In (k', v) ([] ++ (u "name", u "x") :: [(u "id", u "1")] ++ (u "name", u "x") :: []) -> In k' (map fst ex_fs)) /\
  names_ok ([(u "Host", u "h")] ++ (u "NAME", u "x") :: [(u "id", u "1")] ++ (u "name", u "x") :: []) = true /\
  lowercase (u "NAME") = lowercase (u "name") /\ In (lowercase (u "NAME")) (map fst ex_fs).
Proof.
  cbv zeta. split; [intros k' v [[= <- _]|[[= <- _]|[[= <- _]|[]]]]; cbn; auto|]. split; [reflexivity|].
  split; [reflexivity | vm_compute; auto].
Qed.

(** ** C47 *)
Theorem C47_case_insensitive (F : floatlib) hs hs' t : Forall2 same_header hs hs' -> names_ok hs = true ->
  res_map fst (de_header t (hde_new hs)) = res_map fst (de_header t (hde_new hs')).
Proof. exact (fun S O => header_case hs hs' S O t). Qed.
Print Assumptions C47_case_insensitive.

Theorem C47_upper_case_field_never_filled (F : floatlib) n fs hs vs s' nm t c : NoDup (map fst fs) -> names_ok hs = true ->
  In (nm, t) fs -> In c nm -> 65 <= c <= 90 ->
  de_header (TStruct n fs) (hde_new hs) = Ok (SStruct n vs, s') -> In (nm, SNone) vs /\ exists t', t = TOption t'.
Proof. exact (upper_never n fs hs vs s' nm t c). Qed.
Print Assumptions C47_upper_case_field_never_filled.

Example C47_case : let F := ex_float in
  Forall2 same_header [(u "Content-TYPE", u "x")] [(u "content-Type", u "x")] /\
  names_ok [(u "Content-TYPE", u "x")] = true /\
  (exists s', de_header (TStruct (u "H") [(u "Host", TOption TStr)]) (hde_new [(u "Host", u "h")]) =
     Ok (SStruct (u "H") [(u "Host", SNone)], s')) /\ In 72 (u "Host") /\
  de_header (TStruct (u "H") [(u "Host", TStr)]) (hde_new [(u "Host", u "h")]) = Err Invalid.
Proof.
  cbv zeta. split; [|split; [reflexivity|split; [eexists; vm_compute; reflexivity|split; [left; reflexivity | vm_compute; reflexivity]]]].
  constructor; [|constructor]. split; [|reflexivity]. cbn [fst u].
  repeat first [apply Forall2_nil | apply Forall2_cons; [unfold same_letter; vm_compute; intuition congruence|]].
Qed.
