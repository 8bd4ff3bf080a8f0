(** * Property C82: messages between old and new versions of a type. *)
From Coq Require Import Sorting.Permutation.
From Verif Require Import Base Utf8 Decimal DepUrl Serde Status Procedure SerHeader SerRequest DePath DeQuery DeHeader DeRequest DeResponse DepHttp Router RouterSpec RouterProofs UrlProofs PathProofs PathTrip.
From Verif Require Import ScalarSpec PathSpec FieldSpec DecodeSpec TypeSpec HeaderProofs DecodeExact RequestSpec RequestArrives MapSpec FieldProofs GrowSpec Grow.
From Verif Require Import Exhibit PathProps FieldProps RequestProps ResponseProps TypeProps.
Open Scope N_scope.

(** What an old type reads from a request a newer one reads too: the same, with its new fields absent; if the old type knows all parameters of
    the query and no header has the name of a new field. *)
Theorem C82_new_server (F : floatlib) ep x hs old newq newh t t' v : newer_request old newq newh t t' ->
  names_ok hs = true -> wf_ty t = true -> wf_ty t' = true ->
  (forall p, In p (query_pairs x) -> In (fst p) old) -> (forall h, In h hs -> ~ In (lowercase (fst h)) newh) ->
  de_request ep x hs t = Ok v -> exists v', de_request ep x hs t' = Ok v' /\ keeps v v'.
Proof.
  intros N O W W' Q H R. apply (request_exact ep x hs O t W) in R. destruct (request_newer ep x hs old newq newh t t' N W' Q H v R) as (v' & M & K).
  exists v'. split; [apply (request_exact ep x hs O t' W'), M | exact K].
Qed.
Print Assumptions C82_new_server.
(** So an old client's call arrives at a handler of the newer type, saying the same. *)
Theorem C82_old_client (U : urlenv) (F : floatlib) (W : httpenv) (H : Type) (gs : list (method * entry_point * H)) m ep h n p q hd ss l len old newq newh t' :
  In (m, ep, h) (accepted gs) -> unshadowed (accepted gs) ep (map enc (fill ep ss)) ->
  plain_entry ep -> ep <> [] -> path_fits ep p ss -> Forall path_safe ss -> first_ok (fill ep ss) -> query_fits q -> (p = None -> q = None) ->
  header_fits hd l -> forallb safe_header (l ++ [length_header len]) = true ->
  newer_request old newq newh (TStruct n (typed_parts p q hd)) t' -> wf_ty (TStruct n (typed_parts p q hd)) = true -> wf_ty t' = true ->
  (forall t w ps, q = Some (t, w) -> query_written w = Some ps -> incl (map fst ps) old) ->
  (forall k, In k (map fst (l ++ [length_header len])) -> ~ In (lowercase k) newh) ->
  exists r x hs v', encode_request ep (SStruct n (value_parts p q hd)) len = Ok r /\
    deliver (rb_headers r) = Some hs /\ parse_url (rb_target r) = Some x /\ route (build gs) m (u_path x) = Ok (inl h) /\
    de_request ep x hs t' = Ok v' /\ keeps (SStruct n (value_parts p q hd)) v'.
Proof.
  intros I Un Pe Ne Pf Ps Fo Qf Pq Hf Sh N Wt Wt' Kq Kh.
  destruct (request_arrives_as H gs m ep h n p q hd ss l len I Un Pe Ne Pf Ps Fo Qf Pq Hf Sh) as (r & x & hs & En & De & Pu & Ro & Dr & Eh & Eq).
  assert (O : names_ok hs = true) by (rewrite Eh; apply safe_names_ok, Sh).
  destruct (C82_new_server F ep x hs old newq newh _ t' (SStruct n (value_parts p q hd)) N O Wt Wt') as (v' & Dv & K); [| |exact Dr|].
  - intros pr J. destruct q as [[t w]|]; [|rewrite Eq in J; contradiction]. apply (Kq t w _ eq_refl Eq), in_map, J.
  - intros hh J. apply Kh. rewrite Eh in J. exact (in_map fst _ _ J).
  - exists r, x, hs, v'. auto 8.
Qed.
Print Assumptions C82_old_client.
(** Likewise a newer client reads the responses of an old server; its type may have further variants. *)
Theorem C82_new_client (F : floatlib) code hs new t t' v : newer_response new t t' -> names_ok hs = true -> wf_ty t = true -> wf_ty t' = true ->
  (forall h, In h hs -> ~ In (lowercase (fst h)) new) -> de_response code hs t = Ok v -> exists v', de_response code hs t' = Ok v' /\ keeps v v'.
Proof.
  intros N O W W' H R. apply (response_exact code hs O t W) in R. destruct (response_newer code hs _ new H t t' N W' false v R) as (v' & M & K).
  exists v'. split; [apply (response_exact code hs O t' W'), M | exact K].
Qed.
Print Assumptions C82_new_client.

(** The other way round: an old type reads its fields from headers written for a newer one ... *)
Theorem C82_old_reader_headers (F : floatlib) n n' fs fs' hs vs' : NoDup (map fst fs) -> NoDup (map fst fs') -> incl fs fs' -> names_ok hs = true ->
  (exists s, de_header (TStruct n' fs') (hde_new hs) = Ok (SStruct n' vs', s)) ->
  exists vs, (exists s, de_header (TStruct n fs) (hde_new hs) = Ok (SStruct n vs, s)) /\ map fst vs = map fst fs /\ incl vs vs'.
Proof. exact (header_subset n n' fs fs' hs vs'). Qed.
Print Assumptions C82_old_reader_headers.
(** ... but a response whose variant it does not have it refuses ... *)
Theorem C82_old_client_variant (F : floatlib) code hs n vs x : names_ok hs = true -> wf_ty (TEnum n vs) = true ->
  status_code_to_str code = Ok x -> assoc x vs = None -> de_response code hs (TEnum n vs) = Err Invalid.
Proof. exact (variant_unknown code hs n vs x). Qed.
Print Assumptions C82_old_client_variant.
(** ... and new parameters of a query are harmless to it exactly if they come last and none of their values, but for the very last, is the name
    of an old field. *)
Theorem C82_old_server_query (F : floatlib) n fs l more vs : NoDup (map fst fs) ->
  (forall p, In p l -> In (fst p) (map fst fs)) -> (forall p, In p more -> ~ In (fst p) (map fst fs)) ->
  (exists s, de_query (TStruct n fs) (qde_new l) = Ok (SStruct n vs, s)) ->
  ((exists s, de_query (TStruct n fs) (qde_new (l ++ more)) = Ok (SStruct n vs, s)) <-> forall a k x k2 x2 b, more = a ++ (k, x) :: (k2, x2) :: b -> ~ In x (map fst fs)).
Proof. exact (added_parameters n fs l more vs). Qed.
Print Assumptions C82_old_server_query.
(** So an optional field added to a query can make an old server hand another value to its handler. *)
Theorem C82_old_server_refuted :
  exists (U : urlenv) (F : floatlib) ep r x (t t' : ty) v v' old newq newh,
    newer_request old newq newh t t' /\ has_ty t' v' = true /\ encode_request ep v' 0 = Ok r /\ parse_url (rb_target r) = Some x /\
    de_request ep x (rb_headers r) t' = Ok v' /\ de_request ep x (rb_headers r) t = Ok v /\ ~ keeps v v' /\
    v' = SStruct (u "R") [(u "path", STuple []); (u "query", SStruct (u "Q") [(u "sort", SSome (SStr (u "name"))); (u "name", SStr (u "x"))]); (u "header", SStruct (u "H") [])] /\
    v = SStruct (u "R") [(u "path", STuple []); (u "query", SStruct (u "Q") [(u "name", SStr (u "name"))]); (u "header", SStruct (u "H") [])].
Proof.
  set (rt := fun q => TStruct (u "R") [(u "path", TTuple []); (u "query", TStruct (u "Q") q); (u "header", TStruct (u "H") [])]).
  exists ex_url, ex_float, [Val (u "a")]. do 2 eexists. exists (rt [(u "name", TStr)]), (rt [(u "sort", TOption TStr); (u "name", TStr)]). do 2 eexists. exists [u "name"], [u "sort"], [].
  split; [|split; [|split; [|split; [|split; [|split; [|split; [|split; reflexivity]]]]]]]; [|vm_compute; reflexivity..|].
  - constructor. constructor; [split; [reflexivity | left; reflexivity]|]. constructor; [split; [reflexivity|]|constructor; [split; [reflexivity | left; reflexivity] | constructor]].
    right. left. split; [reflexivity|]. apply NpStruct with (kept := [(u "name", TStr)]) (added := [(u "sort", TOption TStr)]); try reflexivity.
    + constructor; [split; [reflexivity | constructor] | constructor].
    + constructor; [eexists; reflexivity | constructor].
    + apply perm_swap.
    + apply nodup_names_NoDup. reflexivity.
  - intros K. inversion K as [| | | | |? ? ? ? Kf| | |]; subst. inversion Kf as [? ? A _ _]; subst.
    destruct (A (u "query") _ (or_intror (or_introl eq_refl))) as (w & I & Kw). destruct I as [I|[I|[I|[]]]]; try discriminate I. injection I as <-.
    inversion Kw as [| | | | |? ? ? ? Kf2| | |]; subst. inversion Kf2 as [? ? A2 _ _]; subst.
    destruct (A2 (u "name") _ (or_introl eq_refl)) as (w2 & I & Kw2). destruct I as [I|[I|[]]]; try discriminate I. injection I as <-. inversion Kw2.
Qed.
Print Assumptions C82_old_server_refuted.

(** ** Cases *)
(** A newer version of the request of RequestProps: wider numbers, an optional name, two new fields, another order. *)
Definition new_fs : list (ustr * ty) :=
  [(u "page", TOption (TInt U16)); (u "limit", TOption (TInt I16)); (u "id", TInt U64); (u "deep", TNewtype (u "Deep") TBool); (u "name", TOption TStr)].
Definition new_hfs : list (ustr * ty) := [(u "x-token", TStr); (u "x-trace", TOption TStr); (u "x-retry", TOption (TInt U8))].
Definition new_rty : ty := TStruct (u "Req2") [(u "path", TTuple ex_ts); (u "query", TStruct (u "Q2") new_fs); (u "header", TStruct (u "H2") new_hfs)].
Lemma new_header : newer_part (map fst ex_hfs) [u "x-trace"] (TStruct (u "H") ex_hfs) (TStruct (u "H2") new_hfs).
Proof.
  apply NpStruct with (kept := ex_hfs) (added := [(u "x-trace", TOption TStr)]); try reflexivity.
  - repeat (constructor; [split; [reflexivity | constructor]|]). constructor.
  - constructor; [eexists; reflexivity | constructor].
  - cbn. apply perm_skip, perm_swap.
  - apply nodup_names_NoDup. reflexivity.
Qed.
Lemma new_request : newer_request (map fst ex_fs) [u "page"] [u "x-trace"] ex_rty new_rty.
Proof.
  constructor. constructor; [split; [reflexivity | left; reflexivity]|]. constructor; [|constructor; [|constructor]]; (split; [reflexivity|]).
  - right. left. split; [reflexivity|].
    apply NpStruct with (kept := [(u "id", TInt U64); (u "name", TOption TStr); (u "limit", TOption (TInt I16)); (u "deep", TNewtype (u "Deep") TBool)]) (added := [(u "page", TOption (TInt U16))]); try reflexivity.
    + constructor; [split; [reflexivity | apply NwInt; vm_compute; discriminate]|]. constructor; [split; [reflexivity | apply NwOptional, NwSame]|].
      constructor; [split; [reflexivity | apply NwOption, NwInt; vm_compute; discriminate]|]. constructor; [split; [reflexivity | apply NwNewtype, NwSame] | constructor].
    + constructor; [eexists; reflexivity | constructor].
    + unfold new_fs. cbn [app]. generalize (u "id", TInt U64) (u "name", TOption TStr) (u "limit", TOption (TInt I16)) (u "deep", TNewtype (u "Deep") TBool) (u "page", TOption (TInt U16)). intros a b c d e.
      transitivity (e :: [a; b; c; d]); [apply (Permutation_app_comm [a; b; c; d] [e])|]. apply perm_skip. transitivity [a; c; b; d]; [apply perm_skip, perm_swap|].
      transitivity [c; a; b; d]; [apply perm_swap|]. apply perm_skip, perm_skip, perm_swap.
    + apply nodup_names_NoDup. reflexivity.
  - right. right. split; [reflexivity|]. eexists. exact new_header.
Qed.
Example C82_case : let U := ex_url in let F := ex_float in let W := ex_http in
  (exists ss l, In (MGet, ex_ep, 3%nat) (accepted ex_gs) /\ unshadowed (accepted ex_gs) ex_ep (map enc (fill ex_ep ss)) /\
    header_fits (Some (TStruct (u "H") ex_hfs, SStruct (u "H") ex_hvs)) l /\ forallb safe_header (l ++ [length_header 12]) = true /\
    forall k, In k (map fst (l ++ [length_header 12])) -> ~ In (lowercase k) [u "x-trace"]) /\
  ex_rty = TStruct (u "Req") (typed_parts (Some (TTuple ex_ts, STuple ex_vs)) (Some (TStruct (u "Q") ex_fs, SStruct (u "Q") ex_fv)) (Some (TStruct (u "H") ex_hfs, SStruct (u "H") ex_hvs))) /\
  newer_request (map fst ex_fs) [u "page"] [u "x-trace"] ex_rty new_rty /\ wf_ty ex_rty = true /\ wf_ty new_rty = true /\
  (exists ps, query_written (SStruct (u "Q") ex_fv) = Some ps /\ incl (map fst ps) (map fst ex_fs)) /\
  match encode_request ex_ep ex_req 12 with
  | Ok r => match parse_url (rb_target r) with
            | Some x => de_request ex_ep x (rb_headers r) new_rty =
                Ok (SStruct (u "Req2") [(u "path", STuple ex_vs);
                  (u "query", SStruct (u "Q2") [(u "page", SNone); (u "limit", SNone); (u "id", SInt U64 7); (u "deep", SNewtypeStruct (u "Deep") (SBool false)); (u "name", SSome (SStr (u "a b&c=" ++ [252])))]);
                  (u "header", SStruct (u "H2") [(u "x-token", SStr (u "s3 cr=t")); (u "x-trace", SNone); (u "x-retry", SSome (SInt U8 3))])])
            | None => False
            end
  | _ => False
  end.
Proof.
  cbv zeta. split.
  - destruct C09_case as (A & B & _ & _ & _ & _ & _ & _ & _ & (l & Hf & Sf) & _). exists [u "7"; u "a/b?%20.txt"], l. split; [exact A|]. split; [exact B|]. split; [exact Hf|]. split; [exact Sf|].
    destruct Hf as [_ W]. assert (E : l = [(u "x-token", u "s3 cr=t"); (u "x-retry", u "3")]) by (vm_compute in W; injection W as <-; vm_compute; reflexivity). subst l.
    intros k I [J|[]]. cbn [app map fst] in I. destruct I as [<-|[<-|[<-|[]]]]; vm_compute in J; discriminate J.
  - split; [reflexivity|]. split; [exact new_request|]. split; [reflexivity|]. split; [reflexivity|]. split.
    + eexists. split; [vm_compute; reflexivity|]. intros k I. cbn [map fst] in I. destruct I as [<-|[<-|[<-|[]]]]; vm_compute; tauto.
    + vm_compute. reflexivity.
Qed.
(** Responses: a further variant and a further header. *)
Definition new_res : list (ustr * vty) :=
  [(u "Ok", VStruct [(u "header", TStruct (u "H2") new_hfs)]); (u "Gone", VUnit); (u "Created", VUnit)].
Definition old_res : list (ustr * vty) := [(u "Created", VUnit); (u "Ok", VStruct [(u "header", TStruct (u "H") ex_hfs)])].
Example C82_response_case : let F := ex_float in
  let hs := [(u "X-Token", u "t"); (u "Content-Length", u "0")] in
  newer_response [u "x-trace"] (TEnum (u "Res") old_res) (TEnum (u "Res") new_res) /\ wf_ty (TEnum (u "Res") old_res) = true /\ wf_ty (TEnum (u "Res") new_res) = true /\
  names_ok hs = true /\ (forall h, In h hs -> ~ In (lowercase (fst h)) [u "x-trace"]) /\
  de_response 200 hs (TEnum (u "Res") old_res) = Ok (SStructVariant (u "Res") (u "Ok") [(u "header", SStruct (u "H") [(u "x-token", SStr (u "t")); (u "x-retry", SNone)])]) /\
  de_response 200 hs (TEnum (u "Res") new_res) = Ok (SStructVariant (u "Res") (u "Ok") [(u "header", SStruct (u "H2") [(u "x-token", SStr (u "t")); (u "x-trace", SNone); (u "x-retry", SNone)])]) /\
  status_code_to_str 410 = Ok (u "Gone") /\ assoc (u "Gone") old_res = None /\ de_response 410 hs (TEnum (u "Res") new_res) = Ok (SUnitVariant (u "Res") (u "Gone")) /\
  incl ex_hfs new_hfs.
Proof.
  cbv zeta. split.
  { constructor. intros x t A. cbn [assoc old_res] in A. destruct (ustr_eqb_spec x (u "Created")) as [->|_]; [injection A as <-; exists VUnit; split; [reflexivity | constructor]|].
    destruct (ustr_eqb_spec x (u "Ok")) as [->|_]; [|discriminate A]. injection A as <-. eexists. split; [reflexivity|]. constructor. constructor; [|constructor].
    split; [reflexivity|]. right. right. split; [reflexivity|]. eexists. exact new_header. }
  split; [reflexivity|]. split; [reflexivity|]. split; [reflexivity|].
  split; [intros h [<-|[<-|[]]] [J|[]]; vm_compute in J; discriminate J|].
  repeat (split; [vm_compute; reflexivity|]). intros f [<-|[<-|[]]]; cbn; auto.
Qed.
(** Parameters after the others: one is harmless, two need not be. *)
Example C82_query_case : let F := ex_float in
  let fs := [(u "name", TStr); (u "id", TOption (TInt U8))] in let l := [(u "name", u "x")] in
  let one := [(u "sort", u "name")] in let two := [(u "sort", u "id"); (u "page", u "2")] in
  NoDup (map fst fs) /\ (forall p, In p l -> In (fst p) (map fst fs)) /\ (forall p, In p (one ++ two) -> ~ In (fst p) (map fst fs)) /\
  res_map fst (de_query (TStruct (u "Q") fs) (qde_new l)) = Ok (SStruct (u "Q") [(u "name", SStr (u "x")); (u "id", SNone)]) /\
  res_map fst (de_query (TStruct (u "Q") fs) (qde_new (l ++ one))) = Ok (SStruct (u "Q") [(u "name", SStr (u "x")); (u "id", SNone)]) /\
  de_query (TStruct (u "Q") fs) (qde_new (l ++ two)) = Err Invalid.
Proof.
  cbv zeta. split; [apply nodup_names_NoDup; reflexivity|]. split; [intros p [<-|[]]; left; reflexivity|].
  split; [intros p [<-|[<-|[<-|[]]]] [J|[J|[]]]; discriminate J|]. repeat split; vm_compute; reflexivity.
Qed.
