(** * The project's own unit tests, run in the model

    One example for each test in /repo/src: a check of the model against what its authors expect of the code,
    not a proof of anything for all inputs. *)
From Verif Require Import Base Decimal DepUrl Serde Procedure SerPath SerQuery DePath DeQuery Exhibit EntryMacro.
Open Scope N_scope.

(** [htrpc_entry_point!["foo", _, "baz", _]] (src/lib.rs:60-81). *)
Definition own_entry : entry_point := [Val (u "foo"); Var; Val (u "baz"); Var].

(** src/serializers/url_path.rs:261-273. *)
Example own_ser_path : let U := ex_url in let F := ex_float in
  (s <- ser_path own_entry (STupleStruct (u "Args") [SStr (u "hello world"); SInt U64 3%Z]) (pser_new own_entry [[]]) ;;
   Ok (url_text (p_path s) None)) = Ok (u "/foo/hello%20world/baz/3").
Proof. reflexivity. Qed.

(** src/serializers/url_query.rs:239-249. *)
Example own_ser_query_map : let F := ex_float in
  (s <- ser_query (SMap [(SStr (u "bar"), SStr (u "baz qux")); (SStr (u "foo"), SStr (u "3"))]) qser_new ;;
   Ok (url_text [[]] (Some (qs_text s)))) = Ok (u "/?bar=baz+qux&foo=3").
Proof. reflexivity. Qed.

(** src/serializers/url_query.rs:251-280. *)
Example own_ser_query_struct : let F := ex_float in
  (s <- ser_query (SStruct (u "Params") [(u "foo", SNone); (u "bar", SStr (u "baz qux"))]) qser_new ;;
   Ok (url_text [[]] (Some (qs_text s)))) = Ok (u "/?bar=baz+qux") /\
  (s <- ser_query (SStruct (u "Params") [(u "foo", SSome (SInt U64 3%Z)); (u "bar", SStr (u "baz qux"))]) qser_new ;;
   Ok (url_text [[]] (Some (qs_text s)))) = Ok (u "/?foo=3&bar=baz+qux").
Proof. split; reflexivity. Qed.

(** src/serializers/url_query.rs:282-300. *)
Example own_ser_query_variant : let F := ex_float in
  (s <- ser_query (SStructVariant (u "Params") (u "Bbb") [(u "foo", SInt U64 3%Z); (u "bar", SStr (u "baz qux"))]) qser_new ;;
   Ok (url_text [[]] (Some (qs_text s)))) = Ok (u "/?foo=3&bar=baz+qux").
Proof. reflexivity. Qed.

(** src/procedure.rs:127-134, and the example in the documentation of the macro (src/lib.rs:44-60). *)
Example own_entry_point :
  entry_macro [KText (u "foo"); KComma; KUnderscore; KComma; KText (u "baz")] = Some [Val (u "foo"); Var; Val (u "baz")] /\
  entry_macro [KText (u "foo"); KComma; KUnderscore; KComma; KText (u "baz"); KComma; KUnderscore] = Some own_entry.
Proof. split; reflexivity. Qed.

(** src/deserializers/url_path.rs:370-382. *)
Example own_de_path : let U := ex_url in let F := ex_float in
  option_map (fun x => s <- pde_new own_entry x ;; r <- de_path (TTupleStruct (u "Args") [TStr; TInt U64]) s ;; Ok (fst r))
    (parse_url (u "http://localhost/foo/hello%20world/baz/3")) =
  Some (Ok (STupleStruct (u "Args") [SStr (u "hello world"); SInt U64 3%Z])).
Proof. reflexivity. Qed.

(** src/deserializers/url_query.rs:341-364. *)
Example own_de_query : let U := ex_url in let F := ex_float in
  let params x := r <- de_query (TStruct (u "Params") [(u "foo", TOption (TInt U64)); (u "bar", TStr)]) (qde_new (query_pairs x)) ;; Ok (fst r) in
  option_map params (parse_url (u "http://localhost/?bar=baz+qux")) =
    Some (Ok (SStruct (u "Params") [(u "foo", SNone); (u "bar", SStr (u "baz qux"))])) /\
  option_map params (parse_url (u "http://localhost/?foo=10&bar=baz+qux")) =
    Some (Ok (SStruct (u "Params") [(u "foo", SSome (SInt U64 10%Z)); (u "bar", SStr (u "baz qux"))])).
Proof. split; reflexivity. Qed.
