(** * JSON text as serde_json (through serdeconv) writes it.

    Dependency: serdeconv 0.4 / serde_json.  Called at src/serializers/rpc_response.rs:205
    ([to_json_string]), src/rfc7807.rs:46 ([to_json_string_pretty]), src/json.rs:18 and
    src/json_pretty.rs:18. *)
From Verif Require Import Base Decimal Serde.
Open Scope N_scope.

(** JSON trees; a float is kept as the text serde_json gives it. src/json.rs:18, src/rfc7807.rs:46. *)
Inductive json :=
| JNull
| JBool (b : bool)
| JInt (z : Z)
| JFloat (t : ustr)
| JStr (s : ustr)
| JArr (l : list json)
| JObj (l : list (ustr * json)).

Section ToJson.
Context `{floatlib}.

(** serde_json's MapKeySerializer: keys must become strings.
    Simplification: boolean and float keys, accepted only by the newest releases, are errors here. For [to_json_string] at src/json.rs:18. *)
Fixpoint json_key (v : value) : res ustr :=
  match v with
  | SStr s => Ok s
  | SChar c => Ok [c]
  | SInt _ z => Ok (show_int z)
  | SUnitVariant _ x => Ok x
  | SNewtypeStruct _ v => json_key v
  | _ => Err Invalid
  end.

(** serde_json's Serializer. For [to_json_string] at src/json.rs:18. *)
Fixpoint to_json (v : value) {struct v} : res json :=
  let list := fix list (vs : list value) : res (list json) :=
    match vs with
    | [] => Ok []
    | v :: r => j <- to_json v ;; js <- list r ;; Ok (j :: js)
    end in
  let fields := fix fields (fs : Coq.Init.Datatypes.list (ustr * value)) :=
    match fs with
    | [] => Ok []
    | (n, v) :: r => j <- to_json v ;; js <- fields r ;; Ok ((n, j) :: js)
    end in
  match v with
  | SBool b => Ok (JBool b)
  | SInt _ z => Ok (JInt z)
  | SF32 x => Ok (JFloat (fjson32 x))
  | SF64 x => Ok (JFloat (fjson64 x))
  | SChar c => Ok (JStr [c])
  | SStr s => Ok (JStr s)
  | SBytes b => Ok (JArr (map (fun x => JInt (Z.of_N x)) b))
  | SNone | SUnit | SUnitStruct _ => Ok JNull
  | SSome v | SNewtypeStruct _ v => to_json v
  | SUnitVariant _ x => Ok (JStr x)
  | SNewtypeVariant _ x v => j <- to_json v ;; Ok (JObj [(x, j)])
  | SSeq vs | STuple vs | STupleStruct _ vs => js <- list vs ;; Ok (JArr js)
  | STupleVariant _ x vs => js <- list vs ;; Ok (JObj [(x, JArr js)])
  | SMap kvs =>
      js <- (fix entries (kvs : Coq.Init.Datatypes.list (value * value)) :=
               match kvs with
               | [] => Ok []
               | (k, v) :: r => k <- json_key k ;; j <- to_json v ;; js <- entries r ;; Ok ((k, j) :: js)
               end) kvs ;;
      Ok (JObj js)
  | SStruct _ fs => js <- fields fs ;; Ok (JObj js)
  | SStructVariant _ x fs => js <- fields fs ;; Ok (JObj [(x, JObj js)])
  end.
End ToJson.

(** For [to_json_string] at src/json.rs:18. *)
Definition hexlow (n : N) : N := if n <? 10 then 48 + n else 87 + n.

(** serde_json's string escapes. For [to_json_string] at src/json.rs:18. *)
Definition esc_char (c : N) : ustr :=
  if c =? 34 then [92; 34]
  else if c =? 92 then [92; 92]
  else if c =? 8 then [92; 98]
  else if c =? 9 then [92; 116]
  else if c =? 10 then [92; 110]
  else if c =? 12 then [92; 102]
  else if c =? 13 then [92; 114]
  else if c <? 32 then [92; 117; 48; 48; hexlow (c / 16); hexlow (c mod 16)]
  else [c].
(** For [to_json_string] at src/json.rs:18. *)
Definition quote (s : ustr) : ustr := 34 :: flat_map esc_char s ++ [34].

(** serde_json's CompactFormatter. For [to_json_string] at src/json.rs:18. *)
Fixpoint print_json (j : json) : ustr :=
  match j with
  | JNull => u "null"
  | JBool b => if b then u "true" else u "false"
  | JInt z => show_int z
  | JFloat t => t
  | JStr s => quote s
  | JArr l => [91] ++ join [44] (map print_json l) ++ [93]
  | JObj l => [123] ++ join [44] (map (fun kv => quote (fst kv) ++ [58] ++ print_json (snd kv)) l) ++ [125]
  end.

(** [serdeconv::to_json_string] on a value. src/json.rs:18; also src/serializers/rpc_response.rs:205 for the status. *)
Definition to_json_string `{floatlib} (v : value) : res ustr := j <- to_json v ;; Ok (print_json j).
