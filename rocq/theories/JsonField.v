(** * Fields with [serde(with = "htrpc::json")] or [serde(serialize_with = "htrpc::json_pretty::serialize")].
    Models src/json.rs and src/json_pretty.rs. *)
From Verif Require Import Base Utf8 Decimal Serde Json JsonText JsonDe.
Open Scope N_scope.

(** How a struct field is (de)serialized: as it is, or through one of the two modules.
    src/json.rs and src/json_pretty.rs: the two modules that can be named in [serde(with)]. *)
Inductive codec := Plain | AsJson | AsJsonPretty.

Section JsonField.
Context `{floatlib} `{jsonfloat}.

(** Models src/json.rs:18 and src/json_pretty.rs:18: the text. *)
Definition json_text (c : codec) (v : value) : res ustr :=
  match c with AsJsonPretty => to_json_string_pretty v | _ => to_json_string v end.

(** Models src/json.rs:13-20 and src/json_pretty.rs:13-20 [serialize]: the call the field makes on the serializer is
    that of the JSON text, a [String]. *)
Definition field_value (c : codec) (v : value) : res value :=
  match c with
  | Plain => Ok v
  | _ => match json_text c v with Ok s => Ok (SStr s) | Err _ => Err Invalid | Panic => Panic | Diverge => Diverge end
  end.
(** What the field requests from the deserializer: src/json.rs:31 a [String]. *)
Definition field_ty (c : codec) (t : ty) : ty := match c with Plain => t | _ => TStr end.
(** Models src/json.rs:26-33 [deserialize] (also json_pretty's, src/json_pretty.rs:22): the string obtained is read as JSON. *)
Definition field_read (c : codec) (t : ty) (w : value) : res value :=
  match c with
  | Plain => Ok w
  | _ => match w with
         | SStr s => match from_json_str t s with Ok v => Ok v | Err _ => Err Invalid | Panic => Panic | Diverge => Diverge end
         | _ => Err Invalid
         end
  end.
End JsonField.
