(** * What an RPC response is supposed to be on the wire, independently of the serializer's state. *)
From Verif Require Import Base Utf8 Decimal Serde Status ScalarSpec FieldSpec.
Open Scope N_scope.

(** The codes of the statuses the protocol knows, as ranges. *)
Definition known_code (c : N) : Prop :=
  100 <= c <= 102 \/ 200 <= c <= 208 \/ c = 226 \/ 300 <= c <= 305 \/ 307 <= c <= 308 \/
  400 <= c <= 418 \/ 421 <= c <= 424 \/ c = 426 \/ c = 451 \/ 500 <= c <= 510.

(** The value inside the newtypes of a response. *)
Fixpoint core (v : value) : value :=
  match v with
  | SNewtypeStruct _ v | SNewtypeVariant _ _ v => core v
  | v => v
  end.

Section ResponseSpec.
Context `{floatlib}.

(** The number a status field holds: an integer that fits 16 bits, possibly optional or in a newtype.  Floats count when
    JSON writes them without point or exponent. *)
Fixpoint status_number (v : value) : option Z :=
  match v with
  | SInt _ z => if ((0 <=? z) && (z <=? 65535))%Z then Some z else None
  | SF32 x => parse_int U16 (fjson32 x)
  | SF64 x => parse_int U16 (fjson64 x)
  | SSome v | SNewtypeStruct _ v => status_number v
  | _ => None
  end.

(** A response value stands for a status and headers: a unit variant or a struct variant for the status of that name, a
    struct for the status in its first field; all (further) fields are header fields. *)
Inductive answers : value -> status -> list (bytes * bytes) -> Prop :=
| AUnit e x st : status_from_str x = Ok st -> answers (SUnitVariant e x) st []
| AVariant e x st hs ls : status_from_str x = Ok st -> Forall2 (fun h l => header_written h = Some l) hs ls ->
    answers (SStructVariant e x (map (pair (u "header")) hs)) st (concat ls)
| AStruct n v z st hs ls : status_number v = Some z -> code_of st = Z.to_N z ->
    Forall2 (fun h l => header_written h = Some l) hs ls ->
    answers (SStruct n ((u "status", v) :: map (pair (u "header")) hs)) st (concat ls).
End ResponseSpec.
