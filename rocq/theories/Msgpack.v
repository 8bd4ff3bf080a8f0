(** * htrpc::msgpack as the [serde(with)] of a field.  Models src/msgpack.rs. *)
From Verif Require Import Base Decimal Serde.

(** Models src/msgpack.rs:13-20 [serialize]: the MessagePack bytes are serialized as a [Vec<u8>], that is, as a
    sequence of u8.  Simplification: the bytes themselves (serdeconv) are a parameter. *)
Definition msgpack_value (packed : bytes) : value := SSeq (map (fun b => SInt U8 (Z.of_N b)) packed).

(** Models src/msgpack.rs:26-33 [deserialize]: a [Vec<u8>] is requested first. *)
Definition msgpack_ty : ty := TSeq (TInt U8).
