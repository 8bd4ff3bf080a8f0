(** * Where errors come from and how they are classified.  Models src/error.rs. *)
From Verif Require Import Base.

(** Models handy_async's [Phase] constructors (src/error.rs:93-99). *)
Inductive phase_ix := IxA | IxB | IxC | IxD | IxE.

(** The types src/error.rs has a [From] for; what they carry beyond their kind is dropped. *)
Inductive source :=
| FromRecv                       (* 16-20: the sending half of a channel is gone *)
| FromIo                         (* 21-25 *)
| FromIoWith                     (* 26-30 *)
| FromUtf8                       (* 31-35 *)
| FromBool                       (* 36-40 *)
| FromString                     (* 41-45 *)
| FromInt                        (* 46-50 *)
| FromFloat                      (* 51-55 *)
| FromUrl                        (* 56-60 *)
| FromMiasht                     (* 61-65 *)
| FromSerdeconv (k : ekind)      (* 66-74: serdeconv's own two kinds *)
| FromNone                       (* 75-83: a timeout *)
| FromSome (s : source)          (* 75-83 *)
| FromPhase (i : phase_ix) (s : source)   (* 84-101 *)
| FromCustomSer | FromCustomDe   (* 102-117 *)
| FromError (k : ekind).         (* std: [From<T> for T], used for phases whose error is already an [Error] *)

(** Models src/error.rs:16-117. *)
Fixpoint error_of (s : source) : ekind :=
  match s with
  | FromRecv | FromIo | FromIoWith => Other
  | FromUtf8 | FromBool | FromString | FromInt | FromFloat | FromUrl => Invalid
  | FromMiasht => Other
  | FromSerdeconv k => if match k with Invalid => true | Other => false end then Invalid else Other
  | FromSome s => error_of s
  | FromNone => Other
  | FromPhase i s => match i with IxA => error_of s | IxB => error_of s | IxC => error_of s | IxD => error_of s | IxE => error_of s end
  | FromCustomSer | FromCustomDe => Invalid
  | FromError k => k
  end.
