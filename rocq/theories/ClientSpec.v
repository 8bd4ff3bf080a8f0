(** * A call as a sequential program, and the classification of errors by their origin. *)
From Verif Require Import Base Serde Procedure Router SerRequest DeHeader DeResponse DepUrl Error Client.
Open Scope N_scope.

(** ** Errors *)
(** What went wrong underneath all wrappers. *)
Fixpoint origin (s : source) : source := match s with FromSome s | FromPhase _ s => origin s | s => s end.
(** Malformed input. *)
Definition malformed (s : source) : Prop :=
  In s [FromUtf8; FromBool; FromString; FromInt; FromFloat; FromUrl; FromCustomSer; FromCustomDe; FromSerdeconv Invalid; FromError Invalid].

(** ** Calls *)
(** What a future comes to, and after how many polls. *)
Inductive settled (A : Type) := Comes (x : A) | Breaks (e : source) | Hangs.
Arguments Comes {A} x. Arguments Breaks {A} e. Arguments Hangs {A}.
Fixpoint settle {A} (f : fut A) : settled A :=
  match f with Ready x => Comes x | Failed e => Breaks e | Later f => settle f | Never => Hangs end.

Section Straight.
Context `{floatlib} `{urlenv} {Conn : Type}.
Variables (w : wire Conn) (p : proc).

(** The result of a call: still waiting for something that never comes, an error, or the response. *)
Inductive result := Waits | Fails (k : ekind) | Panics | Yields (v : value) (body : bytes) (c : Conn).

Definition after {A} (s : settled A) (f : A -> list (act Conn) * result) : list (act Conn) * result :=
  match s with Comes x => f x | Breaks e => ([], Fails (error_of e)) | Hangs => ([], Waits) end.
Definition doing (a : act Conn) (r : list (act Conn) * result) := (a :: fst r, snd r).

Definition decoding (r : response Conn) (body : bytes) : list (act Conn) * result :=
  match de_response (r_code r) (r_headers r) (pr_resp p) with
  | Ok v => ([], Yields v body (r_conn r))
  | Err k => ([], Fails k)
  | Panic | Diverge => ([], Panics)
  end.
(** Connect; encode; write; read the head; read the body unless the method is HEAD; decode. *)
Definition sequential (v : value) (body : bytes) (connect : fut Conn) : list (act Conn) * result :=
  after (settle connect) (fun c =>
    match encode_request (pr_entry p) v (N.of_nat (length body)) with
    | Err k => ([], Fails k)
    | Panic | Diverge => ([], Panics)
    | Ok r =>
        doing (Write r body c) (after (settle (w_write w r body c)) (fun c =>
          doing (ReadHead c) (after (settle (w_head w c)) (fun r =>
            match pr_method p with
            | MHead => decoding r []
            | _ => doing (ReadBody r) (after (settle (w_body w r)) (fun '(r, b) => decoding r b))
            end))))
    end).

(** How [poll]'s answers read as results. *)
Definition reads_as (o : res (outcome Conn)) : result :=
  match o with
  | Ok (Pending _) => Waits
  | Ok (Done v b c) => Yields v b c
  | Err k => Fails k
  | Panic | Diverge => Panics
  end.
End Straight.
