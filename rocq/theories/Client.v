(** * One RPC call.  Models src/client.rs (and the part of src/pool.rs that shares it).

    Futures (futures 0.1, handy_async's [Phase]) are modelled by what polling them shows: some number of times
    [NotReady], then an outcome, or [NotReady] for ever.  Connecting, writing and reading are miasht's; they are given by
    an environment [wire], about which nothing is assumed.  A connection is an element of an arbitrary type. *)
From Verif Require Import Base Serde Procedure Router SerRequest DeHeader DeResponse DepUrl Error.
Open Scope N_scope.

(** futures 0.1 [Future], seen through [poll]. For the fields at src/client.rs:69-74. *)
Inductive fut (A : Type) := Ready (x : A) | Failed (e : source) | Later (f : fut A) | Never.
Arguments Ready {A} x. Arguments Failed {A} e. Arguments Later {A} f. Arguments Never {A}.
(** futures 0.1, for src/client.rs:84. *)
Inductive async (A : Type) := AReady (x : A) | AFailed (e : source) | ANotReady (f : fut A).
Arguments AReady {A} x. Arguments AFailed {A} e. Arguments ANotReady {A} f.
(** futures 0.1, for src/client.rs:84. *)
Definition fpoll {A} (f : fut A) : async A :=
  match f with Ready x => AReady x | Failed e => AFailed e | Later f => ANotReady f | Never => ANotReady Never end.

Section Client.
Context `{floatlib} `{urlenv} {Conn : Type}.

(** miasht's [Response] without its body: status code, headers, and the connection it came on. src/client.rs:72. *)
Record response := mkResponse { r_code : N; r_headers : list rheader; r_conn : Conn }.
(** What the network does: writing a request, reading the head of a response, reading its body. src/client.rs:95-96,101,109-111. *)
Record wire := mkWire {
  w_write : reqb -> bytes -> Conn -> fut Conn;
  w_head : Conn -> fut response;
  w_body : response -> fut (response * bytes)
}.

(** The procedure called: [P::method()], [P::entry_point()] and the shape of [P::Response]. src/procedure.rs:7-19. *)
Record proc := mkProc { pr_method : method; pr_entry : entry_point; pr_resp : ty }.

(** Models src/client.rs:64-75 [CallInner]; the request is its value and what [body()] returns. *)
Inductive cphase :=
| PhA (f : fut Conn)
| PhB (f : fut Conn)
| PhC (f : fut response)
| PhD (f : fut (response * bytes)).
(** Models src/client.rs:64-75 [CallInner]. *)
Record call := mkCall { k_request : option (value * bytes); k_phase : cphase }.

(** Models src/client.rs:32-42 [RpcClient::call] and src/pool.rs:272-287: only the future of phase A differs. *)
Definition call_new (request : value * bytes) (connect : fut Conn) : call := mkCall (Some request) (PhA connect).

(** handy_async's [Phase::poll]: polls the future of the current phase; outcomes and errors say which phase it was. src/client.rs:84-116. *)
Inductive ready := RdA (c : Conn) | RdB (c : Conn) | RdC (r : response) | RdD (r : response) (body : bytes).
(** src/client.rs:84. *)
Inductive polled := PReady (x : ready) | PFailed (e : source) | PNotReady (p : cphase).
(** src/client.rs:84. *)
Definition phase_poll (p : cphase) : polled :=
  match p with
  | PhA f => match fpoll f with AReady c => PReady (RdA c) | AFailed e => PFailed (FromPhase IxA e) | ANotReady f => PNotReady (PhA f) end
  | PhB f => match fpoll f with AReady c => PReady (RdB c) | AFailed e => PFailed (FromPhase IxB e) | ANotReady f => PNotReady (PhB f) end
  | PhC f => match fpoll f with AReady r => PReady (RdC r) | AFailed e => PFailed (FromPhase IxC e) | ANotReady f => PNotReady (PhC f) end
  | PhD f => match fpoll f with AReady (r, b) => PReady (RdD r b) | AFailed e => PFailed (FromPhase IxD e) | ANotReady f => PNotReady (PhD f) end
  end.

(** What a call does to the outside. src/client.rs:96,101,109-111. *)
Inductive act := Write (r : reqb) (body : bytes) (c : Conn) | ReadHead (c : Conn) | ReadBody (r : response).
(** What [poll] returns: the call goes on, or the decoded response, the body given to it and the connection. src/client.rs:80,85,124. *)
Inductive outcome := Pending (k : call) | Done (v : value) (body : bytes) (c : Conn).

Variables (w : wire) (p : proc).

(** Models src/client.rs:86-98 (phase A is over). *)
Definition on_connected (request : option (value * bytes)) (c : Conn) : res (reqb * bytes) :=
  match request with
  | None => Panic                                                  (* expect, 90 *)
  | Some (v, body) => r <- encode_request (pr_entry p) v (N.of_nat (length body)) ;; Ok (r, body)
  end.
(** Models src/client.rs:104-115 (phase C is over): a HEAD response has no body. *)
Definition is_head : bool := method_eqb (pr_method p) MHead.
(** Models src/client.rs:116-125 (phase D is over). *)
Definition on_received (r : response) : res value := de_response (r_code r) (r_headers r) (pr_resp p).

(** Models src/client.rs:82-130 [poll], with the actions performed; the loop is given more rounds than it can need. *)
Fixpoint poll (fuel : nat) (k : call) : list act * res outcome :=
  match fuel with
  | O => ([], Diverge)
  | S fuel =>
      match phase_poll (k_phase k) with
      | PFailed e => ([], Err (error_of e))                        (* 84 *)
      | PNotReady ph => ([], Ok (Pending (mkCall (k_request k) ph)))  (* 85 *)
      | PReady (RdA c) =>
          match on_connected (k_request k) c with
          | Ok (r, body) => let '(t, o) := poll fuel (mkCall None (PhB (w_write w r body c))) in (Write r body c :: t, o)
          | Err e => ([], Err e)
          | Panic => ([], Panic)
          | Diverge => ([], Diverge)
          end
      | PReady (RdB c) => let '(t, o) := poll fuel (mkCall (k_request k) (PhC (w_head w c))) in (ReadHead c :: t, o)
      | PReady (RdC r) =>
          if is_head then poll fuel (mkCall (k_request k) (PhD (Ready (r, []))))
          else let '(t, o) := poll fuel (mkCall (k_request k) (PhD (w_body w r))) in (ReadBody r :: t, o)
      | PReady (RdD r body) =>
          ([], v <- on_received r ;; Ok (Done v body (r_conn r)))
      end
  end.
(** src/client.rs:82-130. *)
Definition poll_call (k : call) : list act * res outcome := poll 5 k.

(** An executor polling the call [n] times, until it is over. Not in the code: whoever polls src/client.rs:50-61. *)
Fixpoint drive (n : nat) (k : call) : list act * res outcome :=
  match n with
  | O => ([], Ok (Pending k))
  | S n =>
      match poll_call k with
      | (t, Ok (Pending k)) => let '(t', o) := drive n k in (t ++ t', o)
      | r => r
      end
  end.
End Client.
Arguments response : clear implicits.
Arguments wire : clear implicits.
Arguments call : clear implicits.
Arguments act : clear implicits.
Arguments outcome : clear implicits.
Arguments cphase : clear implicits.
