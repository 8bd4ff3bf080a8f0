(** * A pool and the calls that use it.  Models src/pool.rs:59-88 and 229-330 on top of Pool.v and Client.v.

    The pool and the calls are futures polled by an executor in any order; a schedule is a list of labels.  The command
    channel (fibers' [mpsc], std's underneath) is a queue: sending appends if the receiver, which the pool owns, still
    exists, and does nothing otherwise (the code ignores the error); when the receiver is dropped the queued commands are
    dropped with everything in them.  A reply channel (fibers' [oneshot]) holds at most one message; receiving from it
    fails when nothing was sent and the sender is gone.

    Connections are numbered in the order in which they are opened.  What the network does is part of the labels: a label
    that starts connecting carries what that will come to, a label that polls a call carries the [wire] for the operations
    started by this poll.  Polls are atomic: a call looks at its reply channel first and sends at most one command, last. *)
From Verif Require Import Base Serde Procedure Router SerRequest DeHeader DeResponse DepUrl Error Client Pool.
Open Scope N_scope.

(** The number of a connection. Stands for [TcpConnection], src/pool.rs:20. *)
Definition conn := nat.

(** Models src/pool.rs:59-71 [PooledConnection]; a connecting one has [on_error] set, the others do not. *)
Inductive pooled :=
| PSuspended                     (* Phase::A, futures::failed; the error is of kind Other, 154-161 *)
| PIdle (c : conn)               (* Phase::A, futures::finished; 189-193 *)
| PConnect (f : fut unit).       (* Phase::B, the connection being opened, with its timeout; 195-203 *)

(** Where a pooled call is. src/pool.rs:290-292,309-314 and src/client.rs:64-75. *)
Inductive cstate :=
| Acquiring (a : option pooled)  (* 290-292 [AcquireConnection]: nothing received yet, or what was sent on the reply channel *)
| Talking (c : conn) (k : call conn)  (* client.rs's [CallInner] with the future that owns connection [c]; [c] is not in the code *)
| Finished (v : value) (body : bytes)
| Broken (k : ekind)
| Dropped                        (* by its user *)
| Panicked.

Section System.
Context `{floatlib} `{urlenv}.

(** Models src/pool.rs:309-314 [Call]; the request and the procedure do not change. *)
Record pcall := mkPcall { c_addr : saddr; c_proc : proc; c_req : value * bytes; c_state : cstate }.

(** The pool (src/pool.rs:98-108), its channel (117) and the calls (309-314). *)
Record psys := mkPsys {
  s_pool : option (pool conn);           (* None when dropped or dead *)
  s_queue : list (command conn);         (* sent and not yet received *)
  s_calls : list pcall;
  s_opened : list saddr                  (* the address each connection was opened to; its length is the next number *)
}.

(** src/pool.rs:229-235 (the pool is polled), 272-287 (a call), 322-329 (a call is polled); drops. *)
Inductive plabel :=
| LCall (addr : saddr) (p : proc) (req : value * bytes)  (* handle.client(addr).call(req) *)
| LPool (now : Z) (f : fut unit)         (* the pool handles one command; what connecting will come to if it starts to *)
| LPoolDrop                              (* the pool is dropped *)
| LPoll (i : nat) (w : wire conn)        (* call [i] is polled *)
| LDrop (i : nat).                       (* call [i] is dropped *)

(** What can be seen from outside. src/pool.rs:79,257-260,323 and src/client.rs:96,101,109-111. *)
Inductive pevent :=
| EOpen (c : conn) (addr : saddr)        (* a connection is opened *)
| EAct (i : nat) (a : act conn)          (* call [i] writes to or reads from a connection *)
| ERelease (i : nat) (addr : saddr) (c : conn)  (* call [i] sends a ReleaseConnection command *)
| EBlacklist (i : nat) (addr : saddr).   (* call [i] sends an AddToBlacklist command *)

(** The [oneshot::Sender] of call [i] exists while its command is in the queue. src/pool.rs:251-252. *)
Definition pending (i : nat) (q : list (command conn)) : bool :=
  existsb (fun c => match c with AcquireConnection _ j => Nat.eqb i j | _ => false end) q.

(** Sending on the command channel. src/pool.rs:79,253,259. *)
Definition send (c : command conn) (s : psys) : psys :=
  match s_pool s with
  | Some _ => mkPsys (s_pool s) (s_queue s ++ [c]) (s_calls s) (s_opened s)
  | None => s
  end.

(** A list with the state of one call replaced; not in the code. *)
Fixpoint set_state (i : nat) (x : cstate) (l : list pcall) : list pcall :=
  match l, i with
  | [], _ => []
  | c :: r, O => mkPcall (c_addr c) (c_proc c) (c_req c) x :: r
  | c :: r, S i => c :: set_state i x r
  end.
(** The same in the system; not in the code. *)
Definition put_state (i : nat) (x : cstate) (s : psys) : psys := mkPsys (s_pool s) (s_queue s) (set_state i x (s_calls s)) (s_opened s).

(** Sending on the reply channel of call [i]; if the call does not wait any more, what is sent is dropped. src/pool.rs:162,167. *)
Definition reply (i : nat) (a : pooled) (s : psys) : psys :=
  match nth_error (s_calls s) i with
  | Some c => match c_state c with Acquiring None => put_state i (Acquiring (Some a)) s | _ => s end
  | None => s
  end.
(** The [PooledConnection] for an answer of Pool.v. src/pool.rs:154,189,200. *)
Definition to_pooled (a : answer conn) (f : fut unit) : pooled :=
  match a with Suspended _ => PSuspended | Idle c => PIdle c | Connect => PConnect f end.

(** The pool is gone: dropped, or unwound by a panic. When the future of src/pool.rs:226-235 is dropped. *)
Definition pool_gone (s : psys) : psys := mkPsys None [] (s_calls s) (s_opened s).

(** Models src/pool.rs:290-307 [AcquireConnection::poll] with 73-88 [PooledConnection::poll]: the outcome for this poll. *)
Inductive acquired :=
| GotConn (c : conn) (opened : bool)     (* opened by this poll, or from the pool *)
| GotError (e : source) (blacklist : bool)
| GotNothing (a : option pooled).
(** src/pool.rs:297-307 with 75-88. *)
Definition acquire_poll (i : nat) (a : option pooled) (s : psys) : acquired :=
  match a with
  | None => if pending i (s_queue s) then GotNothing None else GotError (FromPhase IxA FromRecv) false
  | Some PSuspended => GotError (FromPhase IxB (FromError (error_of (FromPhase IxA (FromError Other))))) false
  | Some (PIdle c) => GotConn c false
  | Some (PConnect f) =>
      match fpoll f with
      | AReady _ => GotConn (length (s_opened s)) true
      | AFailed e => GotError (FromPhase IxB (FromError (error_of (FromPhase IxB e)))) true
      | ANotReady f => GotNothing (Some (PConnect f))
      end
  end.

(** Models src/pool.rs:322-329 [Call::poll] after the inner call was polled; [c] is the connection its futures own. *)
Definition inner_result (i : nat) (pc : pcall) (c : conn) (r : list (act conn) * res (outcome conn)) (s : psys) : psys * list pevent :=
  let '(t, o) := r in
  let t := map (EAct i) t in
  match o with
  | Ok (Pending k) => (put_state i (Talking c k) s, t)
  | Ok (Done v b c') => (send (ReleaseConnection (c_addr pc) c') (put_state i (Finished v b) s), t ++ [ERelease i (c_addr pc) c'])
  | Err k => (put_state i (Broken k) s, t)
  | Panic | Diverge => (put_state i Panicked s, t)       (* Client.v's [poll] never runs out of fuel *)
  end.

(** Models src/pool.rs:322-329 [Call::poll]: client.rs's [CallInner::poll], whose phase A is [AcquireConnection]. *)
Definition poll_pooled (i : nat) (w : wire conn) (pc : pcall) (s : psys) : option (psys * list pevent) :=
  match c_state pc with
  | Acquiring a =>
      match acquire_poll i a s with
      | GotConn c true =>
          let s := mkPsys (s_pool s) (s_queue s) (s_calls s) (s_opened s ++ [c_addr pc]) in
          let '(s, t) := inner_result i pc c (poll_call w (c_proc pc) (call_new (c_req pc) (Ready c))) s in
          Some (s, EOpen c (c_addr pc) :: t)
      | GotConn c false => Some (inner_result i pc c (poll_call w (c_proc pc) (call_new (c_req pc) (Ready c))) s)
      | GotError e b =>
          let s := put_state i (Broken (error_of (FromPhase IxA (FromError (error_of e))))) s in
          Some (if b then (send (AddToBlacklist (c_addr pc)) s, [EBlacklist i (c_addr pc)]) else (s, []))
      | GotNothing a => Some (put_state i (Acquiring a) s, [])
      end
  | Talking c k => Some (inner_result i pc c (poll_call w (c_proc pc) k) s)
  | _ => None                                            (* futures are not polled after they are over *)
  end.

Variables (tmax : Z) (checks : bool).

(** One step of the system; None if the label does not apply. src/pool.rs:229-235,246-256,272-287,322-329. *)
Definition pstep (l : plabel) (s : psys) : option (psys * list pevent) :=
  match l with
  | LCall addr p req =>                                  (* 246-256, 272-287 *)
      let s' := mkPsys (s_pool s) (s_queue s) (s_calls s ++ [mkPcall addr p req (Acquiring None)]) (s_opened s) in
      Some (send (AcquireConnection addr (length (s_calls s))) s', [])
  | LPool now f =>                                       (* 229-235, one round *)
      match s_pool s, s_queue s with
      | Some p, c :: q =>
          match handle_command tmax checks now c p with
          | Ok (o, p) =>
              let s := mkPsys (Some p) q (s_calls s) (s_opened s) in
              Some (match o with Some (i, a) => reply i (to_pooled a f) s | None => s end, [])
          | _ => Some (pool_gone s, [])
          end
      | _, _ => None
      end
  | LPoolDrop => match s_pool s with Some _ => Some (pool_gone s, []) | None => None end
  | LPoll i w => match nth_error (s_calls s) i with Some pc => poll_pooled i w pc s | None => None end
  | LDrop i =>
      match nth_error (s_calls s) i with
      | Some pc => match c_state pc with
                   | Acquiring _ | Talking _ _ => Some (put_state i Dropped s, [])
                   | _ => None
                   end
      | None => None
      end
  end.

(** A schedule; labels that do not apply are passed over. Steps in the order of a schedule; not in the code. *)
Fixpoint prun (ls : list plabel) (s : psys) : psys * list pevent :=
  match ls with
  | [] => (s, [])
  | l :: r =>
      match pstep l s with
      | Some (s, t) => let '(s, t') := prun r s in (s, t ++ t')
      | None => prun r s
      end
  end.

(** Models src/pool.rs:116-129 [with_pool_size]: a new pool, no calls. *)
Definition psys_new (size : N) (susp : Z) : psys := mkPsys (Some (pool_new size susp)) [] [] [].
End System.
