(** * Tasks that are polled only when they are woken.  Models src/client.rs:82-130, src/pool.rs:73-88, 226-235, 246-261 and 290-330
    as an event-driven executor (fibers) sees them.

    PoolSystem.v says what a poll does; here it is also said which inner future, by answering [NotReady] during the poll, took
    note of the task, for only that future can have the task polled again.  fibers' channels wake as follows: sending a command
    wakes the pool if its last poll found the channel empty; a reply, and equally the loss of the sender that would send it,
    wakes a call whose last poll found nothing in the reply channel.  The network's operations (connecting, writing, reading)
    wake the call that polled them, when the network chooses.  Simplification: every call is a task of its own. *)
From Verif Require Import Base Serde Procedure Router SerRequest DeHeader DeResponse DepUrl Error Client Pool PoolSystem.

(** The inner future that will have the task polled again. futures 0.1 (the parked task), for src/client.rs:85 and src/pool.rs:86,306. *)
Inductive reg := Nowhere | WithReply | WithNetwork.

Section Wake.
Context `{floatlib} `{urlenv}.

(** Models src/client.rs:82-130 [CallInner::poll] as Client.v's [poll] does, with the future that said [NotReady]. *)
Fixpoint wpoll (w : wire conn) (p : proc) (fuel : nat) (k : call conn) : list (act conn) * reg * res (outcome conn) :=
  match fuel with
  | O => ([], Nowhere, Diverge)
  | S fuel =>
      match phase_poll (k_phase k) with
      | PFailed e => ([], Nowhere, Err (error_of e))
      | PNotReady ph => ([], WithNetwork, Ok (Pending (mkCall (k_request k) ph)))        (* 85 *)
      | PReady (RdA c) =>
          match on_connected p (k_request k) c with
          | Ok (r, body) => let '(t, g, o) := wpoll w p fuel (mkCall None (PhB (w_write w r body c))) in (Write r body c :: t, g, o)
          | Err e => ([], Nowhere, Err e)
          | Panic => ([], Nowhere, Panic)
          | Diverge => ([], Nowhere, Diverge)
          end
      | PReady (RdB c) => let '(t, g, o) := wpoll w p fuel (mkCall (k_request k) (PhC (w_head w c))) in (ReadHead c :: t, g, o)
      | PReady (RdC r) =>
          if is_head p then wpoll w p fuel (mkCall (k_request k) (PhD (Ready (r, []))))
          else let '(t, g, o) := wpoll w p fuel (mkCall (k_request k) (PhD (w_body w r))) in (ReadBody r :: t, g, o)
      | PReady (RdD r body) => ([], Nowhere, v <- on_received p r ;; Ok (Done v body (r_conn r)))
      end
  end.

(** Models src/pool.rs:297-307 with 75-88, as PoolSystem.v's [acquire_poll] does, with the future that said [NotReady]. *)
Definition wacquire (i : nat) (a : option pooled) (s : psys) : acquired * reg :=
  match a with
  | None => if pending i (s_queue s) then (GotNothing None, WithReply) else (GotError (FromPhase IxA FromRecv) false, Nowhere)
  | Some PSuspended => (GotError (FromPhase IxB (FromError (error_of (FromPhase IxA (FromError Other))))) false, Nowhere)
  | Some (PIdle c) => (GotConn c false, Nowhere)
  | Some (PConnect f) =>
      match fpoll f with
      | AReady _ => (GotConn (length (s_opened s)) true, Nowhere)
      | AFailed e => (GotError (FromPhase IxB (FromError (error_of (FromPhase IxB e)))) true, Nowhere)
      | ANotReady f => (GotNothing (Some (PConnect f)), WithNetwork)
      end
  end.

(** Models src/pool.rs:322-329 [Call::poll], as PoolSystem.v's [poll_pooled] does, with the future that said [NotReady]. *)
Definition wpooled (i : nat) (w : wire conn) (pc : pcall) (s : psys) : option (psys * list pevent * reg) :=
  match c_state pc with
  | Acquiring a =>
      match wacquire i a s with
      | (GotConn c true, _) =>
          let s := mkPsys (s_pool s) (s_queue s) (s_calls s) (s_opened s ++ [c_addr pc]) in
          let '(t, g, o) := wpoll w (c_proc pc) 5 (call_new (c_req pc) (Ready c)) in
          let '(s, t) := inner_result i pc c (t, o) s in Some (s, EOpen c (c_addr pc) :: t, g)
      | (GotConn c false, _) =>
          let '(t, g, o) := wpoll w (c_proc pc) 5 (call_new (c_req pc) (Ready c)) in Some (inner_result i pc c (t, o) s, g)
      | (GotError e b, g) =>
          let s := put_state i (Broken (error_of (FromPhase IxA (FromError (error_of e))))) s in
          Some (if b then (send (AddToBlacklist (c_addr pc)) s, [EBlacklist i (c_addr pc)]) else (s, []), g)
      | (GotNothing a, g) => Some (put_state i (Acquiring a) s, [], g)
      end
  | Talking c k => let '(t, g, o) := wpoll w (c_proc pc) 5 k in Some (inner_result i pc c (t, o) s, g)
  | _ => None
  end.

(** The pool's task: to be polled, in the loop of its poll, or asleep after finding the channel empty. src/pool.rs:229-234. *)
Inductive ptask := PDue | PRunning | PAsleep.
(** The pool, its channel and the calls as before, and the executor's view of the tasks. fibers; the tasks of src/pool.rs:226-235 and 316-330. *)
Record wsys := mkWsys { y_sys : psys; y_pool : ptask; y_due : nat -> bool; y_reg : nat -> reg }.

(** src/pool.rs:229-235, 272-287, 322-329; drops; what wakes tasks. *)
Inductive wlabel :=
| WCall (addr : saddr) (p : proc) (req : value * bytes)   (* a call is made and spawned *)
| WPool (now : Z) (f : fut unit)          (* the pool's task goes one round of its loop, if it is to be polled or in the loop *)
| WPoolDrop                               (* the pool is dropped *)
| WPoll (i : nat) (w : wire conn)         (* call [i] is polled, if it is to be *)
| WDrop (i : nat)                         (* call [i] is dropped *)
| WNet (i : nat)                          (* the network wakes call [i], if the call waits for it *)
| WSpurious (i : nat)                     (* call [i] is woken for no reason *)
| WSpuriousPool.                          (* so is the pool *)

Variables (tmax : Z) (checks : bool).

(** What a change of the system wakes: the pool if a command was sent and it is asleep; the calls that wait for a reply whose
    command has left the queue, answered or thrown away. fibers' [mpsc] and [oneshot], for src/pool.rs:79,162,167,253,259. *)
Definition react (y : wsys) (s : psys) : wsys :=
  mkWsys s
    match y_pool y with PAsleep => if Nat.ltb (length (s_queue (y_sys y))) (length (s_queue s)) then PDue else PAsleep | t => t end
    (fun j => y_due y j || match y_reg y j with WithReply => pending j (s_queue (y_sys y)) && negb (pending j (s_queue s)) | _ => false end)
    (y_reg y).
(** A function changed at one place; not in the code. *)
Definition upd {A} (i : nat) (x : A) (f : nat -> A) : nat -> A := fun j => if Nat.eqb i j then x else f j.
(** The label's step, if it applies. PoolSystem.v's [pstep], src/pool.rs:229-330. *)
Definition psome (l : plabel) (s : psys) : psys := match pstep tmax checks l s with Some (s, _) => s | None => s end.

(** One step. src/pool.rs:229-235 (with the loop), 246-256, 272-287, 322-329. *)
Definition wstep (l : wlabel) (y : wsys) : wsys :=
  let s := y_sys y in
  match l with
  | WCall addr p req =>
      let i := length (s_calls s) in
      react (mkWsys s (y_pool y) (upd i true (y_due y)) (upd i Nowhere (y_reg y))) (psome (LCall addr p req) s)
  | WPool now f =>
      match y_pool y, s_pool s, s_queue s with
      | PAsleep, _, _ | _, None, _ => y
      | _, Some _, [] => mkWsys s PAsleep (y_due y) (y_reg y)              (* 230, 233: the channel is empty and takes note of the task *)
      | _, Some _, _ :: _ => react (mkWsys s PRunning (y_due y) (y_reg y)) (psome (LPool now f) s)   (* 231 *)
      end
  | WPoolDrop => react y (psome LPoolDrop s)
  | WPoll i w =>
      if y_due y i then
        match nth_error (s_calls s) i with
        | Some pc =>
            match wpooled i w pc s with
            | Some (s', _, g) => react (mkWsys s (y_pool y) (upd i false (y_due y)) (upd i g (y_reg y))) s'
            | None => mkWsys s (y_pool y) (upd i false (y_due y)) (y_reg y)
            end
        | None => y
        end
      else y
  | WDrop i => react y (psome (LDrop i) s)
  | WNet i => match y_reg y i with WithNetwork => mkWsys s (y_pool y) (upd i true (y_due y)) (y_reg y) | _ => y end
  | WSpurious i => mkWsys s (y_pool y) (upd i true (y_due y)) (y_reg y)
  | WSpuriousPool => mkWsys s match y_pool y with PAsleep => PDue | t => t end (y_due y) (y_reg y)
  end.
(** A new pool whose task has been spawned, no calls. src/pool.rs:116-129. *)
Definition wsys_new (size : N) (susp : Z) : wsys := mkWsys (psys_new size susp) PDue (fun _ => false) (fun _ => Nowhere).
(** The system after the first [n] labels of an endless schedule. Not in the code. *)
Fixpoint wat (sched : nat -> wlabel) (n : nat) (y : wsys) : wsys :=
  match n with O => y | S n => wstep (sched n) (wat sched n y) end.
End Wake.
