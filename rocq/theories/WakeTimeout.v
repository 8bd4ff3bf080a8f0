(** * Tasks that are polled only when they are woken, with the timers of connecting.  Models src/pool.rs:195-199 with 75-88 and 322-329
    as an event-driven executor (fibers) sees them: Wake.v and Timeout.v together.

    In Wake.v whatever a call waits for outside the pool is "the network", the timeout of connecting included.  Here the timer is
    apart: a poll of a call that is opening a connection polls the connecting future and, if that is not ready, the timer, so
    that both take note of the task (fibers' [TimeoutAfter::poll]); the timer wakes it only when its time has come. *)
From Verif Require Import Base Serde Procedure Router SerRequest DeHeader DeResponse DepUrl Error Client Pool PoolSystem Wake Timeout.

Section WakeTimeout.
Context `{floatlib} `{urlenv}.

(** The executor's view (Wake.v) and when the timer of each call's connection runs out (Timeout.v). src/pool.rs:65-71, 198. *)
Record zsys := mkZsys { z_wake : wsys; z_due : nat -> Z }.
(** A step of Wake.v, or the timer of call [i] runs out. src/pool.rs:198. *)
Inductive zlabel := ZStep (l : wlabel) | ZTimer (i : nat).

Variables (tmax : Z) (checks : bool) (wait : Z).

(** The system as a poll finds it: with the timer looked at, if the call is polled at all. src/pool.rs:75-88,198. *)
Definition zlook (now : Z) (l : wlabel) (z : zsys) : wsys :=
  let y := z_wake z in
  match l with
  | WPoll i _ => if y_due y i then mkWsys (look i (z_due z i) now (y_sys y)) (y_pool y) (y_due y) (y_reg y) else y
  | _ => y
  end.
(** One step at a time of the clock that timers use. src/pool.rs:180-204, 229-330; a timer wakes a call that has polled it, once its time has come. *)
Definition zstep (now : Z) (l : zlabel) (z : zsys) : zsys :=
  match l with
  | ZStep l =>
      let y0 := zlook now l z in
      let y1 := wstep tmax checks l y0 in
      mkZsys y1 (fun i => if received i (y_sys y0) (y_sys y1) then (now + wait)%Z else z_due z i)
  | ZTimer i =>
      let y := z_wake z in
      match nth_error (s_calls (y_sys y)) i with
      | Some pc =>
          match c_state pc, y_reg y i with
          | Acquiring (Some (PConnect _)), WithNetwork =>
              if (z_due z i <=? now)%Z then mkZsys (mkWsys (y_sys y) (y_pool y) (upd i true (y_due y)) (y_reg y)) (z_due z) else z
          | _, _ => z
          end
      | None => z
      end
  end.
(** Models src/pool.rs:116-129 [with_pool_size]; no call, so no timer. *)
Definition zsys_new (size : N) (susp : Z) : zsys := mkZsys (wsys_new size susp) (fun _ => 0%Z).
(** The system after the first [n] steps of an endless schedule; not in the code, for src/pool.rs:229-330. *)
Fixpoint zat (sched : nat -> Z * zlabel) (n : nat) (z : zsys) : zsys :=
  match n with O => z | S n => zstep (fst (sched n)) (snd (sched n)) (zat sched n z) end.
End WakeTimeout.
