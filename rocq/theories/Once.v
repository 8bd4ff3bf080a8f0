(** * The base URL that is made once.  Models src/misc.rs:6-24 [parse_relative_url] as called from any number of threads.

    std's [Once] gives two things: [call_once] lets one thread run the closure and makes the others wait, and whoever finds it
    complete sees everything the closure did.  [static mut DUMMY_BASE_URL] is an ordinary memory cell: nothing but the [Once]
    orders its accesses.  A schedule says which thread takes its next step; every step below is one access to shared memory.
    [m_known] says which threads have the write to the cell in their past (in the order that [Once] and the program make);
    a read by a thread that does not is a data race. *)
From Verif Require Import Base.
Local Open Scope nat_scope.

Section Once.
(** [U]: [url::Url]; [R]: what parsing gives.  [create]: [Url::parse("http://foo/")], None if it fails (then [expect] panics, 11).
    [parse]: [Url::options().base_url(…).parse(…)], 18-22. *)
Context {U R : Type}.
Variable create : option U.
Variable parse : option U -> ustr -> R.

(** std's [Once]. src/misc.rs:8. *)
Inductive once := Incomplete | Running | Complete | Poisoned.
(** Where a thread is. src/misc.rs:6-24. *)
Inductive pc :=
| Away                          (* not in this function *)
| Entering (target : ustr)      (* 10, at [call_once] *)
| Creating (target : ustr)      (* 11, in the closure *)
| Writing (target : ustr) (b : U)   (* 13-14 *)
| Leaving (target : ustr)       (* 16, the closure has returned *)
| Reading (target : ustr)       (* 19 *)
| Unwound.                      (* in a panic *)
(** A call that returned: the thread, its argument, its result, and whether the read was ordered after the write. src/misc.rs:17-23. *)
Record ret := mkRet { r_thread : nat; r_target : ustr; r_result : R; r_ordered : bool }.
(** Shared memory and the threads. src/misc.rs:7-8. *)
Record mem := mkMem {
  m_once : once;
  m_published : bool;           (* what [Once] hands to those who find it complete: is the write part of it *)
  m_cell : option U;            (* DUMMY_BASE_URL *)
  m_known : nat -> bool;
  m_pc : nat -> pc;
  m_made : nat;                 (* URLs put in memory for good, 13-14 *)
  m_written : nat;              (* writes to the cell *)
  m_rets : list ret             (* latest first *)
}.
(** src/misc.rs:6: thread [t] calls; or takes a step. *)
Inductive act := Calls (t : nat) (target : ustr) | Steps (t : nat).

(** A function changed at one place; not in the code. *)
Definition at_put {A} (t : nat) (x : A) (f : nat -> A) : nat -> A := fun j => if Nat.eqb t j then x else f j.
(** A thread moves on. src/misc.rs:6-24. *)
Definition go (t : nat) (p : pc) (m : mem) : mem :=
  mkMem (m_once m) (m_published m) (m_cell m) (m_known m) (at_put t p (m_pc m)) (m_made m) (m_written m) (m_rets m).

(** One step of the thread. src/misc.rs:10-23. *)
Definition tick (t : nat) (m : mem) : mem :=
  match m_pc m t with
  | Away | Unwound => m
  | Entering x =>
      match m_once m with
      | Incomplete => mkMem Running (m_published m) (m_cell m) (m_known m) (at_put t (Creating x) (m_pc m)) (m_made m) (m_written m) (m_rets m)
      | Running => m                                        (* waits *)
      | Complete => mkMem Complete (m_published m) (m_cell m) (at_put t (m_known m t || m_published m) (m_known m)) (at_put t (Reading x) (m_pc m)) (m_made m) (m_written m) (m_rets m)
      | Poisoned => go t Unwound m                          (* [call_once] panics *)
      end
  | Creating x =>
      match create with
      | Some b => go t (Writing x b) m
      | None => mkMem Poisoned (m_published m) (m_cell m) (m_known m) (at_put t Unwound (m_pc m)) (m_made m) (m_written m) (m_rets m)   (* 11, [expect] *)
      end
  | Writing x b =>
      mkMem (m_once m) (m_published m) (Some b) (at_put t true (m_known m)) (at_put t (Leaving x) (m_pc m)) (S (m_made m)) (S (m_written m)) (m_rets m)
  | Leaving x => mkMem Complete (m_known m t) (m_cell m) (m_known m) (at_put t (Reading x) (m_pc m)) (m_made m) (m_written m) (m_rets m)
  | Reading x => mkMem (m_once m) (m_published m) (m_cell m) (m_known m) (at_put t Away (m_pc m)) (m_made m) (m_written m)
                   (mkRet t x (parse (m_cell m) x) (m_known m t) :: m_rets m)
  end.
(** A call, or a step. src/misc.rs:6. *)
Definition action (a : act) (m : mem) : mem :=
  match a with
  | Calls t x => match m_pc m t with Away => go t (Entering x) m | _ => m end     (* a thread is in one place at a time *)
  | Steps t => tick t m
  end.
(** A schedule; not in the code. *)
Definition actions (l : list act) (m : mem) : mem := fold_left (fun m a => action a m) l m.
(** The program starts. src/misc.rs:7-8. *)
Definition mem_new : mem := mkMem Incomplete false None (fun _ => false) (fun _ => Away) 0 0 [].
(** After the first [n] of endlessly many; not in the code. *)
Definition mem_at (sched : nat -> act) (n : nat) : mem := actions (map sched (seq 0 n)) mem_new.
End Once.
Arguments mem : clear implicits. Arguments pc : clear implicits. Arguments ret : clear implicits.
