(** * The timeout of connecting.  Models src/pool.rs:195-199 with fibers' [TimeoutAfter], on top of PoolSystem.v.

    In PoolSystem.v the future of a connection being opened stands for the whole of [connect(..).timeout_after(..)].
    Here the two are apart: the futures in the state are those of [connect], and every label carries the time at which it
    happens, read off the monotonic clock that timers use.  (The time inside [LPool] is the wall clock of the blacklist,
    src/pool.rs:145,153; the two clocks need not agree.) *)
From Verif Require Import Base Serde Procedure Router SerRequest DeHeader DeResponse DepUrl Error Client Pool PoolSystem.
Open Scope N_scope.

(** fibers 0.1 time::timer [TimeoutAfter::poll], made at src/pool.rs:198: the future is polled first, its errors are
    [Some]; if it is not ready and the timer has run out, the error is [None].  What this poll finds. *)
Definition timeout_poll (due now : Z) (f : fut unit) : fut unit :=
  match f with
  | Ready x => Ready x
  | Failed e => Failed (FromSome e)
  | f => if (due <=? now)%Z then Failed FromNone else f
  end.

Section Timeout.
Context `{floatlib} `{urlenv}.

(** The system of PoolSystem.v; when the timer of the connection handed to each call runs out. src/pool.rs:65-71. *)
Record tsys := mkTsys { t_sys : psys; t_due : nat -> Z }.

(** The connection handed to call [i], with its future as this poll finds it. src/pool.rs:75-88, before the [match]. *)
Definition look (i : nat) (due now : Z) (s : psys) : psys :=
  match nth_error (s_calls s) i with
  | Some pc => match c_state pc with
               | Acquiring (Some (PConnect f)) => put_state i (Acquiring (Some (PConnect (timeout_poll due now f)))) s
               | _ => s
               end
  | None => s
  end.
(** Was nothing yet received by the call, and has something been sent to it?  src/pool.rs:162,167. *)
Definition received (i : nat) (s s' : psys) : bool :=
  match nth_error (s_calls s) i, nth_error (s_calls s') i with
  | Some c, Some c' => match c_state c, c_state c' with Acquiring None, Acquiring (Some _) => true | _, _ => false end
  | _, _ => false
  end.

Variables (tmax : Z) (checks : bool).
(** src/pool.rs:106,196-198 [connect_timeout]: the timer starts when the pool makes the connection. *)
Variable wait : Z.

(** One step at a time of the clock. A poll of a call polls the timer too; src/pool.rs:75-88,180-204,322-329. *)
Definition tstep (now : Z) (l : plabel) (s : tsys) : option (tsys * list pevent) :=
  let s0 := match l with LPoll i _ => look i (t_due s i) now (t_sys s) | _ => t_sys s end in
  match pstep tmax checks l s0 with
  | Some (s1, t) => Some (mkTsys s1 (fun i => if received i s0 s1 then (now + wait)%Z else t_due s i), t)
  | None => None
  end.
(** Steps in the order of a schedule; not in the code. *)
Fixpoint trun (ls : list (Z * plabel)) (s : tsys) : tsys * list pevent :=
  match ls with
  | [] => (s, [])
  | (now, l) :: r =>
      match tstep now l s with
      | Some (s, t) => let '(s, t') := trun r s in (s, t ++ t')
      | None => trun r s
      end
  end.
(** Models src/pool.rs:116-129 [with_pool_size]; no call, so no timer. *)
Definition tsys_new (size : N) (susp : Z) : tsys := mkTsys (psys_new size susp) (fun _ => 0%Z).
End Timeout.
