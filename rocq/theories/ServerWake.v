(** * The server's tasks, polled only when they are woken.  Models src/server.rs:131-166 and 180-280 as an event-driven executor
    (fibers) sees them.

    ServerPoll.v says what a poll does; here it is also said whether the future that a task was at answered [NotReady] in its
    last round, and so took note of the task: only then can the task be woken.  A task that is spawned is polled once without
    being woken. *)
From Verif Require Import Base Decimal DepUrl Serde Json Procedure Router Status SerResponse DeHeader DeRequest JsonText Problem Error Client Server ServerPoll.

(** Whether two tasks are the same; not in the code. src/server.rs:159 *)
Definition who_eqb (v w : who) : bool :=
  match v, w with Acceptor, Acceptor => true | Connection i, Connection j => Nat.eqb i j | _, _ => false end.

(** Polling this future takes note of the task. futures 0.1 (the parked task), for src/server.rs:133,182. *)
Definition takes_note {A} (f : fut A) : bool := match fpoll f with ANotReady _ => true | _ => false end.

Section Wake.
Context `{floatlib} `{urlenv} {Conn R L : Type}.
Variable explain : request Conn -> ekind -> ustr * option ustr * option (list ustr).
Variable reason : status -> ustr.
Variable ln : link Conn.
Variable incoming : L -> fut (option (fut Conn) * L).

(** The future a connection polls in its next round. src/server.rs:182. *)
Definition conn_noted (t : task Conn) : bool := match t_phase t with SpA f => takes_note f | SpB f => takes_note f | SpC f => takes_note f end.
(** The future the accept loop polls in its next round. src/server.rs:133. *)
Definition accept_noted (a : aphase Conn L) : bool := match a with AcA f => takes_note f | AcB f => takes_note f end.

(** Models src/server.rs:180-280 as Server.v's [poll_task] does, with whether the task was taken note of. *)
Fixpoint wpoll_task (tr : trie (hproc Conn R)) (fuel : nat) (t : task Conn) : list (sact Conn) * bool * res (sstep Conn) :=
  match fuel with
  | O => ([], false, Diverge)
  | S fuel =>
      match turn explain reason ln tr t with
      | (a, Goes t) => let '(a', g, s) := wpoll_task tr fuel t in (a ++ a', g, s)
      | (a, s) => (a, conn_noted t, Ok s)
      end
  end.
(** Models src/server.rs:131-166 as ServerPoll.v's [poll_accept] does, with whether the task was taken note of. *)
Fixpoint wpoll_accept (fuel : nat) (a : aphase Conn L) : list (task Conn) * bool * res (astep Conn L) :=
  match fuel with
  | O => ([], false, Diverge)
  | S fuel =>
      match accept_turn incoming a with
      | (ts, AGoes a) => let '(ts', g, s) := wpoll_accept fuel a in (ts ++ ts', g, s)
      | (ts, s) => (ts, accept_noted a, Ok s)
      end
  end.
(** One poll, as ServerPoll.v's [serve_poll]. src/server.rs:131-166,274-280. *)
Definition wserve_poll (tr : trie (hproc Conn R)) (w : who) (fuel : nat) (s : server Conn L) : list (event Conn) * bool * res (server Conn L) :=
  match w with
  | Acceptor =>
      match v_accept s with
      | AGoes a | ASleeps a =>
          let '(ts, g, st) := wpoll_accept fuel a in
          (map (fun i => ESpawn (length (v_tasks s) + i)) (seq 0 (length ts)), g,
           match st with Ok st => Ok (mkServer st (v_tasks s ++ map Goes ts)) | _ => Diverge end)
      | AStops _ => ([], false, Ok s)
      end
  | Connection i =>
      match nth_error (v_tasks s) i with
      | Some (Goes t) | Some (Sleeps t) =>
          let '(a, g, st) := wpoll_task tr fuel t in
          (map (EAct i) a, g, match st with Ok st => Ok (mkServer (v_accept s) (update i st (v_tasks s))) | _ => Diverge end)
      | _ => ([], false, Ok s)
      end
  end.

(** The server with what the executor has to poll ([x_due]) and what is taken note of ([x_noted]). fibers, for src/server.rs:159. *)
Record wserver := mkWserver { x_server : server Conn L; x_due : who -> bool; x_noted : who -> bool }.
(** src/server.rs:107-117: the accept loop is polled first. *)
Definition wserver_new (bind : fut L) : wserver :=
  mkWserver (server_new bind) (who_eqb Acceptor) (fun _ => false).
(** The executor polls a task; or what a task waits for happens. fibers, for src/server.rs:131,274. *)
Inductive slabel := SPoll (w : who) (fuel : nat) | SNet (w : who).
(** Whether a task is one of those spawned by a poll; src/server.rs:159. *)
Definition fresh (w : who) (old new : nat) : bool := match w with Acceptor => false | Connection i => Nat.leb old i && Nat.ltb i new end.
(** Models fibers, for src/server.rs:131-166,274-280: only tasks that are due are polled; only tasks taken note of are woken. *)
Definition wake_step (tr : trie (hproc Conn R)) (l : slabel) (x : wserver) : list (event Conn) * res wserver :=
  match l with
  | SPoll w fuel =>
      if x_due x w then
        match wserve_poll tr w fuel (x_server x) with
        | (e, g, Ok s) =>
            (e, Ok (mkWserver s
              (fun v => if who_eqb v w then false else fresh v (length (v_tasks (x_server x))) (length (v_tasks s)) || x_due x v)
              (fun v => if who_eqb v w then g else x_noted x v)))
        | (e, _, _) => (e, Diverge)
        end
      else ([], Ok x)
  | SNet w =>
      if x_noted x w then
        ([], Ok (mkWserver (x_server x) (fun v => who_eqb v w || x_due x v) (fun v => negb (who_eqb v w) && x_noted x v)))
      else ([], Ok x)
  end.
(** The first [n] steps; not in the code, for src/server.rs:131-280. *)
Fixpoint wake_run (tr : trie (hproc Conn R)) (sched : nat -> slabel) (n : nat) (bind : fut L) : list (event Conn) * res wserver :=
  match n with
  | O => ([], Ok (wserver_new bind))
  | S n =>
      match wake_run tr sched n bind with
      | (ev, Ok x) => let '(e, y) := wake_step tr (sched n) x in (ev ++ e, y)
      | (ev, y) => (ev, y)
      end
  end.
End Wake.
Arguments wserver : clear implicits.
