(** * Executors that poll what is due, and a network that wakes who waits for it (C86). *)
From Verif Require Import Base DepUrl Serde Procedure Router Error Client Server ServerSpec ServerFairSpec ServerWake.

(** What a task is at will never come. *)
Definition is_never {A} (f : fut A) : bool := match f with Never => true | _ => false end.
Section Spec.
Context {Conn L : Type}.
(** The accept loop, or a connection, that is not over. *)
Definition living (w : who) (s : server Conn L) : Prop :=
  match w with
  | Acceptor => match v_accept s with AStops _ => False | _ => True end
  | Connection i => match nth_error (v_tasks s) i with Some (Goes _) | Some (Sleeps _) => True | _ => False end
  end.
Definition in_vain (w : who) (s : server Conn L) : Prop :=
  match w with
  | Acceptor => match v_accept s with ASleeps (AcA f) => is_never f = true | ASleeps (AcB f) => is_never f = true | _ => False end
  | Connection i =>
      match nth_error (v_tasks s) i with
      | Some (Sleeps t) => match t_phase t with SpA f => is_never f = true | SpB f => is_never f = true | SpC f => is_never f = true end
      | _ => False
      end
  end.

(** Along a run: [at_ n] is what it has come to after [n] steps. *)
Variables (sched : nat -> slabel) (at_ : nat -> list (event Conn) * res (wserver Conn L)).
(** Every poll comes back. *)
Definition polls_return : Prop := forall n, exists x, snd (at_ n) = Ok x.
(** The executor polls in the end what is due.  It polls nothing else. *)
Definition polls_due : Prop := forall n x w, snd (at_ n) = Ok x -> x_due x w = true -> exists m fuel, (n <= m)%nat /\ sched m = SPoll w fuel.
(** The network, and the handlers' own futures, wake in the end the task that they have taken note of, unless what it waits for never comes. *)
Definition wakes_noted : Prop := forall n x w, snd (at_ n) = Ok x -> x_noted x w = true -> ~ in_vain w (x_server x) -> exists m, (n <= m)%nat /\ sched m = SNet w.
End Spec.
