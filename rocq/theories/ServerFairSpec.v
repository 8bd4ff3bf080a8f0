(** * Executors that go on for ever, fairness, and what one poll may do. *)
From Verif Require Import Base Decimal DepUrl Serde Json Procedure Router RouterSpec Status SerResponse DeHeader DeRequest JsonText Problem Error Client ClientSpec Server ServerSpec ServerPoll.

(** Something is chosen again and again. *)
Definition often {A} (P : A -> Prop) (sched : nat -> A) : Prop := forall n, exists m, (n <= m)%nat /\ P (sched m).
(** What holds from some time on. *)
Definition finally (P : nat -> Prop) : Prop := exists n, forall m, (n <= m)%nat -> P m.

(** What connection [i] was seen doing. *)
Fixpoint doings {Conn} (i : nat) (ev : list (event Conn)) : list (sact Conn) :=
  match ev with
  | [] => []
  | EAct j a :: ev => if Nat.eqb i j then a :: doings i ev else doings i ev
  | ESpawn _ :: ev => doings i ev
  end.
(** How connection [i] ended, if it did. *)
Definition outcome {Conn L} (i : nat) (s : server Conn L) : option ending :=
  match nth_error (v_tasks s) i with Some x => ended x | None => None end.

Definition ends {A} (f : fut A) : Prop := settle f <> Hangs.

Section Spec.
Context `{floatlib} `{urlenv} {Conn R L : Type}.
Variable explain : request Conn -> ekind -> ustr * option ustr * option (list ustr).
Variable reason : status -> ustr.
Variable ln : link Conn.
Variable ps : list (hproc Conn R).

(** Bodies can be read and dropped, and every registered procedure reads its body and answers, well or badly. *)
Definition obliging : Prop :=
  (forall r, ends (l_drain ln r)) /\
  forall p, In p ps -> (forall v r, ends (hp_body p v r)) /\ forall q, nsettle (hp_call p q) <> Hangs.

(** A request is answered without waiting for anything. *)
Definition promptly (r : request Conn) : Prop :=
  match parse_url (q_target r) with
  | None => exists r', l_drain ln r = Ready r'
  | Some (mkUrl None _) => False
  | Some (mkUrl (Some segs) q) =>
      match route_spec (accepted (map (fun p => (hp_method p, hp_entry p, p)) ps)) (q_method r) segs with
      | inr _ => exists r', l_drain ln r = Ready r'
      | inl p =>
          match de_request (hp_entry p) (mkUrl (Some segs) q) (q_headers r) (hp_req p) with
          | Ok v => exists r' q, hp_body p v r = Ready (r', q) /\ exists x, hp_call p q = NReady x
          | Err _ => exists r', l_drain ln r = Ready r'
          | Panic | Diverge => False
          end
      end
  end.

(** Somewhere in the conversation there is something to wait for, or the conversation ends: connecting or writing does not succeed at once,
    no request is there at once, its reply takes time or there is none; or so after a number of exchanges. *)
Inductive pauses : fut Conn -> Prop :=
| PConnect f : (forall c, f <> Ready c) -> pauses f
| PRead c : (forall r, l_read ln c <> Ready (Got r)) -> pauses (Ready c)
| PReply c r : l_read ln c = Ready (Got r) -> ~ promptly r -> pauses (Ready c)
| PNone c r : l_read ln c = Ready (Got r) -> (forall c' h b, reply_to explain reason ln ps r <> Sends c' h b) -> pauses (Ready c)
| PNext c r c' h b : l_read ln c = Ready (Got r) -> reply_to explain reason ln ps r = Sends c' h b ->
    pauses (l_write ln h (match q_method r with MHead => None | _ => Some b end) c') -> pauses (Ready c).

Variable incoming : L -> fut (option (fut Conn) * L).
(** Sooner or later no client is there at once. *)
Inductive lull : fut (option (fut Conn) * L) -> Prop :=
| LWait f : (forall c l, f <> Ready (Some c, l)) -> lull f
| LNext c l : lull (incoming l) -> lull (Ready (Some c, l)).

(** The server after the first [n] rounds of a schedule, and after the first [n] polls. *)
Definition after_rounds (sched : nat -> who) (n : nat) (bind : fut L) : list (event Conn) * server Conn L :=
  serve_run explain reason ln incoming (build (registrations ps)) (map sched (seq 0 n)) (server_new bind).
Definition after_polls (sched : nat -> who * nat) (n : nat) (bind : fut L) : list (event Conn) * res (server Conn L) :=
  serve_polls explain reason ln incoming (build (registrations ps)) (map sched (seq 0 n)) (server_new bind).
End Spec.
