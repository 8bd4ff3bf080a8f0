(** * What is asked of a pool and its calls: who holds a connection, and what a trace may contain. *)
From Verif Require Import Base Serde Procedure Router SerRequest DeHeader DeResponse DepUrl Error Client ClientSpec Pool PoolSystem.
Open Scope N_scope.

(** The connection an action is on. *)
Definition act_conn (a : act conn) : conn := match a with Write _ _ c => c | ReadHead c => c | ReadBody r => r_conn r end.

(** The network gives back the connection it was given (in the code by ownership: the futures of miasht are made from a
    connection and yield it). *)
Definition honest (w : wire conn) : Prop :=
  (forall r b c c', settle (w_write w r b c) = Comes c' -> c' = c) /\
  (forall c r, settle (w_head w c) = Comes r -> r_conn r = c) /\
  (forall r r' b, settle (w_body w r) = Comes (r', b) -> r_conn r' = r_conn r).
Definition honest_label (l : plabel) : Prop := match l with LPoll _ w => honest w | _ => True end.

(** The connections in a call (its reply channel included), in a command, in the pool; in the whole system. *)
Definition held (c : pcall) : list conn :=
  match c_state c with Acquiring (Some (PIdle c)) => [c] | Talking c _ => [c] | _ => [] end.
Definition carried (c : command conn) : list conn := match c with ReleaseConnection _ c => [c] | _ => [] end.
Definition idle_conns (p : option (pool conn)) : list conn := match p with Some p => map snd (p_conns p) | None => [] end.
Definition holders (s : psys) : list conn := flat_map held (s_calls s) ++ flat_map carried (s_queue s) ++ idle_conns (s_pool s).

(** Nobody uses a connection that another call uses, unless that call has released it in between. *)
Definition exclusive (tr : list pevent) : Prop := forall t1 i a t2 j b t3,
  tr = t1 ++ EAct i a :: t2 ++ EAct j b :: t3 -> act_conn a = act_conn b -> i <> j ->
  exists addr, In (ERelease i addr (act_conn a)) t2.

(** The releases of a call in a trace. *)
Fixpoint released (i : nat) (tr : list pevent) : list (saddr * conn) :=
  match tr with
  | [] => []
  | ERelease j a c :: r => if Nat.eqb i j then (a, c) :: released i r else released i r
  | _ :: r => released i r
  end.
(** The connections opened, with their addresses. *)
Fixpoint opens (tr : list pevent) : list (conn * saddr) :=
  match tr with
  | [] => []
  | EOpen c a :: r => (c, a) :: opens r
  | _ :: r => opens r
  end.
(** The pool does not mistake an address for another one: its counter does not wrap round, or it was never told of two
    addresses that differ in scope or flow label only. *)
Definition told_apart (checks : bool) (s : psys) (tr : list pevent) : Prop :=
  checks = true \/ N.of_nat (length (s_calls s)) <= 2 ^ 64 - 1 \/
  forall c1 c2 a b, In (EOpen c1 a) tr -> In (EOpen c2 b) tr -> ip_fam a = ip_fam b -> ip_of a = ip_of b -> port_of a = port_of b -> a = b.
(** The connections a call acted on. *)
Fixpoint used (i : nat) (tr : list pevent) : list conn :=
  match tr with
  | [] => []
  | EAct j a :: r => if Nat.eqb i j then act_conn a :: used i r else used i r
  | _ :: r => used i r
  end.

Definition state_of (i : nat) (s : psys) : option cstate := option_map c_state (nth_error (s_calls s) i).
Definition addr_of (i : nat) (s : psys) : option saddr := option_map c_addr (nth_error (s_calls s) i).

(** ** A call by itself *)
Section Alone.
Context `{floatlib} `{urlenv}.
(** A [CallInner] polled once for every wire in the list, until it is over: what it does and what comes out. *)
Fixpoint alone (p : proc) (ws : list (wire conn)) (k : call conn) : list (act conn) * res (outcome conn) :=
  match ws with
  | [] => ([], Ok (Pending k))
  | w :: ws =>
      match poll_call w p k with
      | (t, Ok (Pending k)) => let '(t', o) := alone p ws k in (t ++ t', o)
      | r => r
      end
  end.
End Alone.
(** A pooled call that has a connection, seen as a [CallInner]: it got one from the pool or already uses it. *)
Definition inner (pc : pcall) (k : call conn) : Prop :=
  (exists c, c_state pc = Acquiring (Some (PIdle c)) /\ k = call_new (c_req pc) (Ready c)) \/ (exists c, c_state pc = Talking c k).
Definition stands (pc : pcall) (o : res (outcome conn)) : Prop :=
  match o with
  | Ok (Pending k) => inner pc k
  | Ok (Done v b _) => c_state pc = Finished v b
  | Err k => c_state pc = Broken k
  | Panic | Diverge => c_state pc = Panicked
  end.
(** The polls of a call in a schedule, its actions in a trace, and that it is not dropped. *)
Fixpoint polls (i : nat) (ls : list plabel) : list (wire conn) :=
  match ls with
  | [] => []
  | LPoll j w :: r => if Nat.eqb i j then w :: polls i r else polls i r
  | _ :: r => polls i r
  end.
Fixpoint acts (i : nat) (tr : list pevent) : list (act conn) :=
  match tr with
  | [] => []
  | EAct j a :: r => if Nat.eqb i j then a :: acts i r else acts i r
  | _ :: r => acts i r
  end.
Definition undropped (i : nat) (l : plabel) : Prop := match l with LDrop j => j <> i | _ => True end.

(** ** What is sent to the pool *)
(** The labels of a schedule that applied, each with what could be seen of it. *)
Section Log.
Context `{floatlib} `{urlenv}.
Variables (tmax : Z) (checks : bool).
Fixpoint plog (ls : list plabel) (s : psys) : list (plabel * list pevent) :=
  match ls with
  | [] => []
  | l :: r => match pstep tmax checks l s with Some (s, t) => (l, t) :: plog r s | None => plog r s end
  end.
End Log.
(** The commands sent, in order: one for every call, when it is made, and one for every release and every report. *)
Definition says (e : pevent) : list (command conn) :=
  match e with ERelease _ a c => [ReleaseConnection a c] | EBlacklist _ a => [AddToBlacklist a] | _ => [] end.
Fixpoint sent (n : nat) (lg : list (plabel * list pevent)) : list (command conn) :=
  match lg with
  | [] => []
  | (LCall a _ _, _) :: r => AcquireConnection a n :: sent (S n) r
  | (_, t) :: r => flat_map says t ++ sent n r
  end.
(** The clock readings of the rounds of the pool. *)
Fixpoint times (lg : list (plabel * list pevent)) : list Z :=
  match lg with
  | [] => []
  | (LPool now _, _) :: r => now :: times r
  | _ :: r => times r
  end.
(** The pool takes the commands as they were sent. *)
Definition history (lg : list (plabel * list pevent)) : list (Z * command conn) := combine (times lg) (sent 0 lg).

(** What a call does that can be seen; that it reported its address. *)
Definition event_of (i : nat) (e : pevent) : bool :=
  match e with EOpen _ _ => false | EAct j _ => Nat.eqb i j | ERelease j _ _ => Nat.eqb i j | EBlacklist j _ => Nat.eqb i j end.
Definition own (i : nat) (tr : list pevent) : list pevent := filter (event_of i) tr.
(** A call that was told its address is suspended: it fails, or is dropped before it sees. *)
Definition turned_down (x : option cstate) : Prop := x = Some (Acquiring (Some PSuspended)) \/ x = Some (Broken Other) \/ x = Some Dropped.
(** A call [i] to [a] that is polled when its attempt to connect has failed. *)
Definition connect_failed (i : nat) (a : saddr) (s : psys) : Prop :=
  addr_of i s = Some a /\ exists e, state_of i s = Some (Acquiring (Some (PConnect (Failed e)))).
(** A call that was given a connection or told to open one. *)
Definition served (x : option cstate) : Prop := match x with None | Some (Acquiring None) | Some (Acquiring (Some PSuspended)) => False | _ => True end.
(** The polls it takes until a future is not [Later] any more. *)
Fixpoint waits {A} (f : fut A) : nat := match f with Later f => S (waits f) | _ => O end.
