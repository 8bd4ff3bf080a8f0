(** * The server, with the moment at which a handler is run.  Models src/server.rs:55-99 and 169-270.

    Server.v has one future for all that is done to answer a request.  Here that future is taken apart where the code
    calls [handle_rpc] (src/server.rs:85-87), so that it can be counted. *)
From Verif Require Import Base Decimal DepUrl Serde Procedure Router Status SerResponse DeRequest Problem Error Client Server.
Open Scope N_scope.

Section Invoke.
Context `{floatlib} `{urlenv} {Conn R : Type}.
Variable explain : request Conn -> ekind -> ustr * option ustr * option (list ustr).
Variable reason : status -> ustr.
Variable ln : link Conn.

(** Models src/server.rs:169-178; phase C by the futures that src/server.rs:64-90 and 210-250 put into it: one that
    refuses the request, one that reads its body for a procedure, and one that the handler gave. *)
Inductive iphase :=
| IA (f : fut Conn)
| IB (f : fut (option (request Conn)))
| IRefuse (f : fut (res (Conn * respb * bytes)))
| IBody (p : hproc Conn R) (f : fut (request Conn * R))
| ICall (r : request Conn) (f : nfut (value * bytes)).
(** Models src/server.rs:169-178 [HandleHttpRequest]. *)
Record itask := mkItask { i_method : method; i_phase : iphase }.
(** src/server.rs:181-184,199-201,267-270, as [sstep]. *)
Inductive istep := IGoes (t : itask) | ISleeps (t : itask) | IEnds | IStops (k : ekind) | IDies.
(** What is done: as [sact], src/server.rs:185,254-264, and [handle_rpc], src/server.rs:85-87. *)
Inductive iact := IDoes (a : sact Conn) | IInvokes (p : hproc Conn R) (x : R).

(** Models src/server.rs:251-265: the response is there and is written. *)
Definition write_turn (m : method) (x : res (Conn * respb * bytes)) : list iact * istep :=
  match x with
  | Ok (c, h, b) =>
      let body := if method_eqb m MHead then None else Some b in
      ([IDoes (AWrite h body c)], IGoes (mkItask m (IA (l_write ln h body c))))
  | Err k => ([], IStops k)
  | Panic | Diverge => ([], IDies)
  end.
(** Models src/server.rs:88-95: polling what [handle_rpc] returned; its response is serialized in the same poll. *)
Definition call_turn (m : method) (r : request Conn) (f : nfut (value * bytes)) : list iact * istep :=
  match f with
  | NReady (v, b) => write_turn m (serialize v (Ok b) (q_conn r))
  | NLater f => ([], ISleeps (mkItask m (ICall r f)))
  | NNever => ([], ISleeps (mkItask m (ICall r NNever)))
  end.
(** Models src/server.rs:55-84 and 210-250: what is begun for a request. *)
Definition begin_turn (tr : trie (hproc Conn R)) (r : request Conn) : istep :=
  let go f := IGoes (mkItask (q_method r) f) in
  match parse_url (q_target r) with
  | None => go (IRefuse (refuse ln r (bad_request explain r Invalid)))
  | Some x =>
      match route tr (q_method r) (u_path x) with
      | Ok (inr n) => go (IRefuse (refuse ln r (about_blank reason (status_of n))))
      | Ok (inl p) =>
          match de_request (hp_entry p) x (q_headers r) (hp_req p) with
          | Err k => go (IRefuse (refuse ln r (bad_request explain r k)))
          | Ok v => go (IBody p (hp_body p v r))
          | Panic | Diverge => IDies
          end
      | Err k => IStops k
      | Panic | Diverge => IDies
      end
  end.

(** Models src/server.rs:181-270: one round of the loop of [poll_impl].  When the body has been read the handler is
    called and what it returns polled, in the same poll of phase C (src/server.rs:83-88). *)
Definition iturn (tr : trie (hproc Conn R)) (t : itask) : list iact * istep :=
  let m := i_method t in
  match i_phase t with
  | IA f =>
      match fpoll f with
      | AReady c => ([IDoes (ARead c)], IGoes (mkItask m (IB (fbind (l_read ln c) (or_else (Conn := Conn))))))
      | AFailed e => ([], IStops (error_of (FromPhase IxA e)))
      | ANotReady f => ([], ISleeps (mkItask m (IA f)))
      end
  | IB f =>
      match fpoll f with
      | AReady None => ([], IEnds)
      | AReady (Some r) => ([], begin_turn tr r)
      | AFailed e => ([], IStops (error_of (FromPhase IxB e)))
      | ANotReady f => ([], ISleeps (mkItask m (IB f)))
      end
  | IRefuse f =>
      match fpoll f with
      | AReady x => write_turn m x
      | AFailed e => ([], IStops (error_of (FromPhase IxC e)))
      | ANotReady f => ([], ISleeps (mkItask m (IRefuse f)))
      end
  | IBody p f =>
      match fpoll f with
      | AReady (r, x) => let '(a, s) := call_turn m r (hp_call p x) in (IInvokes p x :: a, s)
      | AFailed e => ([], IStops (error_of (FromPhase IxC e)))
      | ANotReady f => ([], ISleeps (mkItask m (IBody p f)))
      end
  | ICall r f => call_turn m r f
  end.
(** [n] rounds, or up to the end, over all polls; src/server.rs:181-270 however it is polled. *)
Fixpoint irounds (tr : trie (hproc Conn R)) (n : nat) (t : itask) : list iact * istep :=
  match n with
  | O => ([], IGoes t)
  | S n =>
      match iturn tr t with
      | (a, IGoes t) | (a, ISleeps t) => let '(a', s) := irounds tr n t in (a ++ a', s)
      | (a, s) => (a, s)
      end
  end.
(** Models src/server.rs:151-156; the method is a dummy until the first request. *)
Definition itask_new (connected : fut Conn) : itask := mkItask MGet (IA connected).
End Invoke.
Arguments iphase : clear implicits.
Arguments itask : clear implicits.
Arguments istep : clear implicits.
Arguments iact : clear implicits.
