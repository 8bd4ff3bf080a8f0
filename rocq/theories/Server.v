(** * The server.  Models src/server.rs and src/misc.rs.

    Futures are as in Client.v.  Reading requests, their bodies and writing responses are miasht's; they are given by an
    environment about which nothing is assumed.  A connection is an element of an arbitrary type, which may hold all that
    is still to come on it.  What the user supplies (reading bodies, handling requests) is arbitrary as well, except that it
    does not panic. *)
From Verif Require Import Base Decimal DepUrl Serde Json Procedure Router Status SerResponse DeHeader DeRequest JsonText JsonDe Problem Error Client.
Open Scope N_scope.

(** futures 0.1 [and_then] and [map]: the second future is polled at once when the first is ready. src/server.rs:64-66,82-90. *)
Fixpoint fbind {A B} (f : fut A) (g : A -> fut B) : fut B :=
  match f with Ready x => g x | Failed e => Failed e | Later f => Later (fbind f g) | Never => Never end.
(** A future whose error type is [NeverFail] (src/procedure.rs:33-36), of which there are no values. *)
Inductive nfut (A : Type) := NReady (x : A) | NLater (f : nfut A) | NNever.
Arguments NReady {A} x. Arguments NLater {A} f. Arguments NNever {A}.
(** [map_err(|_| unreachable!())], src/server.rs:88. *)
Fixpoint no_error {A} (f : nfut A) : fut A := match f with NReady x => Ready x | NLater f => Later (no_error f) | NNever => Never end.

Section Server.
Context `{floatlib} `{urlenv} {Conn R : Type}.

(** miasht's [Request] without its body: method, target, headers, and the connection it came on. src/server.rs:9,202-211. *)
Record request := mkRequest { q_method : method; q_target : ustr; q_headers : list rheader; q_conn : Conn }.
(** What reading a request comes to; std's [io::ErrorKind]s that src/server.rs:187-188 looks for. *)
Inductive iokind := UnexpectedEof | ConnectionReset | OtherIo.
(** src/server.rs:185-195. *)
Inductive arrival := Got (r : request) | IoError (k : iokind) | HttpError.
(** What the network does on a connection. src/server.rs:64-67,185,255,263. *)
Record link := mkLink {
  l_read : Conn -> fut arrival;                       (** [read_request] *)
  l_drain : request -> fut request;                   (** [into_body_reader] and [read_all_bytes] *)
  l_write : respb -> option bytes -> Conn -> fut Conn (** [write_all_bytes], or the response head alone *)
}.

(** What is registered: [P::method()], [P::entry_point()], the shape of [P::Request], its [read_body]
    (src/procedure.rs:46, after [into_body_reader]), and the handler; a response is its value and what [body()] returns. *)
Record hproc := mkHproc {
  hp_method : method; hp_entry : entry_point; hp_req : ty;
  hp_body : value -> request -> fut (request * R);
  hp_call : R -> nfut (value * bytes)
}.
(** Models src/server.rs:100-102: what [register] hands to the router. *)
Definition registrations (ps : list hproc) : list (method * entry_point * hproc) := map (fun p => (hp_method p, hp_entry p, p)) ps.

(** The texts that [TrackableProblem::new] (src/rfc7807.rs) takes from an error: title, detail and history; the wording
    is trackable's.  [reason] is miasht's [reason_phrase]. *)
Variable explain : request -> ekind -> ustr * option ustr * option (list ustr).
Variable reason : status -> ustr.
Variable ln : link.

(** Models src/serializers/rpc_response.rs:22-33 [serialize]: the head and the body to be written, and the connection. *)
Definition serialize (v : value) (body : res bytes) (c : Conn) : res (Conn * respb * bytes) :=
  s <- ser_response v sser_new ;; b <- body ;; h <- finish_response (N.of_nat (length b)) s ;; Ok (c, h, b).

(** Models src/server.rs:64-78, 214-228 and 233-246: the request's body is read and dropped, a problem is the response. *)
Definition refuse (r : request) (p : problem) : fut (res (Conn * respb * bytes)) :=
  fbind (l_drain ln r) (fun r => Ready (serialize (pr_value (into_response p)) (pr_body (into_response p)) (q_conn r))).
(** Models the problem made at src/server.rs:69-70 and 220-222. *)
Definition bad_request (r : request) (k : ekind) : problem :=
  let '(title, detail, history) := explain r k in trackable StBadRequest title detail history.

(** Models src/server.rs:55-99, the closure made by [register]. *)
Definition handle (p : hproc) (x : url) (r : request) : res (fut (res (Conn * respb * bytes))) :=
  match de_request (hp_entry p) x (q_headers r) (hp_req p) with
  | Err k => Ok (refuse r (bad_request r k))
  | Ok v =>
      Ok (fbind (hp_body p v r) (fun '(r, q) =>
            fbind (no_error (hp_call p q)) (fun '(v, b) => Ready (serialize v (Ok b) (q_conn r)))))
  | Panic => Panic
  | Diverge => Diverge
  end.

(** src/router.rs:36,40: the statuses of the refusals. *)
Definition status_of (n : no_route) : status := match n with NotFound => StNotFound | MethodNotAllowed => StMethodNotAllowed end.

(** Models src/server.rs:210-250 and src/misc.rs:6-24: the answer to a request, as a future. *)
Definition on_request (t : trie hproc) (r : request) : res (fut (res (Conn * respb * bytes))) :=
  match parse_url (q_target r) with
  | None => Ok (refuse r (bad_request r Invalid))
  | Some x =>
      d <- route t (q_method r) (u_path x) ;;
      match d with
      | inr n => Ok (refuse r (about_blank reason (status_of n)))
      | inl p => handle p x r
      end
  end.

(** ** One connection *)
(** Models src/server.rs:169-178 [HandleHttpRequest]. *)
Inductive sphase :=
| SpA (f : fut Conn)
| SpB (f : fut (option request))
| SpC (f : fut (res (Conn * respb * bytes))).
(** Models src/server.rs:169-178 [HandleHttpRequest]. *)
Record task := mkTask { t_method : method; t_phase : sphase }.
(** Models src/server.rs:151-156; the method is a dummy until the first request. *)
Definition task_new (connected : fut Conn) : task := mkTask MGet (SpA connected).

(** Models src/server.rs:185-195: a peer that is gone is the end of the connection, not an error. *)
Definition or_else (x : arrival) : fut (option request) :=
  match x with
  | Got r => Ready (Some r)
  | IoError UnexpectedEof | IoError ConnectionReset => Ready None
  | IoError OtherIo | HttpError => Failed FromMiasht
  end.

(** What a connection does to the outside. src/server.rs:185,254-264. *)
Inductive sact := ARead (c : Conn) | AWrite (h : respb) (body : option bytes) (c : Conn).
(** What one round of the loop comes to: another round, [NotReady], the end, an error, a panic. src/server.rs:181-184,199-201,267-270. *)
Inductive sstep := Goes (t : task) | Sleeps (t : task) | Ends | Stops (k : ekind) | Dies.

(** Models src/server.rs:181-270: one round of the loop of [poll_impl]. *)
Definition turn (tr : trie hproc) (t : task) : list sact * sstep :=
  match t_phase t with
  | SpA f =>
      match fpoll f with
      | AReady c => ([ARead c], Goes (mkTask (t_method t) (SpB (fbind (l_read ln c) or_else))))
      | AFailed e => ([], Stops (error_of (FromPhase IxA e)))
      | ANotReady f => ([], Sleeps (mkTask (t_method t) (SpA f)))
      end
  | SpB f =>
      match fpoll f with
      | AReady None => ([], Ends)
      | AReady (Some r) =>
          match on_request tr r with
          | Ok f => ([], Goes (mkTask (q_method r) (SpC f)))
          | Err k => ([], Stops k)
          | Panic | Diverge => ([], Dies)
          end
      | AFailed e => ([], Stops (error_of (FromPhase IxB e)))
      | ANotReady f => ([], Sleeps (mkTask (t_method t) (SpB f)))
      end
  | SpC f =>
      match fpoll f with
      | AReady (Ok (c, h, b)) =>
          let body := if method_eqb (t_method t) MHead then None else Some b in
          ([AWrite h body c], Goes (mkTask (t_method t) (SpA (l_write ln h body c))))
      | AReady (Err k) => ([], Stops k)
      | AReady Panic | AReady Diverge => ([], Dies)
      | AFailed e => ([], Stops (error_of (FromPhase IxC e)))
      | ANotReady f => ([], Sleeps (mkTask (t_method t) (SpC f)))
      end
  end.

(** Models src/server.rs:180-280 [poll_impl] and [poll]: rounds until [NotReady] or the end.  The loop has no bound of its
    own, so [Diverge] means that it was still going after [fuel] rounds. *)
Fixpoint poll_task (tr : trie hproc) (fuel : nat) (t : task) : list sact * res sstep :=
  match fuel with
  | O => ([], Diverge)
  | S fuel =>
      match turn tr t with
      | (a, Goes t) => let '(a', s) := poll_task tr fuel t in (a ++ a', s)
      | (a, s) => (a, Ok s)
      end
  end.

(** The rounds of a connection, over all its polls: [n] rounds, or up to the end. Not in the code: src/server.rs:181-270 however it is polled. *)
Fixpoint rounds (tr : trie hproc) (n : nat) (t : task) : list sact * sstep :=
  match n with
  | O => ([], Goes t)
  | S n =>
      match turn tr t with
      | (a, Goes t) | (a, Sleeps t) => let '(a', s) := rounds tr n t in (a ++ a', s)
      | (a, s) => (a, s)
      end
  end.

(** ** The accept loop *)
(** fibers' listener: binding, and the stream of incoming clients, each with the future of its connection. *)
Context {L : Type}.
Variable incoming : L -> fut (option (fut Conn) * L).

(** Models src/server.rs:121-127 [RpcServer]. *)
Inductive aphase := AcA (f : fut L) | AcB (f : fut (option (fut Conn) * L)).
(** src/server.rs:132-165. *)
Inductive astep := AGoes (a : aphase) | ASleeps (a : aphase) | AStops (k : ekind).
(** Models src/server.rs:131-166: one round of the loop, with the task it spawns. *)
Definition accept_turn (a : aphase) : list task * astep :=
  match a with
  | AcA f =>
      match fpoll f with
      | AReady l => ([], AGoes (AcB (incoming l)))
      | AFailed e => ([], AStops (error_of (FromPhase IxA e)))
      | ANotReady f => ([], ASleeps (AcA f))
      end
  | AcB f =>
      match fpoll f with
      | AReady (Some client, l) => ([task_new client], AGoes (AcB (incoming l)))
      | AReady (None, _) => ([], AStops Invalid)                   (* 144-145 *)
      | AFailed e => ([], AStops (error_of (FromPhase IxB e)))
      | ANotReady f => ([], ASleeps (AcB f))
      end
  end.

(** ** All of it: the accept loop and the connections, in the order an executor runs them.
    fibers polls each spawned future by itself; a connection that ended in whatever way is not polled again.  What an
    executor does after a panic is not modelled. src/server.rs:121-127,159. *)
Record server := mkServer { v_accept : astep; v_tasks : list sstep }.
(** src/server.rs:107-117 [start]. *)
Definition server_new (bind : fut L) : server := mkServer (AGoes (AcA bind)) [].
(** The executor's choice; src/server.rs:159 hands the tasks to it. *)
Inductive who := Acceptor | Connection (i : nat).
(** What is seen from outside: src/server.rs:159, and what the connections do. *)
Inductive event := ESpawn (i : nat) | EAct (i : nat) (a : sact).

(** A list with one element replaced; not in the code. *)
Fixpoint update {A} (i : nat) (x : A) (l : list A) : list A :=
  match l, i with [], _ => [] | _ :: l, O => x :: l | y :: l, S i => y :: update i x l end.

(** One round of src/server.rs:132-165 or 181-270. *)
Definition serve_step (tr : trie hproc) (w : who) (s : server) : list event * server :=
  match w with
  | Acceptor =>
      match v_accept s with
      | AGoes a | ASleeps a =>
          let '(ts, st) := accept_turn a in
          (map (fun i => ESpawn (length (v_tasks s) + i)) (seq 0 (length ts)), mkServer st (v_tasks s ++ map Goes ts))
      | AStops _ => ([], s)
      end
  | Connection i =>
      match nth_error (v_tasks s) i with
      | Some (Goes t) | Some (Sleeps t) =>
          let '(a, st) := turn tr t in (map (EAct i) a, mkServer (v_accept s) (update i st (v_tasks s)))
      | _ => ([], s)
      end
  end.
(** Rounds in the order of a schedule; not in the code. *)
Fixpoint serve_run (tr : trie hproc) (sched : list who) (s : server) : list event * server :=
  match sched with
  | [] => ([], s)
  | w :: r => let '(e, s) := serve_step tr w s in let '(e', s) := serve_run tr r s in (e ++ e', s)
  end.
End Server.
Arguments request : clear implicits.
Arguments link : clear implicits.
Arguments hproc : clear implicits.
Arguments task : clear implicits.
Arguments sstep : clear implicits.
Arguments sact : clear implicits.
Arguments arrival : clear implicits.
Arguments aphase : clear implicits.
Arguments astep : clear implicits.
Arguments server : clear implicits.
Arguments event : clear implicits.
