(** * Calls through a pool, each connection with a server at its other end: what it means that the network keeps the
    messages of a connection in order, and what a call's own answer is. *)
From Verif Require Import Base Utf8 Decimal DepUrl Serde Procedure FieldSpec Status SerHeader SerRequest SerResponse DeHeader DeRequest DeResponse Router RouterSpec DepHttp
  Error Client ClientSpec Server ServerSpec EndToEndSpec SessionSpec Pool PoolSystem PoolSystemSpec.
Open Scope N_scope.

(** Two lists say the same wherever both say something. *)
Definition agrees {A} (l1 l2 : list A) : Prop := forall n x y, nth_error l1 n = Some x -> nth_error l2 n = Some y -> x = y.

(** The requests written on a connection, in order, by whichever call, and how many responses were asked for on it. *)
Definition method_of (s : psys) (i : nat) : option method := option_map (fun pc => pr_method (c_proc pc)) (nth_error (s_calls s) i).
Definition asks (s : psys) (c : conn) (e : pevent) : list asking :=
  match e with
  | EAct i (Write r b c') => if Nat.eqb c c' then match method_of s i with Some m => [mkAsking m r b] | None => [] end else []
  | _ => []
  end.
Definition asked_on (s : psys) (c : conn) (tr : list pevent) : list asking := flat_map (asks s c) tr.
Definition heads (c : conn) (tr : list pevent) : nat :=
  length (filter (fun e => match e with EAct _ (ReadHead c') => Nat.eqb c c' | _ => false end) tr).

Section Servers.
Context `{floatlib} `{urlenv} `{httpenv} {SConn R : Type}.
Variable explain : request SConn -> ekind -> ustr * option ustr * option (list ustr).
Variable reason : status -> ustr.
(** A server at every address; [near c] is what it accepted when connection [c] was opened. *)
Variables (ln : link SConn) (ps : saddr -> list (hproc SConn R)) (near : conn -> SConn).
Variables (queue : SConn -> list asking) (content : SConn -> bytes).

(** ** The server's side: it reads what is in the queue, in order; nothing else touches the queue. *)
Record reading : Prop := {
  rd_read : forall s q, settle (l_read ln s) = Comes (Got q) -> exists a rest, queue s = a :: rest /\ reads_request content a q /\ queue (q_conn q) = rest;
  rd_write : forall h b s s', settle (l_write ln h b s) = Comes s' -> queue s' = queue s;
  rd_drain : forall q q', settle (l_drain ln q) = Comes q' -> queue (q_conn q') = queue (q_conn q);
  rd_body : forall a p v q q' x, In p (ps a) -> settle (hp_body p v q) = Comes (q', x) -> queue (q_conn q') = queue (q_conn q)
}.

(** ** The client's side *)
(** What the server at an address has written on a connection after [k] rounds; the [n]th response it writes, if it does. *)
Definition replies_on (a : saddr) (c : conn) (k : nat) : list replying :=
  replied (fst (rounds explain reason ln (build (registrations (ps a))) k (task_new (Ready (near c))))).
Definition nth_reply (a : saddr) (c : conn) (n : nat) (h : respb) (b : option bytes) : Prop := exists k, nth_error (replies_on a c k) n = Some (h, b).
Definition head_of (x : response conn) (h : respb) : Prop :=
  r_code x = code_of (pb_status h) /\ (forall hs, deliver (pb_headers h) = Some hs -> r_headers x = hs).
(** The [n]th response asked for on a connection, if it comes, is the [n]th the server wrote on it; and so is its body. *)
Definition act_ok (opened : conn -> saddr -> Prop) (w : wire conn) (before : list pevent) (a : act conn) : Prop :=
  match a with
  | Write _ _ _ => True
  | ReadHead c => forall x ad, settle (w_head w c) = Comes x -> opened c ad -> exists h b, nth_reply ad c (heads c before) h b /\ head_of x h
  | ReadBody x => forall x' b, settle (w_body w x) = Comes (x', b) -> r_code x' = r_code x /\ r_headers x' = r_headers x /\
      forall ad, opened (r_conn x) ad -> exists h, nth_reply ad (r_conn x) (pred (heads (r_conn x) before)) h (Some b)
  end.
Fixpoint acts_ok (opened : conn -> saddr -> Prop) (w : wire conn) (before : list pevent) (t : list pevent) : Prop :=
  match t with
  | [] => True
  | e :: t => match e with EAct _ a => act_ok opened w before a | _ => True end /\ acts_ok opened w (before ++ [e]) t
  end.
(** This for everything done in a run; the labels of a run carry what the network does with what the poll starts. *)
Fixpoint orderly (opened : conn -> saddr -> Prop) (before : list pevent) (lg : list (plabel * list pevent)) : Prop :=
  match lg with
  | [] => True
  | (l, t) :: r => match l with LPoll _ w => acts_ok opened w before t | _ => True end /\ orderly opened (before ++ t) r
  end.

(** ** The answer to a call: the server at its address replies to the call's request, as it reads it, with something of
    which the client makes this value and this body. *)
Definition own_answer (pc : pcall) (v : value) (b : bytes) : Prop :=
  exists r q s' h b0,
    encode_request (pr_entry (c_proc pc)) (fst (c_req pc)) (N.of_nat (length (snd (c_req pc)))) = Ok r /\
    reads_request content (mkAsking (pr_method (c_proc pc)) r (snd (c_req pc))) q /\
    reply_to explain reason ln (ps (c_addr pc)) q = Sends s' h b0 /\
    (forall hs, deliver (pb_headers h) = Some hs -> de_response (code_of (pb_status h)) hs (pr_resp (c_proc pc)) = Ok v) /\
    b = match pr_method (c_proc pc) with MHead => [] | _ => b0 end.
End Servers.
