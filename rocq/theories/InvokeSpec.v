(** * When a handler is to be run (C91). *)
From Verif Require Import Base DepUrl Serde Procedure Router RouterSpec Status SerHeader SerRequest SerResponse DeHeader DeRequest Error Client ClientSpec Server ServerSpec SessionSpec HttpBytes HttpBytesSpec CutsSpec WholeSpec Invoke.
Open Scope nat_scope.

Section Spec.
Context `{floatlib} `{urlenv} {Conn R : Type}.
Variable explain : request Conn -> ekind -> ustr * option ustr * option (list ustr).
Variable reason : status -> ustr.
Variable ln : link Conn.
Variable ps : list (hproc Conn R).

(** What is seen from outside, and the runs of handlers. *)
Definition outside (l : list (iact Conn R)) : list (sact Conn) := flat_map (fun a => match a with IDoes a => [a] | _ => [] end) l.
Definition invoked (l : list (iact Conn R)) : list (hproc Conn R * R) := flat_map (fun a => match a with IInvokes p x => [(p, x)] | _ => [] end) l.

(** How the state of a connection reads, as [ended]. *)
Definition iended (s : istep Conn R) : option ending :=
  match s with IGoes _ | ISleeps _ => None | IEnds => Some Closed | IStops k => Some (Failing k) | IDies => Some Crashed end.

(** The run of a handler that a request is worth: one, of the procedure for the path and the method, with what it made of
    the request and its body; none if there is no such procedure, the request is not of its type, or the body does not come. *)
Definition run_for (r : request Conn) : list (hproc Conn R * R) :=
  match parse_url (q_target r) with
  | Some (mkUrl (Some segs) q) =>
      match route_spec (accepted (map (fun p => (hp_method p, hp_entry p, p)) ps)) (q_method r) segs with
      | inl p =>
          match de_request (hp_entry p) (mkUrl (Some segs) q) (q_headers r) (hp_req p) with
          | Ok v => match settle (hp_body p v r) with Comes (_, x) => [(p, x)] | _ => [] end
          | _ => []
          end
      | _ => []
      end
  | _ => []
  end.
(** All that happens on a connection for the first [n] requests: each is read, its handler run, its reply written. *)
Fixpoint happenings (n : nat) (connected : fut Conn) : list (iact Conn R) :=
  match n with
  | O => []
  | S n =>
      match settle connected with
      | Comes c =>
          IDoes (ARead c) ::
          match settle (l_read ln c) with
          | Comes (Got r) =>
              map (fun '(p, x) => IInvokes p x) (run_for r) ++
              match reply_to explain reason ln ps r with
              | Sends c h b =>
                  let body := match q_method r with MHead => None | _ => Some b end in
                  IDoes (AWrite h body c) :: happenings n (l_write ln h body c)
              | _ => []
              end
          | _ => []
          end
      | _ => []
      end
  end.
End Spec.

(** ** By the bytes that come *)
Section Bytes.
Context `{floatlib} `{urlenv} {R : Type}.
Variable explained : method -> ustr -> list rheader -> ekind -> ustr * option ustr * option (list ustr).
Variable reason : status -> ustr.
Variable parse : bytes -> parsed (method * ustr * list rheader).
Variable room : nat.
Variable ps : list (hproc bconn R).
Variable manners : hproc bconn R -> manner R.

Definition run_in (closed : bool) (m : method) (t : ustr) (hs : list rheader) (s : bytes) : list (hproc bconn R * R) :=
  match parse_url t with
  | Some (mkUrl (Some segs) q) =>
      match route_spec (accepted (map (fun p => (hp_method p, hp_entry p, p)) ps)) m segs with
      | inl p =>
          match de_request (hp_entry p) (mkUrl (Some segs) q) hs (hp_req p) with
          | Ok v => match handed closed m t hs v (manners p) s with Comes (x, _) => [(p, x)] | _ => [] end
          | _ => []
          end
      | _ => []
      end
  | _ => []
  end.
(** The runs of handlers for the first [n] requests. *)
Fixpoint runs (n : nat) (closed : bool) (s : bytes) : list (hproc bconn R * R) :=
  match n with
  | O => []
  | S n =>
      match head_in parse room closed s with
      | Comes (Some (Some ((m, t, hs), rest))) =>
          run_in closed m t hs rest ++
          match retort_to explained reason ps manners closed m t hs rest with
          | Replies _ _ rest => runs n closed rest
          | NoReply _ => []
          end
      | _ => []
      end
  end.
(** Every request takes at least a byte, so this is all. *)
Definition all_runs (closed : bool) (s : bytes) : list (hproc bconn R * R) := runs (S (length s)) closed s.

(** What one request is worth by itself, when it has come to its end. *)
Definition worth_of (m : method) (t : ustr) (hs : list rheader) (body : bytes) : list (hproc bconn R * R) :=
  match parse_url t with
  | Some (mkUrl (Some segs) q) =>
      match route_spec (accepted (map (fun p => (hp_method p, hp_entry p, p)) ps)) m segs with
      | inl p =>
          match de_request (hp_entry p) (mkUrl (Some segs) q) hs (hp_req p) with
          | Ok v => [(p, match manners p with Takes mk => mk v m t hs body | Skips mk => mk v m t hs end)]
          | _ => []
          end
      | _ => []
      end
  | _ => []
  end.
Definition worth (a : asking) : list (hproc bconn R * R) := worth_of (a_method a) (rb_target (a_request a)) (rb_headers (a_request a)) (a_body a).
End Bytes.
