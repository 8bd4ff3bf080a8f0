(** * A server's end of a connection as a function of the bytes that come on it, and so a call (C87). *)
From Verif Require Import Base FieldSpec Utf8 Decimal DepUrl Serde Json Procedure Router RouterSpec Status SerHeader SerRequest SerResponse DeHeader DeRequest DeResponse JsonText Problem ProblemSpec Error Client ClientSpec
  Server ServerSpec SessionSpec HttpBytes CutsSpec.
Open Scope nat_scope.

(** The length that a message gives for its body: the one Content-Length there is, in decimal. *)
Definition length_given (hs : list rheader) : option nat :=
  match filter (fun h => ustr_eqb (lowercase (fst h)) (u "content-length")) hs with
  | [h] => option_map N.to_nat (digits_val (snd h))
  | _ => None
  end.
(** A body at the beginning of bytes, and what follows it; without a length it is all that comes until the end. *)
Definition body_in (closed : bool) (hs : list rheader) (s : bytes) : settled (bytes * bytes) :=
  match length_given hs with
  | Some n => if n <=? length s then Comes (firstn n s, skipn n s) else if closed then Breaks FromMiasht else Hangs
  | None => if closed then Comes (s, []) else Hangs
  end.

(** What a handler does with the body of its request: it reads it to the end, or leaves it where it is. *)
Inductive manner (R : Type) :=
| Takes (mk : value -> method -> ustr -> list rheader -> bytes -> R)
| Skips (mk : value -> method -> ustr -> list rheader -> R).
Arguments Takes {R} mk. Arguments Skips {R} mk.
Definition behaves {R : Type} (hp : hproc bconn R) (x : manner R) : Prop :=
  match x with
  | Takes mk => forall v q, hp_body hp v q = fbind (read_body (q_conn q)) (fun '(b, c) =>
      Ready (mkRequest (q_method q) (q_target q) (q_headers q) c, mk v (q_method q) (q_target q) (q_headers q) b))
  | Skips mk => forall v q, settle (hp_body hp v q) = Comes (q, mk v (q_method q) (q_target q) (q_headers q))
  end.

Section Spec.
Context `{floatlib} `{urlenv} {R : Type}.
Variable explained : method -> ustr -> list rheader -> ekind -> ustr * option ustr * option (list ustr).
Variable reason : status -> ustr.
Variable parse : bytes -> parsed (method * ustr * list rheader).
Variable room : nat.
Variable ps : list (hproc bconn R).
Variable manners : hproc bconn R -> manner R.

(** ** The server *)
(** The reply, and the bytes from which the next request is read; or none. *)
Inductive retort := Replies (h : respb) (body : bytes) (rest : bytes) | NoReply (e : ending).
Definition with_body {A} (s : settled A) (f : A -> retort) : retort :=
  match s with Comes x => f x | Breaks _ => NoReply (Failing Other) | Hangs => NoReply Unfinished end.
Definition problem_reply (closed : bool) (hs : list rheader) (st : status) (p : problem) (s : bytes) : retort :=
  with_body (body_in closed hs s) (fun '(_, rest) =>
    Replies (mkRespb st [(u "content-type", u "application/problem+json"); length_header (N.of_nat (length (problem_text p)))]) (problem_text p) rest).
Definition invalid (closed : bool) (m : method) (t : ustr) (hs : list rheader) (k : ekind) : bytes -> retort :=
  let '(title, detail, trail) := explained m t hs k in problem_reply closed hs StBadRequest (Trackable title 400 detail None trail).
Definition handed (closed : bool) (m : method) (t : ustr) (hs : list rheader) (v : value) (x : manner R) (s : bytes) : settled (R * bytes) :=
  match x with
  | Takes mk => match body_in closed hs s with Comes (b, rest) => Comes (mk v m t hs b, rest) | Breaks e => Breaks e | Hangs => Hangs end
  | Skips mk => Comes (mk v m t hs, s)
  end.
Definition retort_to (closed : bool) (m : method) (t : ustr) (hs : list rheader) (s : bytes) : retort :=
  match parse_url t with
  | None => invalid closed m t hs Invalid s
  | Some (mkUrl None _) => NoReply Crashed
  | Some (mkUrl (Some segs) q) =>
      match route_spec (accepted (map (fun p => (hp_method p, hp_entry p, p)) ps)) m segs with
      | inr NotFound => problem_reply closed hs StNotFound (AboutBlank (reason StNotFound) 404) s
      | inr MethodNotAllowed => problem_reply closed hs StMethodNotAllowed (AboutBlank (reason StMethodNotAllowed) 405) s
      | inl p =>
          match de_request (hp_entry p) (mkUrl (Some segs) q) hs (hp_req p) with
          | Err k => invalid closed m t hs k s
          | Panic | Diverge => NoReply Crashed
          | Ok v =>
              with_body (handed closed m t hs v (manners p) s) (fun '(x, rest) =>
                match nsettle (hp_call p x) with
                | Comes (w, b) =>
                    match encode_response w (N.of_nat (length b)) with
                    | Ok h => Replies h b rest
                    | Err k => NoReply (Failing k)
                    | Panic | Diverge => NoReply Crashed
                    end
                | _ => NoReply Unfinished
                end)
          end
      end
  end.
(** The replies to the first [n] requests, and how it goes on: the connection ends, or something is waited for. *)
Fixpoint exchange (n : nat) (closed : bool) (s : bytes) : list (respb * option bytes) * ending :=
  match n with
  | O => ([], Unfinished)
  | S n =>
      match head_in parse room closed s with
      | Comes (Some (Some ((m, t, hs), rest))) =>
          match retort_to closed m t hs rest with
          | Replies h b rest => ((h, match m with MHead => None | _ => Some b end) :: fst (exchange n closed rest), snd (exchange n closed rest))
          | NoReply e => ([], e)
          end
      | Comes (Some None) => ([], Failing Other)
      | Comes None => ([], Closed)
      | _ => ([], Unfinished)
      end
  end.
(** Every request takes at least a byte, so this is all. *)
Definition whole (closed : bool) (s : bytes) : list (respb * option bytes) * ending := exchange (S (length s)) closed s.

(** ** The client *)
Variable parse_back : bytes -> parsed (N * list rheader).
(** What a call comes to: a value and a body, with the bytes from which the next response is read; or not. *)
Inductive finding := Finds (v : value) (body : bytes) (rest : bytes) | NoFind (k : ekind) | Bursts | StillWaits.
Definition found_in (p : proc) (v : value) (body : bytes) (closed : bool) (s : bytes) : finding :=
  match encode_request (pr_entry p) v (N.of_nat (length body)) with
  | Err k => NoFind k
  | Panic | Diverge => Bursts
  | Ok _ =>
      match head_in parse_back room closed s with
      | Comes (Some (Some ((n, hs), rest))) =>
          let content := match pr_method p with MHead => Comes ([], rest) | _ => body_in closed hs rest end in
          match content with
          | Comes (b, rest) => match de_response n hs (pr_resp p) with Ok x => Finds x b rest | Err k => NoFind k | Panic | Diverge => Bursts end
          | Breaks _ => NoFind Other
          | Hangs => StillWaits
          end
      | Hangs => StillWaits
      | _ => NoFind Other
      end
  end.
(** How a call stands. *)
Definition stands (x : result (Conn := bconn)) (y : finding) : Prop :=
  match y with
  | Finds v b rest => exists c, x = Yields v b c /\ stream c = rest
  | NoFind k => x = Fails k
  | Bursts => x = Panics
  | StillWaits => x = Waits
  end.
(** Calls one after the other, as long as they succeed. *)
Fixpoint found_all (es : list errand) (closed : bool) (s : bytes) : list (value * bytes) :=
  match es with
  | [] => []
  | e :: es => match found_in (e_proc e) (e_value e) (e_body e) closed s with Finds v b rest => (v, b) :: found_all es closed rest | _ => [] end
  end.
End Spec.
