(** * What the server is supposed to do, as sequential programs. *)
From Verif Require Import Base FieldSpec Utf8 Decimal DepUrl Serde Json Procedure Router RouterSpec Status SerHeader SerRequest SerResponse DeHeader DeRequest JsonText Problem ProblemSpec Error Client ClientSpec Server.
Open Scope N_scope.

(** What a future of the user comes to; it cannot fail. *)
Fixpoint nsettle {A} (f : nfut A) : settled A := match f with NReady x => Comes x | NLater f => nsettle f | NNever => Hangs end.

Section Spec.
Context `{floatlib} `{urlenv} {Conn R : Type}.
Variable explain : request Conn -> ekind -> ustr * option ustr * option (list ustr).
Variable reason : status -> ustr.
Variable ln : link Conn.
Variable ps : list (hproc Conn R).

(** ** The answer to one request *)
Inductive reply := Sends (c : Conn) (h : respb) (body : bytes) | Refuses (k : ekind) | Crashes | Hesitates.
Definition once {A} (s : settled A) (f : A -> reply) : reply :=
  match s with Comes x => f x | Breaks e => Refuses (error_of e) | Hangs => Hesitates end.
Definition problem_text (p : problem) : bytes := utf8_encode (print_pretty 0 (JObj (document p))).
(** A problem as the response, after the request's body has been read. *)
Definition refusal (r : request Conn) (st : status) (p : problem) : reply :=
  once (settle (l_drain ln r)) (fun r =>
    Sends (q_conn r) (mkRespb st [(u "content-type", u "application/problem+json"); length_header (N.of_nat (length (problem_text p)))]) (problem_text p)).
Definition invalid_request (r : request Conn) (k : ekind) : reply :=
  refusal r StBadRequest (Trackable (fst (fst (explain r k))) 400 (snd (fst (explain r k))) None (snd (explain r k))).

Definition reply_to (r : request Conn) : reply :=
  match parse_url (q_target r) with
  | None => invalid_request r Invalid
  | Some (mkUrl None _) => Crashes
  | Some (mkUrl (Some segs) q) =>
      match route_spec (accepted (map (fun p => (hp_method p, hp_entry p, p)) ps)) (q_method r) segs with
      | inr NotFound => refusal r StNotFound (AboutBlank (reason StNotFound) 404)
      | inr MethodNotAllowed => refusal r StMethodNotAllowed (AboutBlank (reason StMethodNotAllowed) 405)
      | inl p =>
          match de_request (hp_entry p) (mkUrl (Some segs) q) (q_headers r) (hp_req p) with
          | Err k => invalid_request r k
          | Panic | Diverge => Crashes
          | Ok v =>
              once (settle (hp_body p v r)) (fun '(r, q) =>
                once (nsettle (hp_call p q)) (fun '(v, b) =>
                  match encode_response v (N.of_nat (length b)) with
                  | Ok h => Sends (q_conn r) h b
                  | Err k => Refuses k
                  | Panic | Diverge => Crashes
                  end))
          end
      end
  end.

(** ** One connection: up to [n] requests, one after the other *)
Inductive ending := Unfinished | Closed | Failing (k : ekind) | Crashed.
Definition then_ {A} (s : settled A) (f : A -> list (sact Conn) * ending) : list (sact Conn) * ending :=
  match s with Comes x => f x | Breaks e => ([], Failing (error_of e)) | Hangs => ([], Unfinished) end.
Definition performing (a : sact Conn) (r : list (sact Conn) * ending) := (a :: fst r, snd r).
Fixpoint conversation (n : nat) (connected : fut Conn) : list (sact Conn) * ending :=
  match n with
  | O => ([], Unfinished)
  | S n =>
      then_ (settle connected) (fun c =>
        performing (ARead c) (then_ (settle (l_read ln c)) (fun a =>
          match a with
          | Got r =>
              match reply_to r with
              | Sends c h b =>
                  let body := match q_method r with MHead => None | _ => Some b end in
                  performing (AWrite h body c) (conversation n (l_write ln h body c))
              | Refuses k => ([], Failing k)
              | Crashes => ([], Crashed)
              | Hesitates => ([], Unfinished)
              end
          | IoError UnexpectedEof | IoError ConnectionReset => ([], Closed)
          | IoError OtherIo | HttpError => ([], Failing Other)
          end)))
  end.
(** How the state of a connection reads. *)
Definition ended (s : sstep Conn) : option ending :=
  match s with Goes _ | Sleeps _ => None | Ends => Some Closed | Stops k => Some (Failing k) | Dies => Some Crashed end.

(** What may be seen of a connection: reading and writing take turns, each response answers the request read just before,
    without its body for HEAD, and a request is read on what completely writing the previous response left. *)
Inductive dialogue : fut Conn -> list (sact Conn) -> Prop :=
| DNil f : dialogue f []
| DRead f c : settle f = Comes c -> dialogue f [ARead c]
| DBoth f c r c' h b body l :
    settle f = Comes c -> settle (l_read ln c) = Comes (Got r) -> reply_to r = Sends c' h b ->
    body = (match q_method r with MHead => None | _ => Some b end) ->
    dialogue (l_write ln h body c') l -> dialogue f (ARead c :: AWrite h body c' :: l).

(** ** The accept loop: the clients of the first [n] rounds *)
Context {L : Type}.
Variable incoming : L -> fut (option (fut Conn) * L).
Inductive closing := Open | Broken (k : ekind).
Fixpoint clients (n : nat) (f : fut (option (fut Conn) * L)) : list (fut Conn) * closing :=
  match n with
  | O => ([], Open)
  | S n =>
      match settle f with
      | Hangs => ([], Open)
      | Breaks e => ([], Broken (error_of e))
      | Comes (None, _) => ([], Broken Invalid)
      | Comes (Some c, l) => (c :: fst (clients n (incoming l)), snd (clients n (incoming l)))
      end
  end.
Definition accepting (n : nat) (bind : fut L) : list (fut Conn) * closing :=
  match settle bind with Hangs => ([], Open) | Breaks e => ([], Broken (error_of e)) | Comes l => clients n (incoming l) end.
End Spec.
