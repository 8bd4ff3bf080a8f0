(** * Calls through a pool whose connections carry bytes (C73). *)
From Verif Require Import Base Utf8 Decimal DepUrl Serde Procedure FieldSpec Status SerHeader SerRequest SerResponse DeHeader DeRequest DeResponse Router RouterSpec DepHttp
  Error Client ClientSpec Server ServerSpec EndToEndSpec SessionSpec Pool PoolSystem PoolSystemSpec PoolAnswerSpec PoolCauseSpec HttpBytes HttpBytesSpec.
Open Scope N_scope.

(** Two byte strings agree as far as both go. *)
Definition agreeing (a b : bytes) : Prop := prefix a b \/ prefix b a.

(** ** The client's ends of the connections of a pool *)
(** What reading does to them. *)
Definition put_conn (st : conn -> bconn) (c : conn) (x : bconn) : conn -> bconn := fun d => if Nat.eqb c d then x else st d.
Definition after_act (trims : bool) (cl : limits) (st : conn -> bconn) (e : pevent) : conn -> bconn :=
  match e with
  | EAct _ (ReadHead c) => match settle (byte_head trims cl (st c)) with Comes x => put_conn st c (r_conn x) | _ => st end
  | EAct _ (ReadBody x) => match settle (read_body (st (r_conn x))) with Comes (_, c') => put_conn st (r_conn x) c' | _ => st end
  | _ => st
  end.
Definition after_acts (trims : bool) (cl : limits) (t : list pevent) (st : conn -> bconn) : conn -> bconn := fold_left (after_act trims cl) t st.
(** A response or a body that comes is what the client's HTTP reads from the bytes of the connection.  Reading may also
    fail, or never end, for any other reason. *)
Definition act_bytes (trims : bool) (cl : limits) (st : conn -> bconn) (w : wire conn) (e : pevent) : Prop :=
  match e with
  | EAct _ (ReadHead c) => forall x, settle (w_head w c) = Comes x -> exists c', settle (byte_head trims cl (st c)) = Comes (mkResponse (r_code x) (r_headers x) c')
  | EAct _ (ReadBody x) => forall x' b, settle (w_body w x) = Comes (x', b) ->
      r_code x' = r_code x /\ r_headers x' = r_headers x /\ exists c', settle (read_body (st (r_conn x))) = Comes (b, c')
  | _ => True
  end.
Fixpoint acts_bytes (trims : bool) (cl : limits) (st : conn -> bconn) (w : wire conn) (t : list pevent) : Prop :=
  match t with
  | [] => True
  | e :: t => act_bytes trims cl st w e /\ acts_bytes trims cl (after_act trims cl st e) w t
  end.
(** This for everything done in a run. *)
Fixpoint read_off (trims : bool) (cl : limits) (st : conn -> bconn) (lg : list (plabel * list pevent)) : Prop :=
  match lg with
  | [] => True
  | (l, t) :: r => match l with LPoll _ w => acts_bytes trims cl st w t | _ => True end /\ read_off trims cl (after_acts trims cl t st) r
  end.

Section Servers.
Context `{floatlib} `{urlenv} {R : Type}.
Variable explain : request bconn -> ekind -> ustr * option ustr * option (list ustr).
Variable reason : status -> ustr.
Variables (trims : bool) (uri_byte : N -> bool) (cl sl : limits).
(** A server at every address; [far c] and [near c] are the two ends of connection [c], the client's and the server's. *)
Variables (ps : saddr -> list (hproc bconn R)) (far near : conn -> bconn).
Notation ln := (byte_link trims uri_byte sl).
Notation replies_on := (replies_on explain reason ln ps near).

(** A handler that takes the body of a request, and no more, from the connection. *)
Definition takes_body (hp : hproc bconn R) : Prop := forall v q q' x n, settle (hp_body hp v q) = Comes (q', x) -> b_left (q_conn q) = Some n ->
  exists body, length body = n /\ stream (q_conn q) = body ++ stream (q_conn q').

(** TCP and HTTP: what comes in at one end of a connection is, as far as it goes, what was written at the other, and
    the messages are such as HTTP can carry. *)
Record over_tcp (s : psys) (lg : list (plabel * list pevent)) : Prop := {
  ot_takes : forall a hp, In hp (ps a) -> takes_body hp;
  ot_near : forall c, agreeing (stream (near c)) (flat_map asking_bytes (asked_on s c (concat (map snd lg))));
  ot_asked : forall c x, In x (asked_on s c (concat (map snd lg))) -> fit_request uri_byte sl (a_method x) (a_request x) (a_body x);
  ot_far : forall c a, In (EOpen c a) (concat (map snd lg)) -> exists k, prefix (stream (far c)) (flat_map (replying_bytes reason) (replies_on a c k));
  ot_replied : forall c a n h b, In (EOpen c a) (concat (map snd lg)) -> nth_reply explain reason ln ps near a c n h b -> (n < length (asked_on s c (concat (map snd lg))))%nat -> exists b0, fit_response reason cl h b0 /\ (b = None \/ b = Some b0);
  ot_read : read_off trims cl far lg
}.

(** A response, or an answer, is the one that the server at the call's address makes of the call's own request. *)
Definition arrives_as (a : asking) (q : request bconn) : Prop :=
  q_method q = a_method a /\ q_target q = rb_target (a_request a) /\ q_headers q = rb_headers (a_request a) /\ exists z, waiting (q_conn q) (a_body a) z.
Definition own_reply_bytes (pc : pcall) (code : N) (hs : list rheader) (b : bytes) : Prop :=
  exists r q s' h b0,
    encode_request (pr_entry (c_proc pc)) (fst (c_req pc)) (N.of_nat (length (snd (c_req pc)))) = Ok r /\
    arrives_as (mkAsking (pr_method (c_proc pc)) r (snd (c_req pc))) q /\
    reply_to explain reason ln (ps (c_addr pc)) q = Sends s' h b0 /\
    code = code_of (pb_status h) /\ hs = pb_headers h /\ b = match pr_method (c_proc pc) with MHead => [] | _ => b0 end.
End Servers.

(** ** A run in which nothing goes wrong: addresses are told apart, the pool's counter suffices, every network operation
    that is begun succeeds, nobody drops the pool, and bytes go from end to end. *)
Definition untroubled_bytes `{floatlib} `{urlenv} {R : Type} explain reason (trims : bool) (uri_byte : N -> bool) (cl sl : limits) (ps : saddr -> list (hproc bconn R)) (far near : conn -> bconn)
    (checks : bool) (s : psys) (lg : list (plabel * list pevent)) : Prop :=
  let tr := concat (map snd lg) in
  told_apart checks s tr /\ (checks = false \/ given_back tr < 2 ^ 64) /\ Forall goes_well lg /\ over_tcp explain reason trims uri_byte cl sl ps far near s lg.
