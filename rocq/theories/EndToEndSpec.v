(** * A client and a server joined by a network: what it means that the network carries messages. *)
From Verif Require Import Base Utf8 Decimal DepUrl Serde Procedure ScalarSpec FieldSpec Status SerHeader SerRequest SerResponse DeHeader DeRequest DeResponse Router RouterSpec DepHttp
  HeaderProofs RequestArrives ResponseTrip Error Client ClientSpec Server ServerSpec.
Open Scope N_scope.

Section Joined.
Context `{floatlib} `{urlenv} `{httpenv} {CConn SConn R : Type}.
Variable explain : request SConn -> ekind -> ustr * option ustr * option (list ustr).
Variable reason : status -> ustr.
Variables (w : wire CConn) (ln : link SConn) (ps : list (hproc SConn R)).
(** The server's end of a connection on which a request has been written, and the request body that waits on an end. *)
Variables (peer : CConn -> SConn) (content : SConn -> bytes).

(** The request written by the client is the one the server reads: same method and target, headers as HTTP delivers them,
    same body. *)
Definition carries_requests (m : method) : Prop := forall r b c c1, settle (w_write w r b c) = Comes c1 ->
  exists q, settle (l_read ln (peer c1)) = Comes (Got q) /\ q_method q = m /\ q_target q = rb_target r /\
    (forall hs, deliver (rb_headers r) = Some hs -> q_headers q = hs) /\ content (q_conn q) = b.

(** The response the server's connection writes first is the one the client reads. *)
Definition carries_responses : Prop := forall c1 k h body s a,
  fst (rounds explain reason ln (build (registrations ps)) k (task_new (Ready (peer c1)))) = ARead (peer c1) :: AWrite h body s :: a ->
  exists x, settle (w_head w c1) = Comes x /\ r_code x = code_of (pb_status h) /\
    (forall hs, deliver (pb_headers h) = Some hs -> r_headers x = hs) /\
    forall b, body = Some b -> settle (w_body w x) = Comes (x, b).

(** Responses that arrive unchanged at a client expecting a given type (C19). *)
Inductive suits : ty -> value -> Prop :=
| SuUnit n variants x st : status_from_str x = Ok st -> assoc x variants = Some VUnit ->
    suits (TEnum n variants) (SUnitVariant n x)
| SuVariant n variants x st o l : status_from_str x = Ok st -> assoc x variants = Some (VStruct (head_ty o)) ->
    header_fits o l -> forallb safe_header l = true -> suits (TEnum n variants) (SStructVariant n x (head_val o))
| SuStruct n k z st o l : in_range k z = true -> (0 <= z)%Z -> code_of st = Z.to_N z ->
    header_fits o l -> forallb safe_header l = true ->
    suits (TStruct n ((u "status", TInt k) :: head_ty o)) (SStruct n ((u "status", SInt k z) :: head_val o)).
End Joined.

(** A network that meets this, to show that there is one: both ends of a connection are one and the same place, which
    holds the request written and not yet read, its body, and the body of the response; the server answers when asked. *)
Record place := mkPlace { asked : option reqb; carried : bytes; answered : option bytes }.
Section Loopback.
Context `{floatlib} `{urlenv} `{httpenv} {R : Type}.
Definition arrived (hs : list header) : list rheader := match deliver hs with Some hs => hs | None => [] end.
Definition loop_link (m : method) : link place := {|
  l_read := fun s => match asked s with
    | Some r => Later (Ready (Got (mkRequest m (rb_target r) (arrived (rb_headers r)) (mkPlace None (carried s) None))))
    | None => Never end;
  l_drain := fun q => Later (Ready q);
  l_write := fun _ _ s => Later (Ready s)
|}.
Variable explain : request place -> ekind -> ustr * option ustr * option (list ustr).
Variable reason : status -> ustr.
Definition loop_wire (m : method) (ps : list (hproc place R)) : wire place := {|
  w_write := fun r b _ => Later (Ready (mkPlace (Some r) b None));
  w_head := fun s => match settle (l_read (loop_link m) s) with
    | Comes (Got q) =>
        match reply_to explain reason (loop_link m) ps q with
        | Sends s h b => Later (Ready (mkResponse (code_of (pb_status h)) (arrived (pb_headers h)) (mkPlace None [] (match q_method q with MHead => None | _ => Some b end))))
        | _ => Never
        end
    | _ => Never
    end;
  w_body := fun x => match answered (r_conn x) with Some b => Later (Ready (x, b)) | None => Never end
|}.
End Loopback.
