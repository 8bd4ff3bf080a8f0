(** * Responses that come for calls through a pool, whether or not the calls can read them. *)
From Verif Require Import Base Utf8 Decimal DepUrl Serde Procedure Status SerHeader SerRequest SerResponse DeHeader DeRequest DeResponse Router DepHttp
  Error Client ClientSpec Server ServerSpec SessionSpec Pool PoolSystem PoolSystemSpec PoolAnswerSpec PoolCauseSpec.
Open Scope N_scope.

Section Reply.
Context `{floatlib} `{urlenv} `{httpenv} {SConn R : Type}.
Variable explain : request SConn -> ekind -> ustr * option ustr * option (list ustr).
Variable reason : status -> ustr.
Variables (ln : link SConn) (ps : saddr -> list (hproc SConn R)) (content : SConn -> bytes).
(** The response and the body are what the server at the call's address replies to the call's request, as it reads it. *)
Definition own_reply (pc : pcall) (x : response conn) (b : bytes) : Prop :=
  exists r q s' h b0,
    encode_request (pr_entry (c_proc pc)) (fst (c_req pc)) (N.of_nat (length (snd (c_req pc)))) = Ok r /\
    reads_request content (mkAsking (pr_method (c_proc pc)) r (snd (c_req pc))) q /\
    reply_to explain reason ln (ps (c_addr pc)) q = Sends s' h b0 /\
    head_of x h /\ b = match pr_method (c_proc pc) with MHead => [] | _ => b0 end.
End Reply.

(** ** A run in which nothing goes wrong: addresses are told apart, every network operation that is begun succeeds, nobody drops the pool,
    its counter suffices, and messages keep their order. *)
Section Untroubled.
Context `{floatlib} `{urlenv} `{httpenv} {SConn R : Type}.
Variable explain : request SConn -> ekind -> ustr * option ustr * option (list ustr).
Variable reason : status -> ustr.
Variables (ln : link SConn) (ps : saddr -> list (hproc SConn R)) (near : conn -> SConn) (queue : SConn -> list asking).
Definition untroubled (checks : bool) (s : psys) (lg : list (plabel * list pevent)) : Prop :=
  let tr := concat (map snd lg) in
  told_apart checks s tr /\ (checks = false \/ given_back tr < 2 ^ 64) /\ Forall goes_well lg /\
  (forall c, agrees (queue (near c)) (asked_on s c tr)) /\ orderly explain reason ln ps near (fun c a => In (EOpen c a) tr) [] lg.
End Untroubled.
