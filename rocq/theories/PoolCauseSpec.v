(** * Why a call through a pool, or the pool itself, is lost: the causes that a run shows. *)
From Verif Require Import Base Serde Procedure Router SerRequest DeHeader DeResponse DepUrl Error Client ClientSpec Pool PoolSystem PoolSystemSpec.
Open Scope N_scope.

(** What call [i] did, with the network of the poll in which it did it. *)
Definition did (lg : list (plabel * list pevent)) (i : nat) (w : wire conn) (a : act conn) : Prop := exists t, In (LPoll i w, t) lg /\ In (EAct i a) t.
(** A response and a body came for the call; a response to HEAD has no body. *)
Definition received (m : method) (lg : list (plabel * list pevent)) (i : nat) (x : response conn) (b : bytes) : Prop :=
  match m with
  | MHead => b = [] /\ exists w c, did lg i w (ReadHead c) /\ settle (w_head w c) = Comes x
  | _ => exists w x0, did lg i w (ReadBody x0) /\ settle (w_body w x0) = Comes (x, b)
  end.
(** Writing or reading failed for the call. *)
Definition disturbed (lg : list (plabel * list pevent)) (i : nat) (e : source) : Prop := exists w,
  (exists r b c, did lg i w (Write r b c) /\ settle (w_write w r b c) = Breaks e) \/
  (exists c, did lg i w (ReadHead c) /\ settle (w_head w c) = Breaks e) \/
  (exists x, did lg i w (ReadBody x) /\ settle (w_body w x) = Breaks e).
(** Opening a connection failed, in some turn of the pool. *)
Definition unconnected (lg : list (plabel * list pevent)) (e : source) : Prop := exists now f, In (LPool now f, []) lg /\ settle f = Breaks e.
(** Somebody reported the address. *)
Definition reported (lg : list (plabel * list pevent)) (a : saddr) : Prop := exists j, In (EBlacklist j a) (concat (map snd lg)).

Section Causes.
Context `{floatlib} `{urlenv}.
Definition encoding (pc : pcall) : res reqb := encode_request (pr_entry (c_proc pc)) (fst (c_req pc)) (N.of_nat (length (snd (c_req pc)))).
Definition decoding_of (pc : pcall) (x : response conn) : res value := de_response (r_code x) (r_headers x) (pr_resp (c_proc pc)).

(** Why a call ended in an error: the request cannot be written; writing or reading failed; the response cannot be read; its own
    attempt to connect failed; its address was reported before; there is no pool. *)
Definition cause (s : psys) (lg : list (plabel * list pevent)) (i : nat) (pc : pcall) (k : ekind) : Prop :=
  encoding pc = Err k \/
  (exists e, disturbed lg i e /\ k = error_of e) \/
  (exists x b, received (pr_method (c_proc pc)) lg i x b /\ decoding_of pc x = Err k) \/
  (exists e, unconnected lg e /\ In (EBlacklist i (c_addr pc)) (concat (map snd lg)) /\ k = error_of e) \/
  (reported lg (c_addr pc) /\ k = Other) \/
  (s_pool s = None /\ k = Other).
(** Why it ended as it did. *)
Definition explained (s : psys) (lg : list (plabel * list pevent)) (i : nat) (pc : pcall) : Prop :=
  match c_state pc with
  | Acquiring _ | Talking _ _ => True
  | Finished v b => exists x, received (pr_method (c_proc pc)) lg i x b /\ decoding_of pc x = Ok v
  | Broken k => cause s lg i pc k
  | Dropped => In (LDrop i, []) lg
  | Panicked => ~ safe (encoding pc) \/ exists x b, received (pr_method (c_proc pc)) lg i x b /\ ~ safe (decoding_of pc x)
  end.
End Causes.

(** ** The pool *)
Definition given_back (tr : list pevent) : N := N.of_nat (length (filter (fun e => match e with ERelease _ _ _ => true | _ => false end) tr)).
(** Why it is gone: it was dropped; a time that cannot be represented; more connections given back than its counter can number. *)
Definition pool_cause (tmax : Z) (checks : bool) (d : Z) (lg : list (plabel * list pevent)) : Prop :=
  In LPoolDrop (map fst lg) \/
  (exists now f a, In (LPool now f) (map fst lg) /\ reported lg a /\ (tmax < now + d)%Z) \/
  (checks = true /\ 2 ^ 64 <= given_back (concat (map snd lg))).

(** ** When everything goes well *)
(** Connecting, writing and reading come to something whenever they are tried; nobody drops the pool. *)
Definition comes {A} (f : fut A) : Prop := exists x, settle f = Comes x.
Definition done_well (w : wire conn) (e : pevent) : Prop :=
  match e with
  | EAct _ (Write r b c) => comes (w_write w r b c)
  | EAct _ (ReadHead c) => comes (w_head w c)
  | EAct _ (ReadBody x) => comes (w_body w x)
  | _ => True
  end.
Definition goes_well (x : plabel * list pevent) : Prop :=
  match fst x with
  | LPool _ f => comes f
  | LPoll _ w => Forall (done_well w) (snd x)
  | LPoolDrop => False
  | _ => True
  end.
