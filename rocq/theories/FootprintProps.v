(** * Property C89: what the server keeps of the bytes that come. *)
From Verif Require Import Base Utf8 Decimal DepUrl Serde Procedure FieldSpec Status SerHeader SerRequest SerResponse DeHeader DeRequest DeResponse Router RouterSpec DepHttp Problem
  Error Client ClientSpec ClientProofs Server ServerSpec EndToEndSpec SessionSpec HttpBytes HttpBytesSpec PoolBytesSpec HttpBytesLeftSpec HttpBytesLeft CutsSpec WholeSpec Whole Footprint FootprintSpec FootprintProofs
  Exhibit PathProps FieldProps RequestProps ResponseProps ProblemProps EndToEndProps SessionProps HttpBytesProps PoolBytesProps HttpBytesLeftProps CutsProps WholeProps.
Open Scope N_scope.

(** In every execution, whatever the peer sends and whenever, and however much is read at a time: while a head is read the server
    keeps no more than the buffer holds, and while a body of a given length is read no more than that or the buffer. *)
Theorem C89_kept (F : floatlib) (U : urlenv) (R : Type) (explain : request bconn -> ekind -> ustr * option ustr * option (list ustr))
  (explained : method -> ustr -> list rheader -> ekind -> ustr * option ustr * option (list ustr)) (reason : status -> ustr)
  (trims : bool) (uri_byte : N -> bool) (sl : limits) (ps : list (hproc bconn R)) (manners : hproc bconn R -> manner R) ls :
  (forall q k, explain q k = explained (q_method q) (q_target q) (q_headers q) k) -> (forall hp, In hp ps -> behaves hp (manners hp)) ->
  let s := frun explain reason trims uri_byte sl ps ls foot_new in
  match reading s with
  | None => (kept s <= most_bytes sl)%nat
  | Some (Some n) => (kept s <= Nat.max (most_bytes sl) n)%nat
  | Some None => True
  end.
Proof. exact (fun Ex Hm => kept_bounded explain explained reason trims uri_byte sl ps manners Ex Hm ls). Qed.
Print Assumptions C89_kept.

(** This is the server of C87: it has written the first of the responses that the bytes call for, and all of them when
    there is nothing more for it to do. *)
Theorem C89_same_server (F : floatlib) (U : urlenv) (R : Type) (explain : request bconn -> ekind -> ustr * option ustr * option (list ustr))
  (explained : method -> ustr -> list rheader -> ekind -> ustr * option ustr * option (list ustr)) (reason : status -> ustr)
  (trims : bool) (uri_byte : N -> bool) (sl : limits) (ps : list (hproc bconn R)) (manners : hproc bconn R -> manner R) ls c :
  (forall q k, explain q k = explained (q_method q) (q_target q) (q_headers q) k) -> (forall hp, In hp ps -> behaves hp (manners hp)) ->
  b_held c = [] -> b_closed c = false -> stream c = sent_by_peer ls ->
  let replies k := replied (fst (rounds explain reason (byte_link trims uri_byte sl) (build (registrations ps)) k (task_new (Ready c)))) in
  let s := frun explain reason trims uri_byte sl ps ls foot_new in
  exists k0, forall k, (k0 <= k)%nat -> prefix (f_sent s) (replies k) /\ ((forall j, fturn explain reason trims uri_byte sl ps j s = s) -> f_sent s = replies k).
Proof. exact (same_server R explain explained reason trims uri_byte sl ps manners ls c). Qed.
Print Assumptions C89_same_server.

(** A request for which there is no procedure is answered the same whatever its body is, but not before all of it has come;
    until then the server keeps every byte of it. *)
Theorem C89_refused_bodies_kept (F : floatlib) (U : urlenv) (R : Type) (explain : request bconn -> ekind -> ustr * option ustr * option (list ustr)) (reason : status -> ustr)
  (trims : bool) (uri_byte : N -> bool) (sl : limits) (ps : list (hproc bconn R)) m t hs st head n : unrouted ps m t st ->
  run (qstep trims uri_byte (most_headers sl)) QStart head = PDone (m, t, hs) [] -> (length head <= most_bytes sl)%nat -> length_given hs = Some n ->
  let run := frun explain reason trims uri_byte sl ps in
  exists x, pb_status (fst x) = st /\ forall b j, length b = n -> (j < n)%nat ->
    let s1 := run [FArrive head; FTurn (length head); FArrive (firstn j b); FTurn j] foot_new in
    let s2 := run [FArrive (skipn j b); FTurn n] s1 in
    (kept s1 = j /\ f_sent s1 = []) /\ kept s2 = 0%nat /\ f_sent s2 = [x].
Proof.
  exact (fun Un Hd Hl Hn => ex_intro _ (blamed reason m st) (conj eq_refl (fun b j => refused_kept explain reason trims uri_byte sl ps m t hs st Un head Hd Hl n b j (eq_trans (eq_sym (length_given_ok hs)) Hn)))).
Qed.
Print Assumptions C89_refused_bodies_kept.

(** So what a peer can make the server keep has no bound: a request without a procedure and without a length will do. *)
Theorem C89_bound_refuted (F : floatlib) (U : urlenv) (R : Type) (explain : request bconn -> ekind -> ustr * option ustr * option (list ustr)) (reason : status -> ustr)
  (trims : bool) (uri_byte : N -> bool) (sl : limits) (ps : list (hproc bconn R)) m t st : unrouted ps m t st ->
  t <> [] -> (forall c, In c t -> uri_byte c = true /\ c <> 32) -> (length (request_head m (mkReqb t [])) <= most_bytes sl)%nat ->
  forall most, exists ls, (most < kept (frun explain reason trims uri_byte sl ps ls foot_new))%nat /\ f_sent (frun explain reason trims uri_byte sl ps ls foot_new) = [].
Proof. exact (unbounded R explain reason trims uri_byte sl ps m t st). Qed.
Print Assumptions C89_bound_refuted.

(** ** Cases: what is kept of the three requests of C74 when some of their bytes have come; and of the body of a request for
    which there is no procedure, 8999 of its 9000 bytes, more than the buffer holds. *)
Definition ex_frun := let F := ex_float in let U := ex_url in frun ex_explainb ex_reason true ex_uri server_limits ex_psl.
Definition ex_nope (n : N) : bytes := request_head MGet (mkReqb (u "/nope") [(u "content-length", show_N n)]).
Example C89_case : let F := ex_float in let U := ex_url in
  (forall q k, ex_explainb q k = ex_explained (q_method q) (q_target q) (q_headers q) k) /\ (forall hp, In hp ex_psl -> behaves hp (ex_manners hp)) /\
  (let s := ex_frun [FArrive (firstn 300 ex_sentl); FTurn 200; FTurn 500] foot_new in kept s = 19%nat /\ map snd (f_sent s) = [Some [7]; Some [3; 2; 1]]) /\
  (let s := ex_frun [FArrive (firstn 280 ex_sentl); FTurn 200; FTurn 500] foot_new in kept s = 2%nat /\ reading s = Some (Some 3%nat) /\ map snd (f_sent s) = [Some [7]]) /\
  (let s := ex_frun [FArrive ex_sentl; FTurn 500; FTurn 1; FTurn 1] foot_new in kept s = 0%nat /\ map snd (f_sent s) = [Some [7]; Some [3; 2; 1]; Some [7]]).
Proof.
  split; [reflexivity|]. split; [intros hp [<-|[<-|[]]]; cbn; reflexivity|]. vm_compute. repeat split; reflexivity.
Qed.
Example C89_refused_case : let F := ex_float in let U := ex_url in
  unrouted ex_psl MGet (u "/nope") StNotFound /\
  (exists hs, run (qstep true ex_uri (most_headers server_limits)) QStart (ex_nope 9000) = PDone (MGet, u "/nope", hs) [] /\ length_given hs = Some (N.to_nat 9000)) /\
  (length (ex_nope 9000) <=? most_bytes server_limits)%nat = true /\
  (let s := ex_frun [FArrive (ex_nope 9000); FTurn 500; FArrive (repeat 7 (N.to_nat 8999)); FTurn (N.to_nat 8999)] foot_new in N.of_nat (kept s) = 8999 /\ f_sent s = []) /\
  (let s := ex_frun [FArrive (ex_nope 9000); FTurn 500; FArrive (repeat 7 (N.to_nat 9000)); FTurn (N.to_nat 9000)] foot_new in
   kept s = 0%nat /\ map (fun x => pb_status (fst x)) (f_sent s) = [StNotFound]) /\
  (forall c, In c (u "/nope") -> ex_uri c = true /\ c <> 32) /\ (length (request_head MGet (mkReqb (u "/nope") [])) <=? most_bytes server_limits)%nat = true.
Proof.
  split; [exists [u "nope"], None, NotFound; vm_compute; repeat split; reflexivity|].
  split; [exists [(u "content-length", u "9000")]; split; vm_compute; reflexivity|].
  split; [vm_compute; reflexivity|]. split; [vm_compute; split; reflexivity|]. split; [vm_compute; split; reflexivity|].
  split; [intros c [<-|[<-|[<-|[<-|[<-|[]]]]]]; split; (reflexivity || discriminate) | vm_compute; reflexivity].
Qed.
