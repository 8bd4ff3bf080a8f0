(** * Property C94: what a call keeps of the bytes that come. *)
From Verif Require Import Base Utf8 Decimal DepUrl Serde Procedure FieldSpec Status SerHeader SerRequest SerResponse DeHeader DeRequest DeResponse Router RouterSpec DepHttp Problem
  Error Client ClientSpec ClientProofs Server ServerSpec EndToEndSpec SessionSpec HttpBytes HttpBytesSpec PoolBytesSpec HttpBytesLeftSpec HttpBytesLeft CutsSpec WholeSpec Whole ClientFoot ClientFootSpec ClientFootProofs
  Exhibit PathProps FieldProps RequestProps ResponseProps ProblemProps EndToEndProps SessionProps HttpBytesProps PoolBytesProps HttpBytesLeftProps CutsProps.
Open Scope N_scope.

(** In every execution, whatever the peer sends and whenever, and however much is read at a time: while a head is read, and when
    it has come to an end, a call keeps no more than the buffer holds, and while a body of a given length is read no more than
    that or the buffer; if the method is HEAD, never more than the buffer holds. *)
Theorem C94_kept (F : floatlib) (trims : bool) (cl : limits) (p : proc) ls held : (length held <= most_bytes cl)%nat ->
  let s := krun trims cl p ls (kfoot_new held) in
  match awaiting s with
  | None => (holding s <= most_bytes cl)%nat
  | Some (Some n) => (holding s <= Nat.max (most_bytes cl) n)%nat
  | Some None => True
  end /\ (pr_method p = MHead -> (holding s <= most_bytes cl)%nat).
Proof. exact (call_keeps trims cl p ls held). Qed.
Print Assumptions C94_kept.

(** This is the call of C87: when it has come to something, that is what the call comes to by the bytes that have come, and
    leaves what follows them on the connection; when no poll changes it any more, the call waits. *)
Theorem C94_same_call (F : floatlib) (U : urlenv) (trims : bool) (cl : limits) (p : proc) ls v body c h :
  (length (b_held c) <= most_bytes cl)%nat -> encode_request (pr_entry p) v (N.of_nat (length body)) = Ok h ->
  stream c = b_held c ++ sent_back ls -> b_closed c = closed_by ls ->
  let result k := reads_as (snd (drive (byte_wire trims cl) p k (call_new (v, body) (Ready c)))) in
  let s := krun trims cl p ls (kfoot_new (b_held c)) in
  exists k0, forall k, (k0 <= k)%nat ->
    match spent s with Some x => stands (result k) x | None => (forall j, kturn trims cl p j s = s) -> result k = Waits end.
Proof. exact (same_call trims cl p ls v body c h). Qed.
Print Assumptions C94_same_call.

(** A response whose status or headers are not the procedure's fails the call the same whatever its body is, but not before
    all of that has come; until then the call keeps every byte of it. *)
Theorem C94_refused_bodies_kept (F : floatlib) (trims : bool) (cl : limits) (p : proc) head code hs n b j k : pr_method p <> MHead ->
  run (pstep trims (most_headers cl)) (PVersion (u "HTTP/1.1 ")) head = PDone (code, hs) [] -> (length head <= most_bytes cl)%nat -> length_given hs = Some n ->
  de_response code hs (pr_resp p) = Err k -> length b = n -> (j < n)%nat ->
  let run := krun trims cl p in
  let s1 := run [KArrive head; KTurn (length head); KArrive (firstn j b); KTurn j] (kfoot_new []) in
  let s2 := run [KArrive (skipn j b); KTurn n] s1 in
  (holding s1 = j /\ spent s1 = None) /\ holding s2 = 0%nat /\ spent s2 = Some (NoFind k).
Proof. exact (kept_to_the_end trims cl p head code hs n b j k). Qed.
Print Assumptions C94_refused_bodies_kept.

(** So what a peer can make a call keep has no bound, whatever the procedure (but for HEAD): a response without a length will
    do. *)
Theorem C94_bound_refuted (F : floatlib) (trims : bool) (cl : limits) (p : proc) : pr_method p <> MHead ->
  (length (u "HTTP/1.1 200 OK" ++ [13; 10; 13; 10]%N) <= most_bytes cl)%nat ->
  forall most, exists ls, (most < holding (krun trims cl p ls (kfoot_new [])))%nat /\ spent (krun trims cl p ls (kfoot_new [])) = None.
Proof. exact (no_bound trims cl p). Qed.
Print Assumptions C94_bound_refuted.

(** ** Cases: the responses of C74 as they come, on a connection that holds 20 bytes of them already; a response that the
    procedure does not know, and 8999 of the 9000 bytes of its body, more than the buffer holds; and one without a length,
    before and after the connection is closed. *)
Definition ex_krun m := let F := ex_float in krun true ex_climits (ex_proc3 m).
Definition ex_alien (n : N) : bytes := u "HTTP/1.1 302 Found" ++ [13; 10] ++ u "Content-Length: " ++ show_N n ++ [13; 10; 13; 10].
Example C94_case : let F := ex_float in let U := ex_url in
  (exists h, encode_request (pr_entry (ex_proc3 MPost)) (e_value (ex_errand MPost [1])) (N.of_nat 1) = Ok h) /\
  (let s := ex_krun MPost [KArrive (skipn 20 ex_backl); KTurn 5; KTurn 500] (kfoot_new (firstn 20 ex_backl)) in
   match spent s with Some (Finds v b rest) => b = [7] /\ rest = skipn (length ex_backl - length rest) ex_backl /\ (0 < length rest)%nat | _ => False end) /\
  (let s := ex_krun MPost [KArrive (firstn 10 ex_backl); KTurn 5; KClose] (kfoot_new []) in holding s = 5%nat /\ spent s = None) /\
  (let s := ex_krun MPost [KArrive (firstn 10 ex_backl); KTurn 5; KClose; KTurn 9; KTurn 1] (kfoot_new []) in spent s = Some (NoFind Other)).
Proof. split; [eexists; reflexivity|]. vm_compute. repeat split; try reflexivity; repeat constructor. Qed.
Example C94_refused_case : let F := ex_float in let U := ex_url in
  (exists hs, run (pstep true (most_headers ex_climits)) (PVersion (u "HTTP/1.1 ")) (ex_alien 9000) = PDone (302, hs) [] /\ length_given hs = Some (N.to_nat 9000) /\
    exists k, de_response 302 hs (pr_resp (ex_proc3 MPost)) = Err k) /\
  (length (ex_alien 9000) <=? most_bytes ex_climits)%nat = true /\
  (let s := ex_krun MPost [KArrive (ex_alien 9000); KTurn 500; KArrive (repeat 7 (N.to_nat 8999)); KTurn (N.to_nat 8999)] (kfoot_new []) in N.of_nat (holding s) = 8999 /\ spent s = None) /\
  (let s := ex_krun MPost [KArrive (ex_alien 9000); KTurn 500; KArrive (repeat 7 (N.to_nat 9000)); KTurn (N.to_nat 9000)] (kfoot_new []) in
   holding s = 0%nat /\ exists k, spent s = Some (NoFind k)) /\
  (let s := ex_krun MHead [KArrive (ex_alien 9000); KTurn 500] (kfoot_new []) in exists k, spent s = Some (NoFind k)) /\
  (length (u "HTTP/1.1 200 OK" ++ [13; 10; 13; 10]%N) <=? most_bytes ex_climits)%nat = true /\
  (let s := ex_krun MPost [KArrive (bare_head ++ [7; 8]); KTurn 500] (kfoot_new []) in holding s = 2%nat /\ awaiting s = Some None) /\
  (let s := ex_krun MPost [KArrive (bare_head ++ [7; 8]); KTurn 500; KClose; KTurn 1] (kfoot_new []) in exists x, spent s = Some x).
Proof.
  split; [exists [(u "Content-Length", u "9000")]; split; [|split]; [vm_compute; reflexivity.. | eexists; vm_compute; reflexivity]|].
  vm_compute. repeat split; try reflexivity; eexists; reflexivity.
Qed.
