(** * Property C77: the bytes of messages determine the messages. *)
From Verif Require Import Base Utf8 Decimal DepUrl Serde Procedure ScalarSpec PathSpec FieldSpec Status SerHeader SerRequest SerResponse DeHeader DeRequest DeResponse Router RouterSpec DepHttp
  PathProofs PathTrip RequestArrives ResponseTrip TypeSpec Error Client ClientSpec Server ServerSpec EndToEndSpec SessionSpec HttpBytes HttpBytesSpec HttpBytesProofs HttpBytesLimits MeaningSpec MeaningProofs
  Exhibit PathProps FieldProps RequestProps ResponseProps ProblemProps EndToEndProps SessionProps HttpBytesProps.
Open Scope N_scope.

(** No request that fits is the beginning of the bytes of another, and where one ends and the next begins cannot be read in two ways. *)
Theorem C77_one_request (uri_byte : N -> bool) (sl : limits) x y z1 z2 :
  fit_request uri_byte sl (a_method x) (a_request x) (a_body x) -> fit_request uri_byte sl (a_method y) (a_request y) (a_body y) ->
  asking_bytes x ++ z1 = asking_bytes y ++ z2 -> x = y /\ z1 = z2.
Proof. exact (one_asking uri_byte sl x y z1 z2). Qed.
Print Assumptions C77_one_request.
(** So the bytes of a connection determine the requests on it, and what has come so far determines the first of them. *)
Theorem C77_one_sequence (uri_byte : N -> bool) (sl : limits) xs ys z :
  (forall x, In x xs -> fit_request uri_byte sl (a_method x) (a_request x) (a_body x)) ->
  (forall y, In y ys -> fit_request uri_byte sl (a_method y) (a_request y) (a_body y)) ->
  flat_map asking_bytes xs ++ z = flat_map asking_bytes ys -> exists rest, ys = xs ++ rest /\ z = flat_map asking_bytes rest.
Proof. exact (one_sequence uri_byte sl xs ys z). Qed.
Print Assumptions C77_one_sequence.
(** Likewise responses. *)
Theorem C77_one_response (reason : status -> ustr) (cl : limits) h1 b1 z1 h2 b2 z2 : fit_response reason cl h1 b1 -> fit_response reason cl h2 b2 ->
  response_head reason h1 ++ b1 ++ z1 = response_head reason h2 ++ b2 ++ z2 -> h1 = h2 /\ b1 = b2 /\ z1 = z2.
Proof. exact (one_response reason cl h1 b1 z1 h2 b2 z2). Qed.
Print Assumptions C77_one_response.
(** Two calls of a procedure that put the same bytes on a connection have the same value and body. *)
Theorem C77_one_value (F : floatlib) (U : urlenv) (uri_byte : N -> bool) (sl : limits) m ep t v1 b1 r1 z1 v2 b2 r2 z2 :
  plain_entry ep -> ep <> [] -> sendable ep t v1 -> sendable ep t v2 ->
  encode_request ep v1 (N.of_nat (length b1)) = Ok r1 -> encode_request ep v2 (N.of_nat (length b2)) = Ok r2 ->
  fit_request uri_byte sl m r1 b1 -> fit_request uri_byte sl m r2 b2 ->
  request_head m r1 ++ b1 ++ z1 = request_head m r2 ++ b2 ++ z2 -> v1 = v2 /\ b1 = b2 /\ z1 = z2.
Proof. exact (one_value uri_byte sl m ep t v1 b1 r1 z1 v2 b2 r2 z2). Qed.
Print Assumptions C77_one_value.
(** Two answers that put the same bytes on a connection have the same value and body. *)
Theorem C77_one_answer (F : floatlib) (reason : status -> ustr) (cl : limits) t v1 b1 h1 z1 v2 b2 h2 z2 : suits t v1 -> suits t v2 ->
  encode_response v1 (N.of_nat (length b1)) = Ok h1 -> encode_response v2 (N.of_nat (length b2)) = Ok h2 ->
  fit_response reason cl h1 b1 -> fit_response reason cl h2 b2 ->
  response_head reason h1 ++ b1 ++ z1 = response_head reason h2 ++ b2 ++ z2 -> v1 = v2 /\ b1 = b2 /\ z1 = z2.
Proof. exact (one_answer reason cl t v1 b1 h1 z1 v2 b2 h2 z2). Qed.
Print Assumptions C77_one_answer.

(** The bytes do not say of which procedure a call is: calls of two procedures can be the same request. *)
Theorem C77_bytes_name_the_procedure_refuted (F : floatlib) (U : urlenv) :
  exists ep1 ep2 t v1 v2 r, plain_entry ep1 /\ plain_entry ep2 /\ sendable ep1 t v1 /\ sendable ep2 t v2 /\ ep1 <> ep2 /\ v1 <> v2 /\
    encode_request ep1 v1 0 = Ok r /\ encode_request ep2 v2 0 = Ok r.
Proof. exact (two_procedures F U). Qed.
Print Assumptions C77_bytes_name_the_procedure_refuted.
(** Nor do they determine every value: tabs of paths are not written, so two values of one type can be the same request. *)
Theorem C77_every_value_refuted (F : floatlib) (U : urlenv) :
  exists ep t v1 v2 r, plain_entry ep /\ has_ty t v1 = true /\ has_ty t v2 = true /\ v1 <> v2 /\ encode_request ep v1 0 = Ok r /\ encode_request ep v2 0 = Ok r.
Proof. exact (two_values F U). Qed.
Print Assumptions C77_every_value_refuted.

(** Two values of one type that can be sent. *)
Definition ex_of (k : Z) : value := SStruct (u "Req") (value_parts (Some (TTuple ex_ts, STuple [SInt U32 k; SStr (u "a/b?%20.txt")])) ex_qu ex_head).
Example C77_case_sendable : let F := ex_float in let U := ex_url in sendable ex_ep ex_req_ty (ex_of 7) /\ sendable ex_ep ex_req_ty (ex_of 9).
Proof.
  cbv zeta. pose proof C09_case as C9. cbv zeta in C9. destruct C9 as (_ & _ & _ & _ & _ & _ & _ & Qf & _).
  pose proof ex_head_fits as Hf. cbv zeta in Hf. destruct Hf as (l & Hf & Hs).
  assert (X : forall k, In k [7; 9]%Z -> @sendable ex_url ex_float ex_ep ex_req_ty (ex_of k)).
  { intros k I. assert (R : in_range U32 k = true) by (destruct I as [<-|[<-|[]]]; reflexivity).
    apply (@Sendable ex_url ex_float ex_ep (u "Req") (Some (TTuple ex_ts, STuple [SInt U32 k; SStr (u "a/b?%20.txt")])) ex_qu ex_head [show_int k; u "a/b?%20.txt"] l).
    - exists ex_ts, [SInt U32 k; SStr (u "a/b?%20.txt")]. split; [constructor|]. split; [repeat constructor; exact R|]. split; reflexivity.
    - constructor; [apply path_safeb_spec; destruct I as [<-|[<-|[]]]; reflexivity|]. constructor; [apply path_safeb_spec; reflexivity | constructor].
    - exact Logic.I.
    - exact Qf.
    - discriminate.
    - exact Hf.
    - exact Hs. }
  split; apply X; [left | right; left]; reflexivity.
Qed.
(** What is written of them fits; their bytes differ. Two answers. *)
Example C77_case : let F := ex_float in let U := ex_url in
  exists r1 r2 h1 h2, encode_request ex_ep (ex_of 7) 3 = Ok r1 /\ encode_request ex_ep (ex_of 9) 3 = Ok r2 /\
    fit_request ex_uri server_limits MPost r1 [1; 2; 3] /\ fit_request ex_uri server_limits MPost r2 [1; 2; 3] /\
    request_head MPost r1 <> request_head MPost r2 /\ plain_entry ex_ep /\ ex_ep <> [] /\
    suits (TEnum (u "Res") ex_res2) (SStructVariant (u "Res") (u "Ok") (head_val ex_head)) /\
    encode_response (SStructVariant (u "Res") (u "Ok") (head_val ex_head)) 1 = Ok h1 /\ fit_response ex_reason ex_climits h1 [5] /\
    encode_response (SStructVariant (u "Res") (u "Ok") (head_val ex_head)) 2 = Ok h2 /\ fit_response ex_reason ex_climits h2 [5; 6] /\
    response_head ex_reason h1 <> response_head ex_reason h2.
Proof.
  cbv zeta. pose proof ex_head_fits as Hf. cbv zeta in Hf. destruct Hf as (l & Hf & Hs).
  assert (Fq : forall r, @encode_request ex_url ex_float ex_ep (ex_of 7) 3 = Ok r \/ @encode_request ex_url ex_float ex_ep (ex_of 9) 3 = Ok r -> fit_request ex_uri server_limits MPost r [1; 2; 3]).
  { intros r E.
    assert (X : (rb_target r <> [] /\ forallb (fun c => ex_uri c && negb (c =? 32)) (rb_target r) = true) /\ forallb safe_header (rb_headers r) = true /\
      (exists a b, rb_headers r = [a; b; length_header 3] /\ is_length a = false /\ is_length b = false) /\
      ((length (request_head MPost r) <=? N.to_nat 8096)%nat && (length (rb_headers r) <=? 32)%nat)%bool = true).
    { destruct E as [E|E]; vm_compute in E; injection E as <-;
      (split; [split; [discriminate | vm_compute; reflexivity]|]; split; [vm_compute; reflexivity|]; split; [do 2 eexists; split; [reflexivity|]; split; vm_compute; reflexivity | vm_compute; reflexivity]). }
    destruct X as ((N & T) & S & (a & b & Hh & Na & Nb) & L). apply andb_true_iff in L. destruct L as [L1 L2].
    split; [| | |apply Nat.leb_le; exact L1 | apply Nat.leb_le; exact L2].
    - split; [exact N|]. intros c Ic. rewrite forallb_forall in T. specialize (T c Ic). apply andb_true_iff in T. destruct T as [T1 T2]. split; [exact T1|]. intros ->. discriminate T2.
    - exact S.
    - rewrite Hh. change [a; b; length_header 3] with ([a; b] ++ [length_header 3]). apply length_told. intros h [<-|[<-|[]]]; intros X; apply is_length_iff in X; congruence. }
  assert (Fp : forall body h, (length body = 1 \/ length body = 2)%nat -> @encode_response ex_float (SStructVariant (u "Res") (u "Ok") (head_val ex_head)) (N.of_nat (length body)) = Ok h -> fit_response ex_reason ex_climits h body).
  { intros body h Lb E.
    assert (X : forallb value_byte (ex_reason (pb_status h)) = true /\ forallb safe_header (pb_headers h) = true /\
      (exists a b, pb_headers h = [a; b; length_header (N.of_nat (length body))] /\ is_length a = false /\ is_length b = false) /\
      ((length (response_head ex_reason h) <=? N.to_nat 8096)%nat && (length (pb_headers h) <=? 32)%nat)%bool = true).
    { destruct Lb as [Lb|Lb]; rewrite Lb in *; vm_compute in E; injection E as <-;
      (split; [vm_compute; reflexivity|]; split; [vm_compute; reflexivity|]; split; [do 2 eexists; split; [reflexivity|]; split; vm_compute; reflexivity | vm_compute; reflexivity]). }
    destruct X as (V & S & (a & b & Hh & Na & Nb) & L). apply andb_true_iff in L. destruct L as [L1 L2].
    split; [exact V | exact S | | apply Nat.leb_le; exact L1 | apply Nat.leb_le; exact L2].
    rewrite Hh. change [a; b; length_header (N.of_nat (length body))] with ([a; b] ++ [length_header (N.of_nat (length body))]). apply length_told.
    intros x [<-|[<-|[]]]; intros X; apply is_length_iff in X; congruence. }
  destruct (@encode_request ex_url ex_float ex_ep (ex_of 7) 3) as [r1| | |] eqn:E1; try (vm_compute in E1; discriminate E1).
  destruct (@encode_request ex_url ex_float ex_ep (ex_of 9) 3) as [r2| | |] eqn:E2; try (vm_compute in E2; discriminate E2).
  destruct (@encode_response ex_float (SStructVariant (u "Res") (u "Ok") (head_val ex_head)) 1) as [h1| | |] eqn:G1; try (vm_compute in G1; discriminate G1).
  destruct (@encode_response ex_float (SStructVariant (u "Res") (u "Ok") (head_val ex_head)) 2) as [h2| | |] eqn:G2; try (vm_compute in G2; discriminate G2).
  exists r1, r2, h1, h2. split; [reflexivity|]. split; [reflexivity|].
  split; [apply Fq; auto|]. split; [apply Fq; auto|].
  split; [clear - E1 E2; vm_compute in E1, E2; injection E1 as <-; injection E2 as <-; vm_compute; discriminate|]. split; [exact ex_plain|]. split; [discriminate|].
  split; [apply (SuVariant (u "Res") ex_res2 (u "Ok") StOk ex_head l); [reflexivity | reflexivity | exact Hf | exact Hs]|].
  split; [reflexivity|]. split; [apply Fp; [auto | exact G1]|]. split; [reflexivity|]. split; [apply Fp; [auto | exact G2]|].
  clear - G1 G2. vm_compute in G1, G2. injection G1 as <-. injection G2 as <-. vm_compute. discriminate.
Qed.
