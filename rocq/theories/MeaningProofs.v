(** * The bytes of messages determine the messages (C77). *)
From Verif Require Import Base Utf8 Decimal DepUrl Serde Procedure ScalarSpec PathSpec FieldSpec Status SerHeader SerRequest SerResponse DeHeader DeRequest DeResponse Router RouterSpec RouterProofs DepHttp
  UrlProofs PathProofs PathTrip HeaderProofs RequestSpec RequestProofs RequestTrip RequestArrives ResponseProofs ResponseTrip Error Client ClientSpec Server ServerSpec EndToEndSpec EndToEnd
  SessionSpec SessionProofs HttpBytes HttpBytesSpec HttpBytesProofs HttpBytesSession HttpBytesLimits HttpTargets HttpBytesCounter TypeSpec MeaningSpec.
Open Scope N_scope.

(** A connection on which these bytes have come. *)
Definition come (b : bytes) : bconn := mkBconn [] [b] false None.
Lemma come_stream b : stream (come b) = b.
Proof. unfold stream, come. cbn. apply app_nil_r. Qed.

Section Requests.
Variables (uri_byte : N -> bool) (sl : limits).
Lemma one_request m1 r1 b1 z1 m2 r2 b2 z2 : fit_request uri_byte sl m1 r1 b1 -> fit_request uri_byte sl m2 r2 b2 ->
  request_head m1 r1 ++ b1 ++ z1 = request_head m2 r2 ++ b2 ++ z2 -> m1 = m2 /\ r1 = r2 /\ b1 = b2 /\ z1 = z2.
Proof.
  intros F1 F2 E.
  destruct (request_read true uri_byte sl (come (request_head m1 r1 ++ b1 ++ z1)) m1 r1 b1 z1 F1 (come_stream _)) as (q & R & Qm & Qt & Qh & Wt & _).
  destruct (request_read true uri_byte sl (come (request_head m1 r1 ++ b1 ++ z1)) m2 r2 b2 z2 F2 (eq_trans (come_stream _) E)) as (q' & R' & Qm' & Qt' & Qh' & Wt' & _).
  rewrite R in R'. injection R' as <-.
  destruct (body_comes _ _ _ Wt) as (c & B & S & _). destruct (body_comes _ _ _ Wt') as (c' & B' & S' & _). rewrite B in B'. injection B' as <- <-.
  destruct r1 as [t1 k1], r2 as [t2 k2]. cbn [rb_target rb_headers] in *. repeat split; congruence.
Qed.
Lemma one_asking x y z1 z2 : fit_request uri_byte sl (a_method x) (a_request x) (a_body x) -> fit_request uri_byte sl (a_method y) (a_request y) (a_body y) ->
  asking_bytes x ++ z1 = asking_bytes y ++ z2 -> x = y /\ z1 = z2.
Proof.
  destruct x as [m1 r1 b1], y as [m2 r2 b2]. unfold asking_bytes. cbn [a_method a_request a_body]. rewrite <- !app_assoc. intros F1 F2 E.
  destruct (one_request m1 r1 b1 z1 m2 r2 b2 z2 F1 F2 E) as (-> & -> & -> & ->). auto.
Qed.
Lemma asking_some x : asking_bytes x <> [].
Proof. unfold asking_bytes, request_head. destruct (a_method x); discriminate. Qed.
Lemma one_sequence xs : forall ys z, (forall x, In x xs -> fit_request uri_byte sl (a_method x) (a_request x) (a_body x)) ->
  (forall y, In y ys -> fit_request uri_byte sl (a_method y) (a_request y) (a_body y)) ->
  flat_map asking_bytes xs ++ z = flat_map asking_bytes ys -> exists rest, ys = xs ++ rest /\ z = flat_map asking_bytes rest.
Proof.
  induction xs as [|x xs IH]; intros [|y ys] z Fx Fy E; cbn [flat_map app] in E.
  - exists []. auto.
  - exists (y :: ys). auto.
  - exfalso. apply app_eq_nil in E. destruct E as [E _]. apply app_eq_nil in E. exact (asking_some x (proj1 E)).
  - rewrite <- app_assoc in E. destruct (one_asking x y _ _ (Fx x (or_introl eq_refl)) (Fy y (or_introl eq_refl)) E) as (-> & E').
    destruct (IH ys z (fun a i => Fx a (or_intror i)) (fun a i => Fy a (or_intror i)) E') as (rest & -> & ->). exists rest. auto.
Qed.
End Requests.

Section Responses.
Variables (reason : status -> ustr) (cl : limits).
Lemma one_response h1 b1 z1 h2 b2 z2 : fit_response reason cl h1 b1 -> fit_response reason cl h2 b2 ->
  response_head reason h1 ++ b1 ++ z1 = response_head reason h2 ++ b2 ++ z2 -> h1 = h2 /\ b1 = b2 /\ z1 = z2.
Proof.
  intros F1 F2 E.
  destruct (response_read reason true cl (come (response_head reason h1 ++ b1 ++ z1)) h1 b1 _ F1 (come_stream _)) as (x & R & Qc & Qh & Ql & Qs & _).
  destruct (response_read reason true cl (come (response_head reason h1 ++ b1 ++ z1)) h2 b2 _ F2 (eq_trans (come_stream _) E)) as (x' & R' & Qc' & Qh' & Ql' & Qs' & _).
  rewrite R in R'. injection R' as <-. rewrite Ql in Ql'. injection Ql' as L. rewrite Qs in Qs'.
  assert (P : b1 = b2 /\ z1 = z2).
  { clear - L Qs'. revert b2 L Qs'. induction b1 as [|a b1 IH]; intros [|a' b2] L E; try discriminate; [auto|]. injection L as L. injection E as <- E. destruct (IH b2 L E) as [-> ->]. auto. }
  destruct P as [-> ->]. destruct h1 as [s1 k1], h2 as [s2 k2]. cbn [pb_status pb_headers] in *. assert (s1 = s2) by (apply code_inj; congruence). repeat split; congruence.
Qed.
End Responses.

(** ** Values *)
#[local] Instance any_http : httpenv := {| deliver := fun hs => Some hs; deliver_safe := fun hs _ => eq_refl |}.
Section Values.
Context `{U : urlenv} `{F : floatlib}.
Lemma alone_unshadowed {H : Type} (m : method) (h : H) : forall ep segs tb, length segs = length ep -> tb = [] \/ tb = [(m, ep, h)] -> unshadowed tb ep segs.
Proof.
  induction ep as [|[c|] ep IH]; intros [|s segs] tb L T; try discriminate; cbn [unshadowed]; [exact I | |]; injection L as L.
  - apply IH; [exact L|]. destruct T as [-> | ->]; [left; reflexivity|]. unfold with_const. cbn [flat_map app]. destruct (ustr_eqb s c); auto.
  - destruct T as [-> | ->]; split; try reflexivity; apply IH; auto.
Qed.
Lemma sendable_trip ep t v len : plain_entry ep -> ep <> [] -> sendable ep t v ->
  exists r x, encode_request ep v len = Ok r /\ parse_url (rb_target r) = Some x /\ de_request ep x (rb_headers r) t = Ok v.
Proof.
  intros Pe Ne S. destruct S as [n p q hd ss l Pf Ps Fo Qf Pq Hf Sh].
  assert (A : accepted [(MGet, ep, tt)] = [(MGet, ep, tt)]) by reflexivity.
  destruct (request_arrives unit [(MGet, ep, tt)] MGet ep tt n p q hd ss l len) as (r & x & hs & E & D & P & _ & Q); try assumption.
  - rewrite A. left. reflexivity.
  - rewrite A. apply (alone_unshadowed MGet tt ep _ _); [|right; reflexivity]. rewrite map_length. apply fill_length. eapply path_fits_length. exact Pf.
  - apply with_length_safe. exact Sh.
  - injection D as <-. exists r, x. auto.
Qed.
Lemma one_value (uri_byte : N -> bool) (sl : limits) m ep t v1 b1 r1 z1 v2 b2 r2 z2 : plain_entry ep -> ep <> [] -> sendable ep t v1 -> sendable ep t v2 ->
  encode_request ep v1 (N.of_nat (length b1)) = Ok r1 -> encode_request ep v2 (N.of_nat (length b2)) = Ok r2 ->
  fit_request uri_byte sl m r1 b1 -> fit_request uri_byte sl m r2 b2 ->
  request_head m r1 ++ b1 ++ z1 = request_head m r2 ++ b2 ++ z2 -> v1 = v2 /\ b1 = b2 /\ z1 = z2.
Proof.
  intros Pe Ne S1 S2 E1 E2 F1 F2 E. destruct (one_request _ _ _ _ _ _ _ _ _ _ F1 F2 E) as (_ & -> & -> & ->).
  destruct (sendable_trip ep t v1 (N.of_nat (length b2)) Pe Ne S1) as (r & x & X1 & X2 & X3). destruct (sendable_trip ep t v2 (N.of_nat (length b2)) Pe Ne S2) as (r' & x' & Y1 & Y2 & Y3).
  rewrite E1 in X1. injection X1 as <-. rewrite E2 in Y1. injection Y1 as <-. rewrite X2 in Y2. injection Y2 as <-. rewrite X3 in Y3. injection Y3 as <-. auto.
Qed.
Lemma one_answer (reason : status -> ustr) (cl : limits) t v1 b1 h1 z1 v2 b2 h2 z2 : suits t v1 -> suits t v2 ->
  encode_response v1 (N.of_nat (length b1)) = Ok h1 -> encode_response v2 (N.of_nat (length b2)) = Ok h2 ->
  fit_response reason cl h1 b1 -> fit_response reason cl h2 b2 ->
  response_head reason h1 ++ b1 ++ z1 = response_head reason h2 ++ b2 ++ z2 -> v1 = v2 /\ b1 = b2 /\ z1 = z2.
Proof.
  intros S1 S2 E1 E2 F1 F2 E. destruct (one_response _ _ _ _ _ _ _ _ F1 F2 E) as (-> & -> & ->).
  destruct (suits_arrives t v1 (N.of_nat (length b2)) S1) as (r & hs & X1 & X2 & X3). destruct (suits_arrives t v2 (N.of_nat (length b2)) S2) as (r' & hs' & Y1 & Y2 & Y3).
  rewrite E1 in X1. injection X1 as <-. rewrite E2 in Y1. injection Y1 as <-. rewrite X2 in Y2. injection Y2 as <-. rewrite X3 in Y3. injection Y3 as <-. auto.
Qed.
End Values.

(** ** Counterexamples *)
Definition one_text (s : ustr) : value := SStruct (u "R") [(u "path", STuple [SStr s])].
Definition one_text_ty : ty := TStruct (u "R") [(u "path", TTuple [TStr])].
Lemma letters_safe `{U : urlenv} c : 96 < c < 123 -> path_safe [c].
Proof.
  intros L. split; [intros d [<-|[]]; lia|]. split; [intros [= ->]; lia|]. split; [discriminate|].
  intros _ [|d a] e b E _; [injection E as <- _; lia | destruct a; discriminate].
Qed.
Lemma letters_plain `{U : urlenv} c : 96 < c < 123 -> plain_const [c].
Proof.
  intros L. split; [discriminate|]. split; [|split; [intros [= ->]; lia | discriminate]]. intros d [<-|[]]. split; [lia|]. split; [|lia].
  cbn [In]. intros X. repeat (destruct X as [<-|X]; [lia|]). exact X.
Qed.
Lemma one_sendable `{U : urlenv} `{F : floatlib} ep c : 96 < c < 123 -> var_count ep = 1%nat -> first_ok (fill ep [[c]]) -> sendable ep one_text_ty (one_text [c]).
Proof.
  intros L V Fo. apply (Sendable ep (u "R") (Some (TTuple [TStr], STuple [SStr [c]])) None None [[c]] []); try reflexivity; try discriminate; try exact I.
  - exists [TStr], [SStr [c]]. split; [constructor|]. split; [constructor; [|constructor] | split; [symmetry; exact V | reflexivity]]. cbn [faithful]. unfold str_ok. cbn [forallb]. unfold is_scalar. lia.
  - constructor; [apply letters_safe, L | constructor].
  - exact Fo.
Qed.
Lemma two_procedures (F : floatlib) (U : urlenv) :
  exists ep1 ep2 t v1 v2 r, plain_entry ep1 /\ plain_entry ep2 /\ sendable ep1 t v1 /\ sendable ep2 t v2 /\ ep1 <> ep2 /\ v1 <> v2 /\
    encode_request ep1 v1 0 = Ok r /\ encode_request ep2 v2 0 = Ok r.
Proof.
  exists [Val [97]; Var], [Var; Val [98]], one_text_ty, (one_text [98]), (one_text [97]), (mkReqb (u "/a/b") [length_header 0]).
  split; [intros c [[= <-]|[|[]]]; [apply letters_plain; lia | discriminate]|].
  split; [intros c [|[[= <-]|[]]]; [discriminate | apply letters_plain; lia]|].
  split; [apply one_sendable; [lia | reflexivity | exact I]|]. split; [apply one_sendable; [lia | reflexivity | exact I]|].
  split; [discriminate|]. split; [discriminate|].
  split; destruct U as [[|] [|] sp ho fu]; vm_compute; reflexivity.
Qed.
Lemma two_values (F : floatlib) (U : urlenv) :
  exists ep t v1 v2 r, plain_entry ep /\ has_ty t v1 = true /\ has_ty t v2 = true /\ v1 <> v2 /\ encode_request ep v1 0 = Ok r /\ encode_request ep v2 0 = Ok r.
Proof.
  exists [Var], one_text_ty, (one_text [97; 98]), (one_text [97; 9; 98]), (mkReqb (u "/ab") [length_header 0]).
  split; [intros c [|[]]; discriminate|]. split; [reflexivity|]. split; [reflexivity|]. split; [discriminate|].
  split; destruct U as [[|] [|] sp ho fu]; vm_compute; reflexivity.
Qed.
