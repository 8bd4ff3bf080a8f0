(** * The characters of request targets, for an HTTP parser (C70). *)
From Verif Require Import Base Utf8 Decimal DepUrl Serde Procedure ScalarSpec PathSpec FieldSpec SerPath SerQuery SerHeader SerRequest
  UrlProofs RequestSpec RequestProofs RequestTrip Utf8Spec Utf8Exact UrlSpec UrlExact.
Open Scope N_scope.

(** Printable, and none of these: what a client writes. *)
Definition clean (c : N) : Prop := 33 <= c <= 126 /\ ~ In c (u """#<>\`{}").
Definition cleanb (c : N) : bool := (33 <=? c) && (c <=? 126) && negb (mem c (u """#<>\`{}")).
Lemma cleanb_ok l : forallb cleanb l = true -> Forall clean l.
Proof.
  intros B. apply Forall_forall. intros c I. rewrite forallb_forall in B. specialize (B c I). unfold cleanb in B. rewrite !andb_true_iff, negb_true_iff in B.
  destruct B as [B M]. split; [lia|]. intros J. assert (mem c (u """#<>\`{}") = true); [|congruence]. apply existsb_exists. exists c. split; [exact J | apply N.eqb_refl].
Qed.
Ltac sign := apply Forall_app; split; [apply cleanb_ok; reflexivity|].
Lemma hex_clean d h : hex d h -> clean h.
Proof.
  unfold hex. intros E. apply nth_error_In in E. pose proof (cleanb_ok (u "0123456789ABCDEF") eq_refl) as C. rewrite Forall_forall in C. exact (C h E).
Qed.
Lemma escape_clean bs t : escape bs t -> Forall clean t.
Proof.
  induction 1 as [|x y h l bs t Hx Hy _ IH]; [constructor|]. sign.
  constructor; [exact (hex_clean _ _ Hx)|]. constructor; [exact (hex_clean _ _ Hy) | exact IH].
Qed.
Lemma segment_clean `{urlenv} s t : segment s t -> Forall clean t.
Proof.
  induction 1 as [|c s t _ _ IH|c s t [V [N _]] _ IH|c bs e s t _ _ _ Es _ IH]; [constructor|exact IH| |apply Forall_app; split; [exact (escape_clean _ _ Es) | exact IH]].
  constructor; [|exact IH]. split; [exact V|]. intros I. apply N. cbn in I |- *. intuition.
Qed.
Lemma slash_clean p : Forall clean (slash p).
Proof. unfold slash. destruct (ustr_eqb p (u "/")); [constructor|]. apply cleanb_ok. reflexivity. Qed.
Lemma pushed_clean `{urlenv} p s p' : pushed p s p' -> Forall clean p -> Forall clean p'.
Proof.
  intros [s0 _|s0 m e _ _ Sg _|s0 m _ _ Sg|s0 m front last _ _ Sg E N] C; [exact C| | |].
  - apply Forall_app. split; [exact C|]. apply Forall_app. split; [apply slash_clean | exact (segment_clean _ _ Sg)].
  - apply Forall_app. split; [exact C | apply slash_clean].
  - rewrite E in C. rewrite app_assoc in C. apply Forall_app in C. exact (proj1 C).
Qed.
Lemma path_clean `{urlenv} p ss p' : path_text p ss p' -> Forall clean p -> Forall clean p'.
Proof. induction 1 as [|p s p' ss p'' P _ IH]; [auto|]. intros C. apply IH. exact (pushed_clean _ _ _ P C). Qed.
Lemma form_clean s t : form s t -> Forall clean t.
Proof.
  induction 1 as [|c s t St _ IH|s t _ IH|c bs e s t _ _ _ Es _ IH]; [constructor| | |apply Forall_app; split; [exact (escape_clean _ _ Es) | exact IH]].
  - constructor; [|exact IH]. destruct St as [V|[V|[V|V]]]; [| | |pose proof (cleanb_ok (u "*-._") eq_refl) as C; rewrite Forall_forall in C; exact (C c V)];
      (split; [lia|]; cbn; intros I; repeat (destruct I as [<-|I]; [lia|]); contradiction).
  - sign. exact IH.
Qed.
Lemma query_clean l t : query_text l t -> Forall clean t.
Proof.
  induction 1 as [|k v k' v' Fk Fv|k v k' v' p l t Fk Fv _ IH]; [constructor| |]; apply form_clean in Fk, Fv.
  - apply Forall_app. split; [exact Fk|]. sign. exact Fv.
  - apply Forall_app. split; [exact Fk|]. sign. apply Forall_app. split; [exact Fv|]. sign. exact IH.
Qed.
Lemma target_clean `{urlenv} segs pairs t : target segs pairs t -> Forall clean t.
Proof.
  intros (p & P & Q). assert (Cp : Forall clean p) by (apply (path_clean _ _ _ P); apply cleanb_ok; reflexivity).
  destruct pairs as [l|]; [|subst t; exact Cp]. destruct Q as (q & Qt & ->). apply Forall_app. split; [exact Cp|]. sign. exact (query_clean _ _ Qt).
Qed.
Theorem request_target_clean `{urlenv} `{floatlib} ep v len r : entry_ok ep -> wf_value v = true -> encode_request ep v len = Ok r -> Forall clean (rb_target r) /\ rb_target r <> [].
Proof.
  intros E W En. destruct (request_target_exact ep v len r E W En) as (vr & ps & q & hs & tss & ql & _ & _ & _ & T). specialize (T (rb_target r)).
  split; [exact (target_clean _ _ _ (proj2 T eq_refl))|]. destruct (client_target ep v len r E W En) as ((rest & -> & _) & _). discriminate.
Qed.
