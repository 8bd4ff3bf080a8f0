(** * Types no component of a path is ever read as, and what is written of them in a query and in headers (C14). *)
From Verif Require Import Base Utf8 Decimal DepUrl Serde ScalarSpec PathSpec FieldSpec Procedure Msgpack SerPath SerQuery SerHeader SerRequest DePath DeQuery DeHeader DepHttp
  UrlProofs PathProofs PathTrip FieldProofs QueryProofs HeaderProofs FieldMore TypeSpec JsonType DecodeProofs WrittenSpec.
Open Scope N_scope.

Inductive never_in_path : ty -> Prop :=
| NpUnread t : unreadable t -> never_in_path t
| NpUnit : never_in_path TUnit
| NpUnitStruct n : never_in_path (TUnitStruct n)
| NpOption t : never_in_path (TOption t)
| NpBytes : never_in_path TBytes
| NpNew n t : never_in_path t -> never_in_path (TNewtype n t).

Section Refused.
Context `{floatlib}.
Lemma never_not_readable t : never_in_path t -> readable t = false.
Proof. induction 1 as [t U| | | | |n t N IH]; try reflexivity; [induction U; try reflexivity; assumption | exact IH]. Qed.
Lemma readable_or_never t : readable t = false -> never_in_path t.
Proof. induction t; cbn [readable]; intros E; try discriminate; repeat (constructor; auto; fail); try (constructor; constructor). Qed.
Lemma path_never ep segs ts t vs s' : In t ts -> never_in_path t -> de_path (TTuple ts) (mkPde false segs ep (var_count ep)) <> Ok (STuple vs, s').
Proof. intros I N. exact (path_unread ep segs ts t vs s' I (never_not_readable t N)). Qed.
Lemma path_never_kind ep segs ts t : forallb wf_ty ts = true -> In t ts -> never_in_path t -> de_path (TTuple ts) (mkPde false segs ep (var_count ep)) = Err Invalid.
Proof.
  intros W I N.
  assert (R : refuses (de_path (TTuple ts) (mkPde false segs ep (var_count ep)))) by (apply refuses_of; [apply de_path_safe | apply de_path_mild; exact W]).
  destruct R as [[[v s'] E]|E]; [|exact E]. exfalso.
  assert (X : exists vs, v = STuple vs).
  { cbn [de_path] in E. repeat match type of E with bind ?r _ = _ => destruct r as [[? ?]| | |]; cbn [bind] in E; try discriminate E end. injection E as <- _. eauto. }
  destruct X as [vs ->]. exact (path_never ep segs ts t vs s' I N E).
Qed.

Lemma struct_pairs_some {X} (leaf : value -> option X) (name : ustr -> X) : forall vs, (forall k v, In (k, v) vs -> exists x, cell leaf v = Some (Some x)) ->
  exists l, struct_pairs leaf name vs = Some l /\ map fst l = map (fun f => name (fst f)) vs.
Proof.
  induction vs as [|[k v] vs IH]; intros A; [exists []; split; reflexivity|]. destruct (A k v (or_introl eq_refl)) as [x E].
  destruct IH as (l & El & Em); [intros k' v' I; apply (A k' v'); right; exact I|]. exists ((name k, x) :: l). cbn [struct_pairs]. rewrite E, El. cbn. rewrite Em. split; reflexivity.
Qed.
Lemma fields_written_anyway n vs len : (forall k v, In (k, v) vs -> (exists c, v = SChar c) \/ exists e x, v = SUnitVariant e x) ->
  (exists s, ser_query (SStruct n vs) qser_new = Ok s) /\ exists hs, header_sent (SStruct n vs) len hs /\ map fst hs = map (fun f => utf8_encode (fst f)) vs ++ [u "Content-Length"].
Proof.
  intros A. split.
  - destruct (struct_pairs_some scalar_text (fun n => n) vs) as (l & E & _); [intros k v I; destruct (A k v I) as [(c & ->)|(e & x & ->)]; cbn; eauto|].
    pose proof (ser_query_spec (SStruct n vs)) as S. unfold query_written in S. cbn [written] in S. rewrite E in S. destruct S as (s & S & _). eauto.
  - destruct (struct_pairs_some header_leaf utf8_encode vs) as (l & E & Em); [intros k v I; destruct (A k v I) as [(c & ->)|(e & x & ->)]; cbn; eauto|].
    pose proof (ser_header_spec (SStruct n vs) []) as S. unfold header_written in S. cbn [written] in S. rewrite E in S. destruct S as (s & S & So).
    exists (l ++ [content_length len]). split; [exists s; split; [exact S | rewrite So; reflexivity]|]. rewrite map_app. apply (f_equal (fun z => z ++ [u "Content-Length"])) in Em. exact Em.
Qed.
End Refused.
