(** * The path that a client writes and the path that its target is parsed as (C29). *)
From Verif Require Import Base Utf8 Decimal DepUrl Serde Procedure ScalarSpec PathSpec FieldSpec SerHeader SerRequest UrlProofs RequestSpec FieldMore RequestProofs RequestTrip.
Open Scope N_scope.

Section Parts.
Context `{urlenv} `{floatlib}.
Lemma segments_written ep v len r pv ts rest : entry_ok ep -> wf_value v = true -> encode_request ep v len = Ok r ->
  body_of v = Some (false, (u "path", pv) :: rest) -> ~ In (u "path") (map fst rest) -> path_args pv = Some ts ->
  exists q, parse_url (rb_target r) = Some (mkUrl (Some (fold_left push (fill ep ts) [[]])) q) /\ (~ In (u "query") (map fst rest) <-> q = None).
Proof.
  intros E W Enc B Np Pa. apply encode_ok_iff in Enc. destruct Enc as (b & B' & S). rewrite B in B'. injection B' as <-. pose proof (body_wf v _ W B) as Wb. cbn [snd] in Wb.
  inversion S as [ps q hs tss ql ls Pq F Q Hd Ep Er|]. subst r. cbn [rb_target].
  assert (X : ps = [pv] /\ rest = match q with Some q => [(u "query", q)] | None => [] end ++ map (pair (u "header")) hs).
  { unfold parts in Ep. destruct ps as [|p ps]; cbn [map app] in Ep.
    - rewrite (Pq eq_refl) in Ep. destruct hs; discriminate Ep.
    - injection Ep as -> Ep. destruct ps as [|p' ps]; [split; [reflexivity | symmetry; exact Ep]|]. elim Np. rewrite <- Ep. left. reflexivity. }
  destruct X as [-> ->]. inversion F as [|? ts' ? ? A F']; subst. inversion F'; subst. destruct A as [A L]. assert (ts' = ts) as -> by congruence. cbn [flat_map]. rewrite app_nil_r.
  exists (option_map pairs_text ql). split.
  - apply parse_url_text.
    + apply pushes_good; [|exact good_root]. apply fill_ok; [exact E|]. apply (path_args_ok pv); [|exact A]. apply (field_wf _ (u "path") pv Wb). left. reflexivity.
    + destruct ql as [l|]; [|exact Logic.I]. cbn. apply pairs_text_chars. destruct q as [q|]; [|contradiction]. cbn in Q. apply (query_written_ok q l); [|exact Q]. apply (field_wf _ (u "query") q Wb). right. left. reflexivity.
  - destruct ql as [l|]; cbn; (destruct q as [q|]; [|]); try contradiction; split; intros Z; try discriminate Z; try reflexivity.
    + elim Z. left. reflexivity.
    + clear. induction hs as [|x hs IH]; [intros []|]. intros [I|I]; [discriminate I | exact (IH I)].
Qed.
End Parts.
