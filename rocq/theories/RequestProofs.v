(** * Proofs about request serialization. *)
From Verif Require Import Base Utf8 Decimal DepUrl Serde Procedure ScalarSpec PathSpec FieldSpec SerPath SerQuery SerHeader SerRequest
  UrlProofs PathProofs FieldProofs RequestSpec.
Open Scope N_scope.

Section RequestProofs.
Context `{urlenv} `{floatlib}.

Lemma ser_path_ok ep v path p : ser_path ep v (pser_new ep path) = Ok p <->
  exists ts, args_for ep v ts /\ p = mkPser (fold_left push (fill ep ts) path) [] true.
Proof.
  rewrite ser_path_spec. unfold args_for. destruct (path_args v) as [ts|]; [|split; [discriminate | intros (? & [? ?] & ?); discriminate]].
  destruct (Nat.eqb (length ts) (var_count ep)) eqn:E.
  - apply Nat.eqb_eq in E. split; [intros [= <-]; eauto | intros (ts' & [[= <-] _] & ->); reflexivity].
  - apply Nat.eqb_neq in E. split; [discriminate | intros (ts' & [[= <-] ?] & _); contradiction].
Qed.
Lemma ser_path_err ep v path : ser_path ep v (pser_new ep path) = Err Invalid \/ exists p, ser_path ep v (pser_new ep path) = Ok p.
Proof.
  rewrite ser_path_spec. destruct (path_args v) as [ts|]; [|auto]. destruct (Nat.eqb (length ts) (var_count ep)); eauto.
Qed.
Lemma args_unit ep ts : args_for ep SUnit ts <-> ts = [] /\ var_count ep = 0%nat.
Proof. unfold args_for. cbn. split; [intros [[= <-] L]; auto | intros [-> ->]; auto]. Qed.

(** A value that is a path is never a query. *)
Lemma path_not_query v : path_args v <> None -> query_written v = None.
Proof.
  induction v; cbn [path_args query_written written scalar_text]; intros P; try congruence; try reflexivity.
  - apply IHv, P.
  - apply IHv, P.
Qed.

(** The state after the request line has been built: only headers may follow. *)
Definition built (s : rser) (r : reqb) : Prop := rs_conn s = false /\ rs_req s = Some r.

Lemma built_header ep v s r : built s r ->
  match header_written v with
  | Some l => exists s', field_header ep v s = Ok s' /\ built s' (mkReqb (rb_target r) (rb_headers r ++ l))
  | None => field_header ep v s = Err Invalid
  end.
Proof.
  intros [C R]. unfold field_header, take_request. rewrite R. cbn [bind].
  pose proof (ser_header_spec v (rb_headers r)) as S. destruct (header_written v) as [l|].
  - destruct S as (h & -> & T). eexists. split; [reflexivity|]. cbn. rewrite T. split; [exact C | reflexivity].
  - rewrite S. reflexivity.
Qed.

Lemma req_field_key ep k v s :
  req_field ep k v s =
  if ustr_eqb k (u "path") then field_path ep v s
  else if ustr_eqb k (u "query") then field_query ep v s
  else if ustr_eqb k (u "header") then field_header ep v s else Err Invalid.
Proof. reflexivity. Qed.

Lemma built_fields ep : forall fs s r, built s r ->
  (exists hs ls s', fs = map (pair (u "header")) hs /\ Forall2 (fun h l => header_written h = Some l) hs ls /\
     req_fields ep fs s = Ok s' /\ built s' (mkReqb (rb_target r) (rb_headers r ++ concat ls))) \/
  (req_fields ep fs s = Err Invalid /\ forall hs ls, fs = map (pair (u "header")) hs -> ~ Forall2 (fun h l => header_written h = Some l) hs ls).
Proof.
  induction fs as [|[k v] fs IH]; intros s r B.
  - left. exists [], [], s. cbn. rewrite app_nil_r. destruct r. repeat split; try constructor; apply B.
  - cbn [req_fields]. rewrite req_field_key.
    destruct (ustr_eqb_spec k (u "path")) as [->|N1].
    { right. unfold field_path. rewrite (proj1 B). cbn. split; [reflexivity|]. intros [|h hs] ls E; discriminate. }
    destruct (ustr_eqb_spec k (u "query")) as [->|N2].
    { right. unfold field_query. rewrite (proj1 B). cbn. split; [reflexivity|]. intros [|h hs] ls E; discriminate. }
    destruct (ustr_eqb_spec k (u "header")) as [->|N3].
    + pose proof (built_header ep v s r B) as Hd. destruct (header_written v) as [l|] eqn:W.
      * destruct Hd as (s1 & -> & B1). cbn [bind]. destruct (IH s1 _ B1) as [(hs & ls & s' & E & F & R & B2)|[R F]].
        -- left. exists (v :: hs), (l :: ls), s'. rewrite E. split; [reflexivity|]. split; [constructor; assumption|].
           rewrite <- E. split; [exact R|]. cbn [rb_target rb_headers concat] in *. rewrite app_assoc. exact B2.
        -- right. split; [exact R|]. intros [|h hs] ls E F'; [discriminate|]. cbn in E. injection E as -> E.
           inversion F'; subst. eapply F; [reflexivity | eassumption].
      * rewrite Hd. right. split; [reflexivity|]. intros [|h hs] ls E F; [discriminate|]. injection E as -> _.
        inversion F; subst. congruence.
    + right. split; [reflexivity|]. intros [|h hs] ls E; [discriminate|]. injection E as -> _. congruence.
Qed.

(** The state between path and query. *)
Definition ready (s : rser) (path : list ustr) (init : bool) : Prop :=
  s = mkRser path None init true None.

(** What [finish] makes of a state. *)
Lemma finish_built ep len s r : built s r ->
  finish_request ep len s = Ok (mkReqb (rb_target r) (rb_headers r ++ [content_length len])).
Proof. intros [_ R]. unfold finish_request, take_request. rewrite R. reflexivity. Qed.

Lemma finish_ready ep len path : finish_request ep len (mkRser path None true true None) =
  Ok (mkReqb (url_text path None) [content_length len]).
Proof. reflexivity. Qed.

Lemma take_fresh ep path : take_request ep (mkRser path None false true None) =
  if Nat.eqb (var_count ep) 0 then
    Ok (mkReqb (url_text (fold_left push (fill ep []) path) None) [], mkRser (fold_left push (fill ep []) path) None false false None)
  else Panic.
Proof.
  unfold take_request. cbn [rs_req rs_conn rs_init rs_path rs_query]. rewrite ser_path_spec. cbn [path_args].
  rewrite Nat.eqb_sym. cbn [length]. destruct (Nat.eqb (var_count ep) 0); reflexivity.
Qed.

Definition run (ep : entry_point) (len : N) (fs : list (ustr * value)) (s : rser) : res reqb :=
  s <- req_fields ep fs s ;; finish_request ep len s.

(** From a state with the request line not built yet but the path given. *)
Lemma ready_run ep len : forall fs path,
  (exists r, run ep len fs (mkRser path None true true None) = Ok r /\
     exists ps q hs tss ql ls, fs = parts ps q hs /\ Forall2 (args_for ep) ps tss /\ query_part q ql /\
       Forall2 (fun h l => header_written h = Some l) hs ls /\
       r = mkReqb (url_text (fold_left push (flat_map (fill ep) tss) path) (option_map pairs_text ql)) (concat ls ++ [content_length len])) \/
  (run ep len fs (mkRser path None true true None) = Err Invalid /\
     forall ps q hs tss ql ls, fs = parts ps q hs -> Forall2 (args_for ep) ps tss -> query_part q ql ->
       ~ Forall2 (fun h l => header_written h = Some l) hs ls).
Proof.
  induction fs as [|[k v] fs IH]; intros path.
  - left. eexists. split; [reflexivity|]. exists [], None, [], [], None, []. repeat split; constructor.
  - unfold run. cbn [req_fields]. rewrite req_field_key.
    destruct (ustr_eqb_spec k (u "path")) as [->|N1].
    { unfold field_path. cbn [rs_conn assert_invalid bind rs_path rs_query rs_req].
      destruct (ser_path_err ep v path) as [E|[p E]]; rewrite E; cbn [bind].
      - right. split; [reflexivity|]. intros [|p ps] q hs tss ql ls Ef F.
        + destruct q; [discriminate|]. destruct hs; discriminate.
        + cbn in Ef. injection Ef as -> Ef. inversion F as [|? ts ? ? A]; subst.
          assert (X : exists p0, ser_path ep p (pser_new ep path) = Ok p0) by (eexists; apply ser_path_ok; eauto).
          destruct X as [? X]. congruence.
      - apply ser_path_ok in E. destruct E as (ts & A & ->). cbn [p_path].
        destruct (IH (fold_left push (fill ep ts) path)) as [(r & R & ps & q & hs & tss & ql & ls & Ef & F & Q & Hd & Er)|[R N]].
        + left. exists r. split; [exact R|]. exists (v :: ps), q, hs, (ts :: tss), ql, ls.
          rewrite Ef. split; [reflexivity|]. split; [constructor; assumption|]. split; [exact Q|]. split; [exact Hd|].
          cbn [flat_map]. rewrite fold_left_app. exact Er.
        + right. split; [exact R|]. intros [|p ps] q hs tss ql ls Ef F Q.
          * destruct q; [discriminate|]. destruct hs; discriminate.
          * cbn in Ef. injection Ef as -> Ef. inversion F; subst. intros Hd2. eapply (N ps q hs); [reflexivity | eassumption | exact Q | exact Hd2]. }
    destruct (ustr_eqb_spec k (u "query")) as [->|N2].
    { unfold field_query. cbn [rs_conn assert_invalid bind rs_path rs_query rs_req rs_init].
      pose proof (ser_query_spec v) as S. destruct (query_written v) as [l|] eqn:W.
      - destruct S as (s & -> & T). cbn [bind]. rewrite T.
        match goal with |- context [req_fields ep fs ?st] => set (s1 := st) end.
        destruct (built_fields ep fs s1 (mkReqb (url_text path (Some (pairs_text l))) [])) as [(hs & ls & s' & E & F & R & B)|[R F]].
        { split; reflexivity. }
        + left. rewrite R. cbn [bind]. rewrite (finish_built ep len s' _ B). eexists. split; [reflexivity|].
          exists [], (Some v), hs, [], (Some l), ls. rewrite E. repeat split; try constructor; try exact W; exact F.
        + right. rewrite R. split; [reflexivity|]. intros [|p ps] q hs tss ql ls Ef F' Q Hd.
          * destruct q as [q|]; [|destruct hs; discriminate]. cbn in Ef. injection Ef as <- Ef. eapply F; eauto.
          * discriminate.
      - rewrite S. right. split; [reflexivity|]. intros [|p ps] q hs tss ql ls Ef F' Q Hd.
        + destruct q as [q|]; [|destruct hs; discriminate]. cbn in Ef. injection Ef as <- Ef.
          destruct ql; [|contradiction]. cbn in Q. congruence.
        + discriminate. }
    destruct (ustr_eqb_spec k (u "header")) as [->|N3].
    + set (s0 := mkRser path None true true None).
      assert (X : field_header ep v s0 = field_header ep v (mkRser path None true false (Some (mkReqb (url_text path None) [])))) by reflexivity.
      rewrite X. clear X.
      destruct (built_fields ep ((u "header", v) :: fs) (mkRser path None true false (Some (mkReqb (url_text path None) []))) (mkReqb (url_text path None) []))
        as [(hs & ls & s' & E & F & R & B)|[R F]]; [split; reflexivity| |]; cbn [req_fields] in R; rewrite req_field_key in R; cbn [ustr_eqb list_eqb u] in R.
      * left. change (exists r : reqb, bind (bind (field_header ep v (mkRser path None true false (Some (mkReqb (url_text path None) [])))) (fun s => req_fields ep fs s))
          (fun s => finish_request ep len s) = Ok r /\ exists ps q hs tss ql ls, (u "header", v) :: fs = parts ps q hs /\ Forall2 (args_for ep) ps tss /\ query_part q ql /\
            Forall2 (fun h l => header_written h = Some l) hs ls /\
            r = mkReqb (url_text (fold_left push (flat_map (fill ep) tss) path) (option_map pairs_text ql)) (concat ls ++ [content_length len])).
        change (bind (field_header ep v (mkRser path None true false (Some (mkReqb (url_text path None) [])))) (fun s => req_fields ep fs s) = Ok s') in R.
        rewrite R. cbn [bind]. rewrite (finish_built ep len s' _ B). eexists. split; [reflexivity|].
        exists [], None, hs, [], None, ls. rewrite E. repeat split; try constructor; exact F.
      * right. change (bind (field_header ep v (mkRser path None true false (Some (mkReqb (url_text path None) [])))) (fun s => req_fields ep fs s) = Err Invalid) in R.
        split; [exact (f_equal (fun x => bind x (fun s => finish_request ep len s)) R)|].
        intros [|p ps] q hs tss ql ls Ef F' Q Hd; [|discriminate].
        destruct q as [q|]; [discriminate|]. eapply F; eauto.
    + right. split; [reflexivity|]. intros [|p ps] q hs tss ql ls Ef F' Q Hd.
      * destruct q as [q|]; [injection Ef as -> _; congruence|]. destruct hs; [discriminate|]. injection Ef as -> _. congruence.
      * injection Ef as -> _. congruence.
Qed.

(** The outcome for a struct. *)
Lemma struct_run ep len fs :
  (exists r, run ep len fs rser_new = Ok r /\ sends ep len (false, fs) r) \/
  (run ep len fs rser_new = Err Invalid /\ (forall r, ~ sends ep len (false, fs) r)) \/
  (run ep len fs rser_new = Panic /\ (forall r, ~ sends ep len (false, fs) r) /\
   var_count ep <> 0%nat /\ match fs with [] => True | (k, _) :: _ => k = u "header" end).
Proof.
  assert (Inv : forall r, sends ep len (false, fs) r -> exists ps q hs tss ql ls, fs = parts ps q hs /\ (ps = [] -> q = None) /\
    Forall2 (args_for ep) match ps with [] => [SUnit] | _ => ps end tss /\ query_part q ql /\ Forall2 (fun h l => header_written h = Some l) hs ls /\
    r = mkReqb (url_text (fold_left push (flat_map (fill ep) tss) [[]]) (option_map pairs_text ql)) (concat ls ++ [content_length len])).
  { intros r S. inversion S; subst. do 6 eexists. eauto 10. }
  destruct fs as [|[k v] fs].
  - unfold run, rser_new. cbn [req_fields bind]. unfold finish_request. rewrite take_fresh. destruct (Nat.eqb_spec (var_count ep) 0) as [Z|Z].
    + left. cbn [bind]. eexists. split; [reflexivity|].
      pose proof (Sends ep len [] None [] [[]] None [] (fun _ => eq_refl)) as X.
      cbn [flat_map option_map] in X. rewrite app_nil_r in X.
      apply X; [constructor; [apply args_unit; auto | constructor] | exact Logic.I | constructor].
    + right. right. split; [reflexivity|]. split; [|auto]. intros r S. destruct (Inv r S) as (ps & q & hs & tss & ql & ls & E & _ & F & _).
      destruct ps; [|discriminate]. inversion F as [|? ts ? ? A]; subst. apply args_unit in A. tauto.
  - unfold run. cbn [req_fields]. rewrite req_field_key.
    destruct (ustr_eqb_spec k (u "path")) as [->|N1].
    { unfold field_path. cbn [rser_new rs_conn assert_invalid bind rs_path rs_query rs_req].
      destruct (ser_path_err ep v [[]]) as [E|[p E]]; rewrite E; cbn [bind].
      - right. left. split; [reflexivity|]. intros r S. destruct (Inv r S) as (ps & q & hs & tss & ql & ls & Ef & Pq & F & _).
        destruct ps as [|p ps]; [destruct q; [discriminate Ef|]; destruct hs; discriminate Ef|].
        cbn in Ef. injection Ef as -> Ef. inversion F as [|? ts ? ? A]; subst.
        assert (X : exists p0, ser_path ep p (pser_new ep [[]]) = Ok p0) by (eexists; apply ser_path_ok; eauto).
        destruct X as [? X]. congruence.
      - apply ser_path_ok in E. destruct E as (ts & A & ->). cbn [p_path].
        destruct (ready_run ep len fs (fold_left push (fill ep ts) [[]])) as [(r & R & ps & q & hs & tss & ql & ls & Ef & F & Q & Hd & Er)|[R N]].
        + left. exists r. split; [exact R|]. rewrite Ef, Er.
          pose proof (Sends ep len (v :: ps) q hs (ts :: tss) ql ls ltac:(discriminate)) as X.
          cbn [flat_map] in X. rewrite fold_left_app in X. apply X; [constructor; assumption | exact Q | exact Hd].
        + right. left. split; [exact R|]. intros r S. destruct (Inv r S) as (ps & q & hs & tss & ql & ls & Ef & Pq & F & Q & Hd & _).
          destruct ps as [|p ps]; [destruct q; [discriminate Ef|]; destruct hs; discriminate Ef|].
          cbn in Ef. injection Ef as -> Ef. inversion F; subst. eapply (N ps q hs); [reflexivity | eassumption | exact Q | exact Hd]. }
    destruct (ustr_eqb_spec k (u "query")) as [->|N2].
    { right. left. split.
      - unfold field_query. cbn [rser_new rs_conn assert_invalid bind rs_path rs_query rs_req rs_init].
        destruct (ser_path_err ep v [[]]) as [E|[p E]]; rewrite E; cbn [bind]; [reflexivity|].
        apply ser_path_ok in E. destruct E as (ts & [A _] & _). pose proof (ser_query_spec v) as S.
        rewrite (path_not_query v) in S by congruence. rewrite S. reflexivity.
      - intros r S. destruct (Inv r S) as (ps & q & hs & tss & ql & ls & Ef & Pq & _).
        destruct ps; [|discriminate]. rewrite (Pq eq_refl) in Ef. destruct hs; discriminate. }
    destruct (ustr_eqb_spec k (u "header")) as [->|N3].
    + unfold field_header, rser_new. rewrite take_fresh. destruct (Nat.eqb_spec (var_count ep) 0) as [Z|Z].
      * cbn [bind].
        set (pth := fold_left push (fill ep []) [[]]).
        set (s1 := mkRser pth None false false (Some (mkReqb (url_text pth None) []))).
        destruct (built_fields ep ((u "header", v) :: fs) s1 (mkReqb (url_text pth None) []))
          as [(hs & ls & s' & E & F & R & B)|[R F]]; [split; reflexivity| |];
          cbn [req_fields] in R; rewrite req_field_key in R; change (ustr_eqb (u "header") (u "path")) with false in R;
          change (ustr_eqb (u "header") (u "query")) with false in R; change (ustr_eqb (u "header") (u "header")) with true in R; cbv iota in R;
          unfold field_header, take_request, s1 in R; cbn [rs_req bind rs_path rs_query rs_init rs_conn rb_headers rb_target] in R;
          cbn [rs_path rs_query rs_init rs_conn rb_headers rb_target].
        -- left. change (bind (ser_header v (hser_new [])) (fun h => Ok (mkRser pth None false false (Some (mkReqb (url_text pth None) (hs_out h))))))
             with (bind (ser_header v (hser_new [])) (fun h => Ok (mkRser pth None false false (Some (mkReqb (url_text pth None) (hs_out h)))))) in R.
           rewrite R. cbn [bind]. rewrite (finish_built ep len s' _ B). eexists. split; [reflexivity|]. rewrite E.
           pose proof (Sends ep len [] None hs [[]] None ls (fun _ => eq_refl)) as X. cbn [flat_map option_map rb_target rb_headers app] in X |- *.
           rewrite app_nil_r in X. apply X; [|exact Logic.I | exact F]. constructor; [|constructor]. apply args_unit. auto.
        -- right. left. rewrite R. split; [reflexivity|]. intros r S. destruct (Inv r S) as (ps & q & hs & tss & ql & ls & Ef & Pq & _ & _ & Hd & _).
           destruct ps; [|discriminate]. rewrite (Pq eq_refl) in Ef. eapply F; [exact Ef | exact Hd].
      * right. right. split; [reflexivity|]. split; [|auto]. intros r S. destruct (Inv r S) as (ps & q & hs & tss & ql & ls & Ef & _ & F & _).
        destruct ps; [|discriminate]. inversion F as [|? ts ? ? A]; subst. apply args_unit in A. tauto.
    + right. left. split; [reflexivity|]. intros r S. destruct (Inv r S) as (ps & q & hs & tss & ql & ls & Ef & _).
      destruct ps as [|p ps].
      * destruct q as [q|]; [injection Ef as -> _; congruence|]. destruct hs; [discriminate|]. injection Ef as -> _. congruence.
      * injection Ef as -> _. congruence.
Qed.

Lemma variant_run ep len fs :
  (exists r, bind (req_variant_fields fs rser_new) (finish_request ep len) = Ok r /\ sends ep len (true, fs) r) \/
  (bind (req_variant_fields fs rser_new) (finish_request ep len) = Err Invalid /\ exists k v r, fs = (k, v) :: r /\ k <> u "header") \/
  (bind (req_variant_fields fs rser_new) (finish_request ep len) = Panic /\
   ((fs = [] /\ var_count ep <> 0%nat) \/ exists v r, fs = (u "header", v) :: r)).
Proof.
  destruct fs as [|[k v] fs]; cbn [req_variant_fields bind].
  - unfold finish_request, rser_new. rewrite take_fresh. destruct (Nat.eqb_spec (var_count ep) 0) as [Z|Z]; cbn [bind].
    + left. eexists. split; [reflexivity|]. apply SendsVariant. apply args_unit. auto.
    + right. right. split; [reflexivity|]. left. auto.
  - unfold req_variant_field. destruct (ustr_eqb_spec k (u "header")) as [->|N].
    + right. right. split; [reflexivity|]. right. eauto.
    + right. left. split; [reflexivity|]. eauto 6.
Qed.

Lemma encode_body ep v len :
  encode_request ep v len =
  match body_of v with
  | Some (false, fs) => run ep len fs rser_new
  | Some (true, fs) => bind (req_variant_fields fs rser_new) (finish_request ep len)
  | None => Err Invalid
  end.
Proof.
  unfold encode_request. induction v; try reflexivity.
  - exact IHv.
  - exact IHv.
Qed.

(** The fields determine the parts, and the parts the message. *)
Lemma map_pair_inj {A} (k : ustr) : forall l l' : list A, map (pair k) l = map (pair k) l' -> l = l'.
Proof. induction l as [|h hs IH]; intros [|h' hs'] E; try discriminate; [reflexivity|]. cbn in E. injection E as -> E. f_equal. auto. Qed.
Lemma parts_inj : forall ps q hs ps' q' hs', parts ps q hs = parts ps' q' hs' -> ps = ps' /\ q = q' /\ hs = hs'.
Proof.
  unfold parts. induction ps as [|p ps IH]; intros q hs [|p' ps'] q' hs' E.
  - cbn [map app] in E. destruct q as [q|], q' as [q'|]; cbn [app] in E.
    + injection E as -> E. apply map_pair_inj in E. subst. auto.
    + destruct hs'; discriminate.
    + destruct hs; discriminate.
    + apply map_pair_inj in E. subst. auto.
  - exfalso. destruct q; [discriminate|]. destruct hs; discriminate.
  - exfalso. destruct q'; [discriminate|]. destruct hs'; discriminate.
  - cbn [map app] in E. injection E as -> E. destruct (IH _ _ _ _ _ E) as (-> & -> & ->). auto.
Qed.
Lemma sends_fun ep len b r : sends ep len b r -> forall b' r', sends ep len b' r' -> b = b' -> r = r'.
Proof.
  destruct 1 as [ps q hs tss ql ls Pq F Q Hd|ts A]; destruct 1 as [ps' q' hs' tss' ql' ls' Pq' F' Q' Hd'|ts' A']; intros E; try discriminate.
  - injection E as E. apply parts_inj in E. destruct E as (-> & -> & ->).
    assert (tss = tss') as ->.
    { revert tss' F'. induction F as [|p ts l tss A F IH]; intros tss' F'; inversion F' as [|? ts' ? ? A']; subst; [reflexivity|].
      f_equal; [destruct A, A'; congruence | auto]. }
    assert (ls = ls') as ->.
    { clear - Hd Hd'. revert ls' Hd'. induction Hd as [|h l hs ls A F IH]; intros ls' F'; inversion F'; subst; [reflexivity|].
      f_equal; [congruence | auto]. }
    assert (ql = ql') as ->. { destruct q' as [q|], ql, ql'; cbn in Q, Q'; try contradiction; [congruence | reflexivity]. }
    reflexivity.
  - apply args_unit in A. apply args_unit in A'. destruct A as [-> _], A' as [-> _]. reflexivity.
Qed.

Theorem encode_ok_iff ep v len r : encode_request ep v len = Ok r <-> exists b, body_of v = Some b /\ sends ep len b r.
Proof.
  rewrite encode_body. destruct (body_of v) as [[[|] fs]|].
  - destruct (variant_run ep len fs) as [(r' & E & S)|[[E (k & w & r' & -> & N)]|[E P]]]; rewrite E.
    + split.
      * intros [= <-]. eauto.
      * intros (b & [= <-] & S'). f_equal. exact (sends_fun ep len _ _ S _ _ S' eq_refl).
    + split; [discriminate|]. intros (b & [= <-] & S'). inversion S'.
    + split; [discriminate|]. intros (b & [= <-] & S'). inversion S' as [|ts A]; subst. destruct P as [[_ P]|(w & r' & P)]; [|discriminate].
      apply args_unit in A. tauto.
  - destruct (struct_run ep len fs) as [(r' & E & S)|[[E N]|(E & N & _)]]; rewrite E.
    + split.
      * intros [= <-]. eauto.
      * intros (b & [= <-] & S'). f_equal.
        exact (sends_fun ep len _ _ S _ _ S' eq_refl).
    + split; [discriminate|]. intros (b & [= <-] & S). exfalso. exact (N r S).
    + split; [discriminate|]. intros (b & [= <-] & S). exfalso. exact (N r S).
  - split; [discriminate|]. intros (b & E & _). discriminate.
Qed.

Definition panics (ep : entry_point) (v : value) : Prop :=
  match body_of v with
  | Some (false, fs) => var_count ep <> 0%nat /\ (fs = [] \/ exists h r, fs = (u "header", h) :: r)
  | Some (true, fs) => (fs = [] /\ var_count ep <> 0%nat) \/ exists h r, fs = (u "header", h) :: r
  | None => False
  end.

Theorem encode_panic_iff ep v len : encode_request ep v len = Panic <-> panics ep v.
Proof.
  unfold panics. rewrite encode_body. destruct (body_of v) as [[[|] fs]|]; [| |split; [discriminate | contradiction]].
  - destruct (variant_run ep len fs) as [(r' & E & S)|[[E (k & w & r' & -> & N)]|[E P]]]; rewrite E.
    + split; [discriminate|]. intros P. exfalso. inversion S as [|ts A]; subst. apply args_unit in A.
      destruct P as [[_ P]|(? & ? & P)]; [tauto | discriminate].
    + split; [discriminate|]. intros [[P _]|(? & ? & P)]; [discriminate | injection P as P _ _; congruence].
    + tauto.
  - assert (X : (var_count ep <> 0%nat /\ match fs with [] => True | (k, _) :: _ => k = u "header" end) <->
                (var_count ep <> 0%nat /\ (fs = [] \/ exists h r, fs = (u "header", h) :: r))).
    { split; intros [Z P]; (split; [exact Z|]).
      - destruct fs as [|[k h] r]; [auto|]. subst k. eauto.
      - destruct P as [->|(h & r & ->)]; [exact Logic.I | reflexivity]. }
    rewrite <- X. clear X.
    destruct (struct_run ep len fs) as [(r' & E & S)|[[E N]|(E & N & P)]]; rewrite E.
    + split; [discriminate|]. intros [Z P]. exfalso. inversion S as [ps q hs tss ql ls Pq F|]; subst. destruct ps as [|p ps]; [|discriminate].
      inversion F as [|? ts ? ? A]; subst. apply args_unit in A. tauto.
    + split; [discriminate|]. intros [Z P]. exfalso. revert E. destruct fs as [|[k h] r].
      * unfold run, rser_new. cbn [req_fields bind]. unfold finish_request. rewrite take_fresh.
        apply Nat.eqb_neq in Z. rewrite Z. discriminate.
      * subst k. unfold run. cbn [req_fields]. change (req_field ep (u "header") h rser_new) with (field_header ep h rser_new).
        unfold field_header, rser_new. rewrite take_fresh. apply Nat.eqb_neq in Z. rewrite Z. discriminate.
    + tauto.
Qed.

Theorem encode_total ep v len : (exists r, encode_request ep v len = Ok r) \/ encode_request ep v len = Err Invalid \/
  encode_request ep v len = Panic.
Proof.
  rewrite encode_body. destruct (body_of v) as [[[|] fs]|]; [| |auto].
  - destruct (variant_run ep len fs) as [(r' & E & S)|[[E _]|[E _]]]; eauto.
  - destruct (struct_run ep len fs) as [(r' & E & S)|[[E _]|[E _]]]; eauto.
Qed.
End RequestProofs.
