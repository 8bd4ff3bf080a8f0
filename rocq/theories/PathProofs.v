(** * Proofs about paths. *)
From Verif Require Import Base Utf8 Decimal DepUrl Serde Procedure SerPath DePath UrlProofs ScalarSpec PathSpec.
Open Scope N_scope.

Section PathProofs.
Context `{urlenv} `{floatlib}.

(** ** Serialization (C04) *)
Lemma ser_scalar ep v : forall s, p_started s = true ->
  ser_path ep v s = match scalar_text v with Some t => bind_next_var t s | None => Err Invalid end.
Proof.
  induction v; intros st St; cbn [ser_path scalar_text]; try reflexivity; try (apply IHv, St);
    try (unfold path_unit, start_tuple; rewrite St; reflexivity).
  destruct b; reflexivity.
Qed.

Fixpoint bind_all (ts : list ustr) (s : pser) : res pser :=
  match ts with
  | [] => Ok s
  | t :: r => s <- bind_next_var t s ;; bind_all r s
  end.

Lemma append_consts_spec : forall rest path fin path' rest',
  append_consts path rest = (fin, (path', rest')) ->
  exists cs, rest = map Val cs ++ rest' /\ path' = fold_left push cs path /\
    (if fin then rest' = [] else exists r, rest' = Var :: r).
Proof.
  induction rest as [|[c|] rest IH]; intros path fin path' rest' E; cbn [append_consts] in E.
  - injection E as <- <- <-. exists []. auto.
  - destruct (IH _ _ _ _ E) as (cs & -> & -> & F). exists (c :: cs). auto.
  - injection E as <- <- <-. exists []. repeat split. exists rest. reflexivity.
Qed.

Lemma var_count_consts cs rest : var_count (map Val cs ++ rest) = var_count rest.
Proof.
  induction cs as [|c cs IH]; [reflexivity|]. cbn [map app]. rewrite var_count_cons. exact IH.
Qed.
Lemma fill_consts cs rest ts : fill (map Val cs ++ rest) ts = cs ++ fill rest ts.
Proof. induction cs as [|c cs IH]; [reflexivity|]. cbn. rewrite IH. reflexivity. Qed.

Lemma bind_all_spec : forall ts rest path, length ts = var_count rest ->
  exists p r, bind_all ts (mkPser path rest true) = Ok (mkPser p r true) /\ var_count r = 0%nat /\
    fold_left push (fill r []) p = fold_left push (fill rest ts) path.
Proof.
  induction ts as [|t ts IH]; intros rest path L; cbn [bind_all].
  - exists path, rest. repeat split. symmetry. exact L.
  - unfold bind_next_var. cbn [p_started p_path p_rest assert_invalid bind].
    destruct (append_consts path rest) as [fin [path' rest']] eqn:A.
    destruct (append_consts_spec _ _ _ _ _ A) as (cs & -> & -> & F).
    rewrite var_count_consts in L. destruct fin.
    + subst rest'. discriminate.
    + destruct F as [r ->]. cbn [negb assert_invalid bind tl].
      rewrite var_count_cons in L. cbn in L. injection L as L.
      destruct (IH r (push (fold_left push cs path) t) L) as (p & r' & E & V & P).
      exists p, r'. split; [exact E|]. split; [exact V|]. rewrite P, fill_consts, fold_left_app. reflexivity.
Qed.

Lemma finish_spec p r : var_count r = 0%nat ->
  finish_path (mkPser p r true) = Ok (mkPser (fold_left push (fill r []) p) [] true).
Proof.
  intros V. unfold finish_path. cbn [p_started p_path p_rest assert_invalid bind].
  destruct (append_consts p r) as [fin [path' rest']] eqn:A.
  destruct (append_consts_spec _ _ _ _ _ A) as (cs & -> & -> & F).
  rewrite var_count_consts in V. destruct fin.
  - subst rest'. cbn [assert_invalid bind]. rewrite fill_consts. cbn [fill]. rewrite app_nil_r. reflexivity.
  - destruct F as [r ->]. discriminate.
Qed.

Lemma elems_fix ep : forall vs s,
  (fix elems (vs : list value) (s : pser) : res pser :=
     match vs with [] => Ok s | v :: r => s <- ser_path ep v s ;; elems r s end) vs s = ser_path_elems ep vs s.
Proof.
  induction vs as [|v vs IH]; intros s; [reflexivity|]. cbn [ser_path_elems].
  destruct (ser_path ep v s); cbn [bind]; [apply IH | reflexivity ..].
Qed.

Lemma bind_next_var_started t s s' : bind_next_var t s = Ok s' -> p_started s' = true.
Proof.
  unfold bind_next_var. destruct (p_started s) eqn:St; [|discriminate]. cbn [assert_invalid bind].
  destruct (append_consts (p_path s) (p_rest s)) as [[] [? ?]]; cbn; [discriminate|]. intros [= <-]. reflexivity.
Qed.

Lemma bind_next_var_cases t s : bind_next_var t s = Err Invalid \/ exists s', bind_next_var t s = Ok s'.
Proof.
  unfold bind_next_var. destruct (p_started s); [|left; reflexivity]. cbn [assert_invalid bind].
  destruct (append_consts (p_path s) (p_rest s)) as [[] [? ?]]; cbn; [left; reflexivity | right; eauto].
Qed.

Lemma ser_elems ep : forall vs s, p_started s = true ->
  ser_path_elems ep vs s = match all_some (map scalar_text vs) with
                           | Some ts => bind_all ts s
                           | None => Err Invalid
                           end.
Proof.
  induction vs as [|v vs IH]; intros s St; [reflexivity|].
  cbn [ser_path_elems map all_some]. rewrite ser_scalar by exact St.
  destruct (scalar_text v) as [t|]; [|reflexivity].
  destruct (bind_next_var_cases t s) as [E|[s' E]]; rewrite E; cbn [bind].
  - destruct (all_some (map scalar_text vs)) as [ts|]; cbn [option_map bind_all]; [rewrite E|]; reflexivity.
  - rewrite (IH s' (bind_next_var_started _ _ _ E)).
    destruct (all_some (map scalar_text vs)) as [ts|]; cbn [option_map bind_all]; [rewrite E|]; reflexivity.
Qed.

Lemma all_some_length {A} (l : list (option A)) r : all_some l = Some r -> length r = length l.
Proof.
  revert r. induction l as [|[a|] l IH]; intros r E; cbn in E; [injection E as <-; reflexivity | | discriminate].
  destruct (all_some l) as [x|]; [|discriminate]. injection E as <-. cbn. f_equal. apply IH. reflexivity.
Qed.

Theorem ser_path_spec ep v path :
  ser_path ep v (pser_new ep path) =
  match path_args v with
  | Some ts => if Nat.eqb (length ts) (var_count ep)
               then Ok (mkPser (fold_left push (fill ep ts) path) [] true)
               else Err Invalid
  | None => Err Invalid
  end.
Proof.
  assert (T : forall vs,
    (s <- start_tuple ep (length vs) (pser_new ep path) ;;
     s <- (fix elems (vs : list value) (s : pser) : res pser :=
              match vs with [] => Ok s | v :: r => s <- ser_path ep v s ;; elems r s end) vs s ;;
     finish_path s) =
    match all_some (map scalar_text vs) with
    | Some ts => if Nat.eqb (length ts) (var_count ep)
                 then Ok (mkPser (fold_left push (fill ep ts) path) [] true) else Err Invalid
    | None => Err Invalid
    end).
  { intros vs. unfold start_tuple, pser_new. cbn [p_started negb assert_invalid bind p_path p_rest].
    destruct (Nat.eqb (var_count ep) (length vs)) eqn:L; cbn [assert_invalid bind].
    - rewrite elems_fix, ser_elems by reflexivity. apply Nat.eqb_eq in L.
      destruct (all_some (map scalar_text vs)) as [ts|] eqn:A; [|reflexivity].
      pose proof (all_some_length _ _ A) as LA. rewrite map_length in LA.
      assert (E : length ts = var_count ep) by congruence.
      destruct (bind_all_spec ts ep path E) as (p & r & B & V & P). rewrite B. cbn [bind].
      rewrite (finish_spec p r V), P, E, Nat.eqb_refl. reflexivity.
    - destruct (all_some (map scalar_text vs)) as [ts|] eqn:A; [|reflexivity].
      pose proof (all_some_length _ _ A) as LA. rewrite map_length in LA.
      rewrite LA. rewrite Nat.eqb_sym, L. reflexivity. }
  assert (U : path_unit ep (pser_new ep path) =
    if Nat.eqb 0 (var_count ep) then Ok (mkPser (fold_left push (fill ep []) path) [] true) else Err Invalid).
  { unfold path_unit, pser_new. cbn [p_started negb assert_invalid bind p_path p_rest].
    rewrite Nat.eqb_sym. destruct (Nat.eqb 0 (var_count ep)) eqn:V; [|reflexivity].
    cbn [assert_invalid bind]. apply Nat.eqb_eq in V. rewrite finish_spec by (symmetry; exact V). reflexivity. }
  induction v; cbn [ser_path path_args]; try reflexivity; try exact U; try apply T; try exact IHv.
Qed.

(** ** Decoding (C05) *)
Definition pinv (s : pde) : Prop := pd_free s = var_count (pd_rest s).

Definition path_dec (t : ty) (e : ustr) : res value :=
  e <- percent_decode e ;; ok_or_invalid (read_scalar t e).

Lemma option_map_bind {A B} (f : A -> B) o :
  (a <- ok_or_invalid o ;; Ok (f a)) = ok_or_invalid (option_map f o).
Proof. destruct o; reflexivity. Qed.

Lemma path_scalar_eq {A} (parse : ustr -> option A) mk s (rd : ustr -> option value) :
  (forall e, rd e = option_map mk (parse e)) ->
  path_scalar parse mk s =
  ('(e, s') <- next_value s ;; v <- (e' <- percent_decode e ;; ok_or_invalid (rd e')) ;; Ok (v, s')).
Proof.
  intros E. unfold path_scalar. destruct (next_value s) as [[e s']| | |]; try reflexivity. cbn [bind].
  destruct (percent_decode e) as [e'| | |]; try reflexivity. cbn [bind]. rewrite E.
  destruct (parse e'); reflexivity.
Qed.

Lemma de_scalar t : forall s, readable t = true ->
  de_path t s = '(e, s') <- next_value s ;; v <- path_dec t e ;; Ok (v, s').
Proof.
  induction t; intros st R; cbn in R; try discriminate; cbn [de_path]; unfold path_dec.
  - apply path_scalar_eq. intros e. cbn [read_scalar]. unfold parse_bool.
    destruct (ustr_eqb e (u "true")), (ustr_eqb e (u "false")); reflexivity.
  - apply path_scalar_eq. reflexivity.
  - apply path_scalar_eq. reflexivity.
  - apply path_scalar_eq. reflexivity.
  - destruct (next_value st) as [[e s']| | |]; try reflexivity. cbn [bind].
    destruct (percent_decode e) as [e'| | |]; reflexivity.
  - rewrite (IHt st R). destruct (next_value st) as [[e s']| | |]; try reflexivity. cbn [bind]. unfold path_dec.
    destruct (percent_decode e) as [e'| | |]; try reflexivity. cbn [bind].
    cbn [read_scalar]. destruct (read_scalar t e') as [v|]; reflexivity.
Qed.

Lemma de_unreadable t : forall s, pd_in_seq s = true -> readable t = false ->
  exists k, de_path t s = Err k.
Proof.
  induction t; intros st I R; cbn in R; try discriminate; cbn [de_path]; eauto;
    try (unfold path_enter; rewrite I; cbn; eauto).
  destruct (IHt st I R) as [k E]. exists k. rewrite E. reflexivity.
Qed.

(** [next_value] step by step along the entry point. *)
Lemma next_value_spec : forall rest segs free, free = var_count rest ->
  match next_value_loop rest segs free with
  | Ok (e, (segs', (rest', free'))) =>
      exists cs, rest = map Val cs ++ Var :: rest' /\ segs = cs ++ e :: segs' /\ free' = var_count rest' /\
                 free = S free'
  | Err k => k = Invalid
  | _ => False
  end.
Proof.
  induction rest as [|[c|] rest IH]; intros segs free F; cbn [next_value_loop]; [reflexivity | |].
  - destruct segs as [|s segs]; [reflexivity|]. cbn [as_option].
    destruct (ustr_eqb_spec s c) as [->|N]; [|reflexivity]. cbn [assert_invalid bind].
    rewrite var_count_cons in F. specialize (IH segs free F).
    destruct (next_value_loop rest segs free) as [[e [segs' [rest' free']]]| | |]; try exact IH.
    destruct IH as (cs & -> & -> & E1 & E2). exists (c :: cs). auto.
  - destruct segs as [|s segs]; [reflexivity|]. cbn [as_option].
    rewrite var_count_cons in F. cbn in F. subst free. cbn [next_value_loop].
    exists []. auto.
Qed.

Lemma var_texts_consts cs rest ss n : var_texts (map Val cs ++ rest) (cs ++ ss) (S n) = var_texts rest ss (S n).
Proof.
  induction cs as [|c cs IH]; [reflexivity|]. cbn [map app var_texts]. rewrite ustr_eqb_refl. exact IH.
Qed.

Lemma var_texts_consts_inv cs rest segs n l :
  var_texts (map Val cs ++ rest) segs (S n) = Some l ->
  exists ss, segs = cs ++ ss /\ var_texts rest ss (S n) = Some l.
Proof.
  revert segs. induction cs as [|c cs IH]; intros segs E; [exists segs; auto|].
  cbn [map app] in E. destruct segs as [|s segs]; [discriminate|]. cbn [var_texts] in E.
  destruct (ustr_eqb_spec s c) as [->|N]; [|discriminate].
  destruct (IH _ E) as (ss & -> & E'). exists ss. auto.
Qed.

(** Conversely, when the walk succeeds, so does [next_value]. *)
Lemma next_value_complete : forall rest segs free e l n, free = var_count rest ->
  var_texts rest segs (S n) = Some (e :: l) ->
  exists segs' rest' free', next_value_loop rest segs free = Ok (e, (segs', (rest', free'))) /\
    var_texts rest' segs' n = Some l /\ free' = var_count rest' /\ free = S free'.
Proof.
  induction rest as [|[c|] rest IH]; intros segs free e l n F E; cbn [var_texts] in E; [discriminate | |].
  - destruct segs as [|s segs]; [discriminate|]. cbn [next_value_loop as_option].
    destruct (ustr_eqb s c); [|discriminate]. cbn [assert_invalid bind].
    rewrite var_count_cons in F. apply (IH segs free e l n F E).
  - destruct segs as [|s segs]; [discriminate|].
    destruct (var_texts rest segs n) as [l'|] eqn:V; [|discriminate]. injection E as -> ->.
    rewrite var_count_cons in F. cbn in F. subst free. cbn [next_value_loop as_option].
    eexists _, _, _. split; [reflexivity|]. auto.
Qed.

Lemma finish_loop_safe : forall rest segs, safe (finish_loop rest segs).
Proof.
  induction rest as [|sg r IH]; intros ss; cbn [finish_loop]; [exact I|].
  apply safe_bind; [apply safe_ok_or|]. intros ex _. destruct ss as [|a ss]; [exact I|].
  apply safe_bind; [apply safe_assert|]. intros _ _. apply IH.
Qed.
Lemma pde_finish_safe s : safe (pde_finish s).
Proof. unfold pde_finish. apply safe_bind; [apply finish_loop_safe | intros; exact I]. Qed.

Lemma percent_decode_safe e : safe (percent_decode e).
Proof.
  remember (length e) as n eqn:L. assert (Le : (length e <= n)%nat) by lia. clear L. revert e Le.
  induction n as [|n IH]; intros e L; destruct e as [|c e]; cbn in L; try exact I; try lia.
  cbn [percent_decode]. destruct (c =? 37).
  - destruct e as [|h0 [|h1 e]]; try exact I. cbn in L. apply safe_bind; [apply safe_ok_or|]. intros code _.
    apply safe_bind; [apply IH; lia | intros; exact I].
  - apply safe_bind; [apply IH; lia | intros; exact I].
Qed.
Lemma path_dec_safe t e : safe (path_dec t e).
Proof. unfold path_dec. apply safe_bind; [apply percent_decode_safe | intros; apply safe_ok_or]. Qed.

(** One component of a tuple. *)
Lemma path_next_cases t s : pinv s -> pd_in_seq s = true ->
  match path_next (de_path t) s with
  | Ok (None, s') => pd_free s = 0%nat
  | Ok (Some v, s') =>
      pinv s' /\ pd_in_seq s' = true /\ pd_free s = S (pd_free s') /\ readable t = true /\
      exists e, path_dec t e = Ok v /\
      exists cs, pd_rest s = map Val cs ++ Var :: pd_rest s' /\ pd_segs s = cs ++ e :: pd_segs s'
  | Err _ => True
  | _ => False
  end.
Proof.
  intros I Sq. unfold path_next. destruct (pd_free s) as [|n] eqn:F.
  - assert (P : safe (pde_finish s)) by apply pde_finish_safe.
    destruct (pde_finish s); cbn [bind]; auto.
  - destruct (readable t) eqn:R.
    + rewrite (de_scalar t s R). unfold next_value.
      pose proof (next_value_spec (pd_rest s) (pd_segs s) (pd_free s) I) as NV.
      destruct (next_value_loop (pd_rest s) (pd_segs s) (pd_free s)) as [[e [segs' [rest' free']]]| | |];
        cbn [bind]; try exact NV; try exact Logic.I.
      assert (PD : safe (path_dec t e)) by apply path_dec_safe.
      destruct (path_dec t e) as [v| | |] eqn:PE; cbn [bind]; auto.
      destruct NV as (cs & E1 & E2 & E3 & E4). unfold pinv. cbn [pd_free pd_rest pd_in_seq pd_segs].
      rewrite F in E4. repeat split; auto. exists e. split; [exact PE|]. exists cs. auto.
    + destruct (de_unreadable t s Sq R) as [k E]. rewrite E. exact Logic.I.
Qed.

Lemma visit_tuple_spec : forall ts s, pinv s -> pd_in_seq s = true ->
  match visit_tuple path_next (map de_path ts) s with
  | Ok (vs, s') =>
      exists texts, var_texts (pd_rest s) (pd_segs s) (length ts) = Some texts /\
        Forall2 (fun te v => path_dec (fst te) (snd te) = Ok v) (combine ts texts) vs /\
        forallb readable ts = true /\ length texts = length ts
  | Err _ => True
  | _ => False
  end.
Proof.
  induction ts as [|t ts IH]; intros s I Sq; cbn [map visit_tuple].
  - exists []. repeat split; [destruct (pd_rest s) as [|[|] ]; reflexivity | constructor].
  - pose proof (path_next_cases t s I Sq) as P.
    destruct (path_next (de_path t) s) as [[[v|] s']| | |]; cbn [bind]; try exact P; try exact Logic.I.
    destruct P as (I' & Sq' & F & R & e & PD & cs & E1 & E2).
    specialize (IH s' I' Sq').
    destruct (visit_tuple path_next (map de_path ts) s') as [[vs s'']| | |]; cbn [bind]; try exact IH.
    destruct IH as (texts & V & Fa & Rs & L). exists (e :: texts).
    rewrite E1, E2. cbn [length]. split; [|split; [|split]].
    + rewrite var_texts_consts. cbn [var_texts]. rewrite V. reflexivity.
    + cbn [combine]. constructor; [exact PD | exact Fa].
    + cbn [forallb]. rewrite R, Rs. reflexivity.
    + cbn [length]. congruence.
Qed.

Lemma var_texts_length : forall ep segs n l, var_texts ep segs n = Some l -> length l = n.
Proof.
  induction ep as [|[c|] ep IH]; intros segs [|n] l E; cbn [var_texts] in E;
    try (injection E as <-; reflexivity); try discriminate.
  - destruct segs as [|s ss]; [discriminate|]. destruct (ustr_eqb s c); [|discriminate]. apply (IH _ _ _ E).
  - destruct segs as [|s ss]; [discriminate|]. destruct (var_texts ep ss n) as [l'|] eqn:V; [|discriminate].
    injection E as <-. cbn. f_equal. apply (IH _ _ _ V).
Qed.

Lemma visit_tuple_complete : forall ts s texts vs, pinv s ->
  var_texts (pd_rest s) (pd_segs s) (length ts) = Some texts ->
  Forall2 (fun te v => path_dec (fst te) (snd te) = Ok v) (combine ts texts) vs ->
  forallb readable ts = true ->
  exists s', visit_tuple path_next (map de_path ts) s = Ok (vs, s').
Proof.
  induction ts as [|t ts IH]; intros s texts vs I V Fa R; cbn [map visit_tuple length] in *.
  - assert (texts = []) by (destruct (pd_rest s) as [|[|] ]; cbn in V; congruence). subst.
    inversion Fa; subst. eexists. reflexivity.
  - destruct texts as [|e texts]; [apply var_texts_length in V; discriminate|].
    destruct (next_value_complete _ _ _ _ _ _ I V) as (segs' & rest' & free' & NV & V' & F1 & F2).
    cbn [combine] in Fa. inversion Fa as [|? ? ? vs' PD Fa']; subst.
    cbn [forallb] in R. apply andb_true_iff in R. destruct R as [R1 R2].
    unfold path_next at 1. rewrite F2. rewrite (de_scalar t s R1). unfold next_value. rewrite NV.
    cbn [bind]. cbn [fst snd] in PD. rewrite PD. cbn [bind].
    destruct (IH (mkPde (pd_in_seq s) segs' rest' (var_count rest')) texts vs' eq_refl V' Fa' R2) as (s' & E).
    rewrite E. cbn [bind]. eexists. reflexivity.
Qed.

(** ** Whole entry points: [Vec] paths, and absence of panics *)
Lemma hexval_spec c d : hexval c = Some d <-> hex_digit c d.
Proof.
  unfold hexval, hex_digit. destruct ((48 <=? c) && (c <=? 57)) eqn:E1; [split; [intros [= <-]|intros X; f_equal]; lia|].
  destruct ((65 <=? c) && (c <=? 70)) eqn:E2; [split; [intros [= <-]|intros X; f_equal]; lia|].
  destruct ((97 <=? c) && (c <=? 102)) eqn:E3; [split; [intros [= <-]|intros X; f_equal]; lia|].
  split; [discriminate | lia].
Qed.

Lemma unescapes_ok e s : unescapes e s -> percent_decode e = Ok s.
Proof.
  intros U. induction U as [|c s t N U IH|h l a b s t A B U IH|l b s t B U IH]; [reflexivity| | |].
  - cbn [percent_decode]. replace (c =? 37) with false by lia. rewrite IH. reflexivity.
  - cbn [percent_decode]. change (37 =? 37) with true. cbv iota. unfold hex_pair.
    assert (h =? 43 = false) as -> by (unfold hex_digit in A; lia).
    apply hexval_spec in A. apply hexval_spec in B. rewrite A, B. cbn [ok_or_invalid bind]. rewrite IH. reflexivity.
  - cbn [percent_decode]. change (37 =? 37) with true. cbv iota. unfold hex_pair.
    change (43 =? 43) with true. cbv iota. apply hexval_spec in B. rewrite B. cbn [ok_or_invalid bind]. rewrite IH. reflexivity.
Qed.

Lemma percent_decode_spec e s : percent_decode e = Ok s <-> unescapes e s.
Proof.
  split; [|apply unescapes_ok].
  remember (length e) as n eqn:L. assert (Le : (length e <= n)%nat) by lia. clear L. revert e s Le.
  induction n as [|n IH]; intros e s L E; destruct e as [|c e]; cbn in L; try lia;
    try (injection E as <-; constructor).
  cbn [percent_decode] in E. destruct (c =? 37) eqn:C.
  - assert (c = 37) by lia. subst c. destruct e as [|h0 [|h1 e]]; try discriminate. cbn in L.
    unfold hex_pair in E. destruct (h0 =? 43) eqn:P.
    + assert (h0 = 43) by lia. subst h0. destruct (hexval h1) as [b|] eqn:B; [|discriminate].
      cbn [ok_or_invalid bind] in E. destruct (percent_decode e) as [t| | |] eqn:D; try discriminate.
      injection E as <-. apply UnPlus; [apply hexval_spec, B | apply IH; [lia | exact D]].
    + destruct (hexval h0) as [a|] eqn:A; [|discriminate]. destruct (hexval h1) as [b|] eqn:B; [|discriminate].
      cbn [ok_or_invalid bind] in E. destruct (percent_decode e) as [t| | |] eqn:D; try discriminate.
      injection E as <-. apply UnHex; [apply hexval_spec, A | apply hexval_spec, B | apply IH; [lia | exact D]].
  - destruct (percent_decode e) as [t| | |] eqn:D; try discriminate. injection E as <-.
    apply UnPlain; [lia | apply IH; [lia | exact D]].
Qed.

Lemma path_dec_spec t e v : path_dec t e = Ok v <-> reads t e v.
Proof.
  unfold path_dec, reads. split.
  - intros E. destruct (percent_decode e) as [s| | |] eqn:D; try discriminate. exists s.
    split; [apply percent_decode_spec, D|]. cbn in E. destruct (read_scalar t s); cbn in E; congruence.
  - intros (s & U & R). apply percent_decode_spec in U. rewrite U. cbn. rewrite R. reflexivity.
Qed.

Lemma read_readable t : forall s v, read_scalar t s = Some v -> readable t = true.
Proof.
  induction t; intros x v R; cbn in R |- *; try discriminate; try reflexivity.
  destruct (read_scalar t x) as [w|] eqn:E; [|discriminate]. apply (IHt _ _ E).
Qed.

Lemma Forall2_combine {A B C} (P : A -> B -> C -> Prop) : forall (ts : list A) (es : list B) (vs : list C),
  length es = length ts ->
  Forall2 (fun te v => P (fst te) (snd te) v) (combine ts es) vs <->
  (length vs = length ts /\ forall i t e v, nth_error ts i = Some t -> nth_error es i = Some e ->
     nth_error vs i = Some v -> P t e v).
Proof.
  induction ts as [|t ts IH]; intros es vs L; destruct es as [|e es]; try discriminate; cbn [combine].
  - split.
    + intros F. inversion F; subst. split; [reflexivity|]. intros [|i] ? ? ? X; discriminate.
    + intros [E _]. destruct vs; [constructor | discriminate].
  - injection L as L. split.
    + intros F. inversion F as [|? v ? vs' Pv F']; subst. apply IH in F'; [|exact L]. destruct F' as [E F'].
      split; [cbn; congruence|]. intros [|i] t' e' v' X Y Z; cbn in X, Y, Z.
      * injection X as <-. injection Y as <-. injection Z as <-. exact Pv.
      * apply (F' i); assumption.
    + intros [E F]. destruct vs as [|v vs]; [discriminate|]. constructor.
      * apply (F 0%nat); reflexivity.
      * apply IH; [exact L|]. split; [cbn in E; congruence|]. intros i. apply (F (S i)).
Qed.

Theorem de_tuple_iff ep segs ts vs :
  (exists s', de_path (TTuple ts) (mkPde false segs ep (var_count ep)) = Ok (STuple vs, s')) <->
  exists es, var_texts ep segs (length ts) = Some es /\ length vs = length ts /\
    forall i t e v, nth_error ts i = Some t -> nth_error es i = Some e -> nth_error vs i = Some v -> reads t e v.
Proof.
  cbn [de_path]. unfold path_enter. cbn [pd_in_seq negb assert_invalid bind pd_segs pd_rest pd_free]. split.
  - intros (s' & D).
    pose proof (visit_tuple_spec ts (mkPde true segs ep (var_count ep)) eq_refl eq_refl) as V.
    destruct (visit_tuple path_next (map de_path ts) (mkPde true segs ep (var_count ep))) as [[vs' s'']| | |];
      cbn [bind] in D; try discriminate.
    injection D as -> _. destruct V as (es & V & Fa & _ & L). exists es. split; [exact V|].
    apply (Forall2_combine (fun t e v => path_dec t e = Ok v)) in Fa; [|exact L]. destruct Fa as [L2 Fa].
    split; [exact L2|]. intros i t e v X Y Z. apply path_dec_spec. apply (Fa i); assumption.
  - intros (es & V & L & F).
    pose proof (var_texts_length _ _ _ _ V) as Le.
    destruct (visit_tuple_complete ts (mkPde true segs ep (var_count ep)) es vs eq_refl V) as [s' E].
    + apply (Forall2_combine (fun t e v => path_dec t e = Ok v)); [exact Le|]. split; [exact L|].
      intros i t e v X Y Z. apply path_dec_spec. apply (F i); assumption.
    + apply forallb_forall. intros t I. apply In_nth_error in I. destruct I as [i X].
      assert (B : (i < length ts)%nat) by (apply nth_error_Some; congruence).
      destruct (nth_error es i) as [e|] eqn:Y; [|apply nth_error_None in Y; lia].
      destruct (nth_error vs i) as [v|] eqn:Z; [|apply nth_error_None in Z; lia].
      destruct (F i t e v X Y Z) as (x & _ & R). apply (read_readable _ _ _ R).
    + rewrite E. cbn [bind]. exists s'. reflexivity.
Qed.

(** [Vec] paths: all variables, and the constants after the last one are compared too. *)
Lemma finish_loop_whole : forall rest segs, var_count rest = 0%nat ->
  (exists segs', finish_loop rest segs = Ok segs') <-> whole_texts rest segs = Some [].
Proof.
  induction rest as [|[c|] rest IH]; intros segs V; rewrite ?var_count_cons in V.
  - split; [reflexivity | eexists; reflexivity].
  - cbn [finish_loop as_option ok_or_invalid bind whole_texts]. destruct segs as [|s segs]; [split; [intros [? ?]|]; discriminate|].
    destruct (ustr_eqb s c); cbn [assert_invalid bind]; [apply IH; exact V | split; [intros [? ?]|]; discriminate].
  - discriminate.
Qed.

Lemma whole_novars rest segs es : var_count rest = 0%nat -> whole_texts rest segs = Some es -> es = [].
Proof.
  revert segs. induction rest as [|[c|] rest IH]; intros segs V E; rewrite ?var_count_cons in V; cbn [whole_texts] in E.
  - congruence.
  - destruct segs as [|s segs]; [discriminate|]. destruct (ustr_eqb s c); [|discriminate]. apply (IH segs V E).
  - discriminate.
Qed.

Lemma whole_consts cs rest ss : whole_texts (map Val cs ++ rest) (cs ++ ss) = whole_texts rest ss.
Proof.
  induction cs as [|c cs IH]; [reflexivity|]. cbn [map app whole_texts]. rewrite ustr_eqb_refl. exact IH.
Qed.

Lemma whole_next : forall rest segs es, whole_texts rest segs = Some es -> var_count rest <> 0%nat ->
  exists cs e rest' segs' es', rest = map Val cs ++ Var :: rest' /\ segs = cs ++ e :: segs' /\ es = e :: es' /\
    whole_texts rest' segs' = Some es'.
Proof.
  induction rest as [|[c|] rest IH]; intros segs es E V; cbn [whole_texts] in E; [contradiction V; reflexivity| |].
  - destruct segs as [|s segs]; [discriminate|]. destruct (ustr_eqb_spec s c) as [->|]; [|discriminate].
    rewrite var_count_cons in V. destruct (IH segs es E V) as (cs & e & r' & s' & es' & -> & -> & -> & W).
    exists (c :: cs), e, r', s', es'. auto.
  - destruct segs as [|s segs]; [discriminate|]. destruct (whole_texts rest segs) as [es'|] eqn:W; [|discriminate].
    injection E as <-. exists [], s, rest, segs, es'. auto.
Qed.

Lemma next_value_consts : forall cs e rest segs free,
  next_value_loop (map Val cs ++ Var :: rest) (cs ++ e :: segs) (S free) = Ok (e, (segs, (rest, free))).
Proof.
  induction cs as [|c cs IH]; intros; [reflexivity|]. cbn [map app next_value_loop as_option].
  rewrite ustr_eqb_refl. cbn [assert_invalid bind]. apply IH.
Qed.

Lemma visit_seq_spec t : forall fuel s, pinv s -> pd_in_seq s = true -> (pd_free s < fuel)%nat ->
  safe (visit_seq fuel path_next (de_path t) s) /\
  forall vs, (exists s', visit_seq fuel path_next (de_path t) s = Ok (vs, s')) <->
    exists es, whole_texts (pd_rest s) (pd_segs s) = Some es /\ Forall2 (fun e v => path_dec t e = Ok v) es vs.
Proof.
  induction fuel as [|f IH]; intros s I Sq L; [lia|]. cbn [visit_seq].
  destruct (pd_free s) as [|n] eqn:F.
  - unfold pinv in I. rewrite F in I. unfold path_next. rewrite F. unfold pde_finish.
    pose proof (finish_loop_safe (pd_rest s) (pd_segs s)) as FS.
    pose proof (finish_loop_whole (pd_rest s) (pd_segs s) (eq_sym I)) as FW.
    destruct (finish_loop (pd_rest s) (pd_segs s)) as [segs'|k| |]; cbn [bind safe] in *; try contradiction.
    + split; [exact Logic.I|]. intros vs. split.
      * intros (s' & [= <- _]). exists []. split; [apply FW; eauto | constructor].
      * intros (es & W & Fa). apply (whole_novars _ _ _ (eq_sym I)) in W. subst es. inversion Fa; subst. eauto.
    + split; [exact Logic.I|]. intros vs. split; [intros (? & ?); discriminate|].
      intros (es & W & _). pose proof (whole_novars _ _ _ (eq_sym I) W). subst es. apply FW in W. destruct W; discriminate.
  - pose proof (path_next_cases t s I Sq) as P.
    assert (V0 : var_count (pd_rest s) <> 0%nat) by (unfold pinv in I; lia).
    destruct (path_next (de_path t) s) as [[[v|] s']|k| |] eqn:PN; cbn [bind]; try contradiction; try (rewrite F in P; discriminate).
    + destruct P as (I' & Sq' & F' & R & e & PD & cs & E1 & E2).
      destruct (IH s' I' Sq' ltac:(lia)) as [S' IHv]. split.
      * apply safe_bind; [exact S' | intros [vs' ?] _; exact Logic.I].
      * intros vs. split.
        -- intros (s2 & E). destruct (visit_seq f path_next (de_path t) s') as [[vs' s3]| | |]; cbn [bind] in E; try discriminate.
           injection E as <- _. destruct (proj1 (IHv vs') ltac:(eauto)) as (es & W & Fa). exists (e :: es).
           split; [|constructor; assumption]. rewrite E1, E2, whole_consts. cbn [whole_texts]. rewrite W. reflexivity.
        -- intros (es & W & Fa). rewrite E1, E2, whole_consts in W. cbn [whole_texts] in W.
           destruct (whole_texts (pd_rest s') (pd_segs s')) as [es'|] eqn:W'; [|discriminate]. injection W as <-.
           inversion Fa as [|? v' ? vs' PD' Fa']; subst. assert (v' = v) by congruence. subst v'.
           destruct (proj2 (IHv vs') ltac:(eauto)) as (s2 & E). rewrite E. cbn [bind]. eauto.
    + split; [exact Logic.I|]. intros vs. split; [intros (? & ?); discriminate|].
      intros (es & W & Fa). exfalso.
      destruct (whole_next _ _ _ W V0) as (cs & e & r' & s' & es' & E1 & E2 & -> & W').
      inversion Fa as [|? v ? vs' PD Fa']; subst. unfold path_next in PN. rewrite F in PN.
      destruct (readable t) eqn:R.
      * rewrite (de_scalar t s R) in PN. unfold next_value in PN. rewrite E1, E2, F, next_value_consts in PN.
        cbn [bind] in PN. rewrite PD in PN. discriminate.
      * apply path_dec_spec in PD. destruct PD as (x & _ & RX). apply read_readable in RX. congruence.
Qed.

Theorem de_vec_iff ep segs t vs :
  (exists s', de_path (TSeq t) (mkPde false segs ep (var_count ep)) = Ok (SSeq vs, s')) <->
  exists es, whole_texts ep segs = Some es /\ Forall2 (reads t) es vs.
Proof.
  cbn [de_path]. unfold path_enter. cbn [pd_in_seq negb assert_invalid bind pd_segs pd_rest pd_free].
  destruct (visit_seq_spec t (S (var_count ep)) (mkPde true segs ep (var_count ep)) eq_refl eq_refl ltac:(cbn; lia)) as [_ V].
  specialize (V vs). cbn [pd_rest pd_segs] in V.
  assert (X : forall es, Forall2 (fun e v => path_dec t e = Ok v) es vs <-> Forall2 (reads t) es vs).
  { intros es. split; intros F; clear V; induction F; constructor; try assumption; apply path_dec_spec; assumption. }
  split.
  - intros (s' & E).
    destruct (visit_seq (S (var_count ep)) path_next (de_path t) _) as [[vs' s2]| | |]; cbn [bind] in E; try discriminate.
    injection E as -> _. destruct (proj1 V ltac:(eauto)) as (es & W & F). exists es. split; [exact W | apply X, F].
  - intros (es & W & F). destruct (proj2 V) as (s' & E); [exists es; split; [exact W | apply X, F]|].
    rewrite E. cbn [bind]. eauto.
Qed.

Lemma next_value_safe s : pinv s -> safe (next_value s).
Proof.
  intros I. unfold next_value. pose proof (next_value_spec (pd_rest s) (pd_segs s) (pd_free s) I) as NV.
  destruct (next_value_loop (pd_rest s) (pd_segs s) (pd_free s)) as [[e [a [b c]]]| | |]; cbn [bind]; try contradiction; exact Logic.I.
Qed.

Theorem de_path_safe ep segs : forall t, safe (de_path t (mkPde false segs ep (var_count ep))).
Proof.
  set (s := mkPde false segs ep (var_count ep)). assert (I : pinv s) by reflexivity.
  assert (SC : forall t, readable t = true -> safe (de_path t s)).
  { intros t R. rewrite (de_scalar t s R). apply safe_bind; [apply next_value_safe, I|]. intros [e s'] _.
    apply safe_bind; [apply path_dec_safe | intros; exact Logic.I]. }
  assert (TU : forall ts, safe (visit_tuple path_next (map de_path ts) (mkPde true segs ep (var_count ep)))).
  { intros ts. pose proof (visit_tuple_spec ts (mkPde true segs ep (var_count ep)) eq_refl eq_refl) as V.
    destruct (visit_tuple path_next (map de_path ts) _) as [[? ?]| | |]; try contradiction; exact Logic.I. }
  induction t; try (apply SC; reflexivity); cbn [de_path]; try exact Logic.I.
  - apply safe_bind; [exact IHt | intros [? ?] _; exact Logic.I].
  - unfold path_enter. cbn [pd_in_seq s negb assert_invalid bind pd_segs pd_rest pd_free].
    apply safe_bind; [|intros [? ?] _; exact Logic.I].
    apply (visit_seq_spec t (S (var_count ep)) (mkPde true segs ep (var_count ep)) eq_refl eq_refl). cbn; lia.
  - unfold path_enter. cbn [pd_in_seq s negb assert_invalid bind pd_segs pd_rest pd_free].
    apply safe_bind; [apply TU | intros [? ?] _; exact Logic.I].
  - unfold path_enter. cbn [pd_in_seq s negb assert_invalid bind pd_segs pd_rest pd_free].
    apply safe_bind; [apply TU | intros [? ?] _; exact Logic.I].
Qed.
End PathProofs.
