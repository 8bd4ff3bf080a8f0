(** * JSON fields through queries, headers and paths. *)
From Verif Require Import Base Utf8 Decimal DepUrl Serde Procedure ScalarSpec PathSpec PathProofs PathTrip FieldSpec FieldProofs SerPath SerQuery SerHeader SerRequest DePath DeQuery DeHeader DepHttp
  UrlProofs QueryProofs HeaderProofs FieldMore ValueInd Json JsonText JsonSpec JsonProofs JsonDe JsonTrip JsonField.
Open Scope N_scope.

Section Fields.
Context `{FL : floatlib} `{JF : jsonfloat}.

(** A value a JSON field carries unharmed: its tree is well-typed and faithful, not nested deeper than serde_json reads,
    and [s] is its text. *)
Definition carried (c : codec) (t : ty) (v : value) (s : ustr) : Prop :=
  has_ty t v = true /\ json_faithful v /\ str_ok s = true /\
  exists j, to_json v = Ok j /\ (nesting j < 128)%nat /\ s = match c with AsJsonPretty => print_pretty 0 j | _ => print_json j end.

Lemma carried_text c t v s : c <> Plain -> carried c t v s ->
  field_value c v = Ok (SStr s) /\ field_read c t (SStr s) = Ok v.
Proof.
  intros Nc (T & F & _ & j & E & D & ->). destruct (json_text_trip t v j T F E D) as [R1 R2].
  destruct c; [congruence| |]; unfold field_value, field_read, json_text, to_json_string, to_json_string_pretty; rewrite E; cbn [bind]; [rewrite R1 | rewrite R2]; auto.
Qed.

(** One field of a struct: its name, codec, type; [w] is what goes over the wire for [v]. *)
Definition declared := (ustr * (codec * ty))%type.
Definition wire_ty (f : declared) : ustr * ty := (fst f, field_ty (fst (snd f)) (snd (snd f))).
Definition fits (ok : ty -> value -> Prop) (f : declared) (kv : ustr * value) : Prop :=
  fst kv = fst f /\ match fst (snd f) with Plain => ok (snd (snd f)) (snd kv) | c => exists s, carried c (snd (snd f)) (snd kv) s end.

Lemma wires (ok : ty -> value -> Prop) fs vs : (forall s, str_ok s = true -> ok TStr (SStr s)) -> Forall2 (fits ok) fs vs ->
  exists ws, Forall2 (fun f wv => fst wv = fst f /\ ok (snd f) (snd wv)) (map wire_ty fs) ws /\
    Forall2 (fun f '(kv, kw) => field_value (fst (snd f)) (snd kv) = Ok (snd kw) /\ field_read (fst (snd f)) (snd (snd f)) (snd kw) = Ok (snd kv)) fs (combine vs ws) /\
    length ws = length vs.
Proof.
  intros Hs F. induction F as [|[n [c t]] [k v] fs vs [E Q] F IH]; [exists []; repeat split; constructor|]. cbn [fst snd] in *. subst k.
  destruct IH as (ws & A & B & L).
  assert (X : exists w, ok (field_ty c t) w /\ field_value c v = Ok w /\ field_read c t w = Ok v).
  { destruct c.
    - exists v. auto.
    - destruct Q as [s Q]. exists (SStr s). split; [apply Hs, Q | apply carried_text; [discriminate | exact Q]].
    - destruct Q as [s Q]. exists (SStr s). split; [apply Hs, Q | apply carried_text; [discriminate | exact Q]]. }
  destruct X as (w & W1 & W2). exists ((n, w) :: ws). cbn [map combine length]. split; [constructor; auto|]. split; [constructor; auto | congruence].
Qed.

Theorem query_json n fs vs : NoDup (map fst fs) -> Forall (fun f => str_ok (fst f) = true) fs -> Forall2 (fits query_faithful) fs vs ->
  exists ws l s', Forall2 (fun f '(kv, kw) => field_value (fst (snd f)) (snd kv) = Ok (snd kw) /\ field_read (fst (snd f)) (snd (snd f)) (snd kw) = Ok (snd kv)) fs (combine vs ws) /\
    length ws = length vs /\ query_written (SStruct n ws) = Some l /\ pairs_ok l = true /\ de_query (TStruct n (map wire_ty fs)) (qde_new l) = Ok (SStruct n ws, s').
Proof.
  intros ND O F. destruct (wires query_faithful fs vs) as (ws & A & B & L); [intros s E; exact E | exact F|].
  assert (M : map fst (map wire_ty fs) = map fst fs) by (rewrite map_map; reflexivity).
  destruct (query_trip n (map wire_ty fs) ws) as (l & W & P & s' & D).
  - rewrite M. exact ND.
  - rewrite Forall_forall in *. intros x I. apply in_map_iff in I. destruct I as (f & <- & I). exact (O f I).
  - exact A.
  - exists ws, l, s'. auto.
Qed.

Theorem header_json n fs vs : NoDup (map fst fs) -> Forall (fun f => lower_name (fst f) /\ fst f <> u "content-length") fs -> Forall2 (fits header_faithful) fs vs ->
  exists ws l, Forall2 (fun f '(kv, kw) => field_value (fst (snd f)) (snd kv) = Ok (snd kw) /\ field_read (fst (snd f)) (snd (snd f)) (snd kw) = Ok (snd kv)) fs (combine vs ws) /\
    length ws = length vs /\ header_written (SStruct n ws) = Some l /\ names_ok l = true /\
    forall len, exists s', de_header (TStruct n (map wire_ty fs)) (hde_new (l ++ [content_length len])) = Ok (SStruct n ws, s').
Proof.
  intros ND O F. destruct (wires header_faithful fs vs) as (ws & A & B & L); [intros s E; exact E | exact F|].
  assert (M : map fst (map wire_ty fs) = map fst fs) by (rewrite map_map; reflexivity).
  destruct (header_trip n (map wire_ty fs) ws) as (l & W & P & D).
  - rewrite M. exact ND.
  - rewrite Forall_forall in *. intros x I. apply in_map_iff in I. destruct I as (f & <- & I). exact (O f I).
  - exact A.
  - exists ws, l. auto.
Qed.

(** A path variable whose JSON text is path safe. *)
Theorem path_json `{U : urlenv} pre post c t v s : c <> Plain -> Forall plain_const pre -> Forall plain_const post -> carried c t v s ->
  let ep := map Val pre ++ Var :: map Val post in
  path_safe s ->
  exists p s' w, field_value c v = Ok w /\ ser_path ep (STuple [w]) (pser_new ep [[]]) = Ok p /\
    de_path (TTuple [field_ty c t]) (mkPde false (p_path p) ep (var_count ep)) = Ok (STuple [w], s') /\ field_read c t w = Ok v.
Proof.
  intros Nc P1 P2 C ep Sf. destruct (carried_text c t v s Nc C) as [E1 E2]. pose proof C as (_ & _ & S & _).
  assert (Ne : s <> []).
  { destruct C as (T & F & _ & j & E & _ & ->). destruct (json_trip t v j T F E) as (_ & N & _).
    assert (J : jtext j match c with AsJsonPretty => print_pretty 0 j | _ => print_json j end) by (destruct c; [apply print_json_text, N | apply print_json_text, N | apply print_pretty_text, N]).
    destruct (jtext_head _ _ J) as (x & r & -> & _). discriminate. }
  destruct (proj2 (string_survives_full pre post s P1 P2 S)) as (p & s' & A & B).
  { split; [exact Sf | intros E; congruence]. }
  exists p, s', (SStr s). destruct c; [congruence| |]; auto.
Qed.

(** ** What HTTP headers make of the texts *)
Lemma join_chars (P : N -> Prop) sep l : (forall c, In c sep -> P c) -> Forall (fun x => forall c, In c x -> P c) l -> forall c, In c (join sep l) -> P c.
Proof.
  intros Hs F. induction F as [|x l Hx F IH]; [intros c []|]. destruct l as [|y l]; [exact Hx|].
  change (join sep (x :: y :: l)) with (x ++ sep ++ join sep (y :: l)). intros c I. rewrite !in_app_iff in I. destruct I as [I|[I|I]]; auto.
Qed.
Lemma literal_chars w c : forallb (fun x => 32 <=? x) w = true -> In c w -> 32 <= c.
Proof. rewrite forallb_forall. intros F I. specialize (F c I). cbv beta in F. lia. Qed.
Lemma quote_chars s c : In c (quote s) -> 32 <= c.
Proof.
  assert (Hx : forall n, n < 16 -> 32 <= hexlow n) by (intros n L; unfold hexlow; destruct (n <? 10); lia).
  unfold quote. intros [<-|I]; [lia|]. apply in_app_or in I. destruct I as [I|[<-|[]]]; [|lia]. apply in_flat_map in I. destruct I as (x & _ & I). unfold esc_char in I.
  repeat match type of I with context [if ?b then _ else _] => destruct b eqn:?; [cbn in I; repeat (destruct I as [<-|I]; [try lia; apply Hx; try (apply N.mod_upper_bound; lia); apply N.div_lt_upper_bound; lia|]); contradiction|] end.
  destruct I as [<-|[]]. lia.
Qed.
Lemma float_chars t c : float_text t -> In c t -> 32 <= c.
Proof.
  intros (sg & d & f & e & -> & Hs & ((_ & Dd) & _) & Hf & He & _) I.
  assert (Dg : forall d, forallb is_digit d = true -> In c d -> 32 <= c).
  { intros d0 F J. rewrite forallb_forall in F. specialize (F c J). cbv beta in F. unfold is_digit in F. lia. }
  rewrite !in_app_iff in I. destruct I as [I|[I|[I|I]]].
  - destruct Hs as [<-|[<-|[]]]; [destruct I|]. destruct I as [<-|[]]. lia.
  - apply (Dg d Dd I).
  - destruct Hf as [->|(d' & -> & _ & D')]; [destruct I|]. destruct I as [<-|I]; [lia | apply (Dg d' D' I)].
  - destruct He as [->|(x & sg' & d' & -> & Hx & Hsg & _ & D')]; [destruct I|]. destruct I as [<-|I].
    + destruct Hx as [<-|[<-|[]]]; lia.
    + apply in_app_or in I. destruct I as [I|I]; [|apply (Dg d' D' I)]. destruct Hsg as [<-|[<-|[<-|[]]]]; cbn in I; lia.
Qed.
(** The compact text has no control character. *)
Lemma print_json_chars j : numbers_ok j -> forall c, In c (print_json j) -> 32 <= c.
Proof.
  induction j as [|b|z|t|s|l IH|l IH] using json_ind2; intros N c I.
  - apply (literal_chars (u "null")); [reflexivity | exact I].
  - destruct b; [apply (literal_chars (u "true")) | apply (literal_chars (u "false"))]; try reflexivity; exact I.
  - pose proof (show_int_chars z) as C. rewrite forallb_forall in C. specialize (C c I). cbv beta in C. unfold is_digit in C. lia.
  - apply (float_chars t); [apply N | exact I].
  - apply (quote_chars s c I).
  - apply (fold_forall numbers_ok) in N. cbn [print_json app] in I. destruct I as [<-|I]; [lia|]. apply in_app_or in I. destruct I as [I|[<-|[]]]; [|lia].
    apply (join_chars (fun c => 32 <= c) [44] (map print_json l)); [intros x [<-|[]]; lia | | exact I]. rewrite Forall_map. rewrite Forall_forall in *. intros x J. apply (IH x J (N x J)).
  - apply (fold_forall (fun kv : ustr * json => numbers_ok (snd kv))) in N. cbn [print_json app] in I. destruct I as [<-|I]; [lia|]. apply in_app_or in I. destruct I as [I|[<-|[]]]; [|lia].
    apply (join_chars (fun c => 32 <= c) [44] (map (fun kv => quote (fst kv) ++ [58] ++ print_json (snd kv)) l)); [intros x [<-|[]]; lia | | exact I].
    rewrite Forall_map. rewrite Forall_forall in *. intros x J y K. rewrite !in_app_iff in K. destruct K as [K|[[<-|[]]|K]]; [apply (quote_chars _ _ K) | lia | apply (IH x J (N x J) y K)].
Qed.

(** Its first and last character are not blank. *)
Lemma print_json_ends j : numbers_ok j -> forall a c b, print_json j = a ++ c :: b -> a = [] \/ b = [] -> c <> 32.
Proof.
  intros N. assert (H1 : exists x r, print_json j = x :: r /\ x <> 32).
  { destruct (jtext_head _ _ (print_json_text j N)) as (x & r & E & W & _). exists x, r. split; [exact E|]. intros ->. discriminate W. }
  assert (Dig : forall d (c : nat), forallb is_digit d = true -> d <> [] -> exists r x, d = r ++ [x] /\ x <> 32).
  { intros d _ F Ne. destruct (exists_last Ne) as (r & x & ->). exists r, x. split; [reflexivity|]. rewrite forallb_app in F. cbn in F. unfold is_digit in F. lia. }
  assert (Pre : forall p d : ustr, (exists r x, d = r ++ [x] /\ x <> 32) -> exists r x, p ++ d = r ++ [x] /\ x <> 32).
  { intros p d (r & x & -> & Q). exists (p ++ r), x. rewrite app_assoc. auto. }
  assert (H2 : exists r x, print_json j = r ++ [x] /\ x <> 32).
  { destruct j as [|b|z|t|s|l|l]; cbn [print_json].
    - exists (u "nul"), 108. split; [reflexivity | discriminate].
    - destruct b; [exists (u "tru"), 101 | exists (u "fals"), 101]; (split; [reflexivity | discriminate]).
    - destruct z; cbn [show_int]; try (apply (Dig _ O); apply show_N_digits). apply (Pre [45]). apply (Dig _ O); apply show_N_digits.
    - destruct N as [(sg & d & f & e & -> & Hs & ((Nd & Dd) & _) & Hf & He & _) _]. rewrite app_assoc. destruct He as [->|(x & sg' & d' & -> & Hx & Hsg & Nd' & D')].
      + rewrite app_nil_r. destruct Hf as [->|(d' & -> & Nd' & D')].
        * rewrite app_nil_r. apply Pre, (Dig d O Dd Nd).
        * apply Pre. apply (Pre [46]). apply (Dig d' O D' Nd').
      + apply Pre, Pre. apply (Pre (x :: sg')). apply (Dig d' O D' Nd').
    - exists (34 :: flat_map esc_char s), 34. split; [reflexivity | discriminate].
    - exists ([91] ++ join [44] (map print_json l)), 93. split; [rewrite <- app_assoc; reflexivity | discriminate].
    - exists ([123] ++ join [44] (map (fun kv => quote (fst kv) ++ [58] ++ print_json (snd kv)) l)), 125. split; [rewrite <- app_assoc; reflexivity | discriminate]. }
  intros a c b E [->| ->].
  - destruct H1 as (x & r & E1 & Q). rewrite E1 in E. cbn [app] in E. congruence.
  - destruct H2 as (r & x & E2 & Q). rewrite E2 in E. apply app_inj_tail in E. destruct E. congruence.
Qed.

Lemma value_bytes s : str_ok s = true -> (forall c, In c s -> 32 <= c /\ c <> 127) -> forallb value_byte (utf8_encode s) = true.
Proof.
  intros O C. apply forallb_forall. intros b I. pose proof (utf8_encode_bytes s O) as B. unfold bytes_ok in B. rewrite forallb_forall in B. specialize (B b I). cbv beta in B.
  unfold utf8_encode in I. apply in_flat_map in I. destruct I as (c & Ic & I). destruct (C c Ic) as [L N]. destruct (is_ascii c) eqn:A.
  - unfold utf8_char in I. unfold is_ascii in A. rewrite A in I. destruct I as [<-|[]]. unfold value_byte. lia.
  - pose proof (utf8_char_ge c A) as G. rewrite forallb_forall in G. specialize (G b I). cbv beta in G. unfold is_ascii in G. unfold value_byte. lia.
Qed.

Theorem json_header_safe n t v s : carried AsJson t v s -> ~ In 127 s -> n <> [] -> forallb token_char n = true -> safe_header (n, utf8_encode s) = true.
Proof.
  intros (T & F & O & j & E & _ & ->) Nd Nn Tn. destruct (json_trip t v j T F E) as (_ & Nm & _). unfold safe_header. cbn [fst snd]. rewrite Tn.
  rewrite value_bytes; [|exact O|].
  2: { intros c I. split; [apply (print_json_chars j Nm c I) | intros ->; contradiction]. }
  destruct n as [|n0 n]; [congruence|]. cbn [negb andb].
  assert (Hb : forall a c b, utf8_encode (print_json j) = a ++ c :: b -> a = [] \/ b = [] -> blank c = false).
  { intros a c b E1 Q. destruct (blank c) eqn:Bc; [|reflexivity]. exfalso.
    assert (Ac : c = 32 \/ c = 9) by (unfold blank in Bc; lia).
    assert (Asc : forall x, In c (utf8_char x) -> x = c).
    { intros x I. destruct (is_ascii x) eqn:A; [unfold utf8_char in I; unfold is_ascii in A; rewrite A in I; destruct I as [->|[]]; reflexivity|].
      pose proof (utf8_char_ge x A) as G. rewrite forallb_forall in G. specialize (G c I). cbv beta in G. unfold is_ascii in G. lia. }
    pose proof (print_json_ends j Nm) as En. pose proof (print_json_chars j Nm) as Ch. remember (print_json j) as p eqn:Ep. clear Ep.
    destruct Q as [->| ->].
    - cbn [app] in E1. destruct p as [|x p]; [discriminate|]. change (utf8_encode (x :: p)) with (utf8_char x ++ utf8_encode p) in E1.
      assert (x = c). { apply Asc. pose proof (utf8_char_len x). destruct (utf8_char x) as [|y r]; [cbn in *; lia|]. cbn [app] in E1. injection E1 as -> _. left. reflexivity. }
      subst x. specialize (Ch c (or_introl eq_refl)). apply (En [] c p eq_refl (or_introl eq_refl)). lia.
    - destruct p as [|x0 p0] using rev_ind; [destruct a; discriminate|]. clear IHp0. rewrite utf8_encode_app in E1. cbn [utf8_encode flat_map] in E1. rewrite app_nil_r in E1.
      assert (x0 = c). { apply Asc. pose proof (utf8_char_len x0). destruct (exists_last (l := utf8_char x0)) as (r & y & Ey); [intros Z; rewrite Z in *; cbn in *; lia|]. rewrite Ey in *. rewrite app_assoc in E1.
        apply app_inj_tail in E1. destruct E1 as [_ ->]. apply in_or_app. right. left. reflexivity. }
      subst x0. specialize (Ch c ltac:(apply in_or_app; right; left; reflexivity)). apply (En p0 c [] eq_refl (or_intror eq_refl)). lia. }
  unfold edge_blank. destruct (utf8_encode (print_json j)) as [|c r] eqn:E1; [reflexivity|]. rewrite (Hb [] c r eq_refl (or_introl eq_refl)). cbn [orb].
  rewrite (Hb (removelast (c :: r)) (last (c :: r) 0) []); [reflexivity | | right; reflexivity]. apply app_removelast_last. discriminate.
Qed.

(** The pretty text of a non-empty array or object begins with a line break. *)
Theorem pretty_line_break j : (exists x l, j = JArr (x :: l)) \/ (exists x l, j = JObj (x :: l)) -> exists c r, print_pretty 0 j = c :: 10 :: r.
Proof.
  intros [(x & l & ->)|([k x] & l & ->)].
  - cbn [print_pretty]. destruct l; eexists _, _; reflexivity.
  - cbn [print_pretty]. destruct l; eexists _, _; reflexivity.
Qed.
Lemma line_break_unsafe n c r : c < 128 -> safe_header (n, utf8_encode (c :: 10 :: r)) = false.
Proof.
  intros L. unfold safe_header. cbn [fst snd]. change (utf8_encode (c :: 10 :: r)) with (utf8_char c ++ utf8_char 10 ++ utf8_encode r). rewrite !forallb_app.
  change (forallb value_byte (utf8_char 10)) with false. rewrite andb_false_l, !andb_false_r. reflexivity.
Qed.
Theorem pretty_not_in_header n j : (exists x l, j = JArr (x :: l)) \/ (exists x l, j = JObj (x :: l)) -> safe_header (n, utf8_encode (print_pretty 0 j)) = false.
Proof.
  intros C. destruct C as [(x & l & ->)|([k x] & l & ->)]; cbn [print_pretty]; destruct l; (apply (line_break_unsafe n 91) || apply (line_break_unsafe n 123)); lia.
Qed.
Theorem pretty_not_in_path `{U : urlenv} j : (exists x l, j = JArr (x :: l)) \/ (exists x l, j = JObj (x :: l)) -> ~ path_safe (print_pretty 0 j).
Proof. intros C (S & _). destruct (pretty_line_break j C) as (c & r & E). rewrite E in S. destruct (S 10) as (_ & _ & Q & _); [right; left; reflexivity | congruence]. Qed.
End Fields.
