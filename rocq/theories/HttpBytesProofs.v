(** * Proofs about messages as bytes (C70-C72). *)
From Verif Require Import Base Utf8 Decimal DepUrl Serde SerHeader SerRequest SerResponse DeHeader DepHttp Status Router Error Client ClientSpec Server ServerSpec ServerProofs
  EndToEndSpec SessionSpec HttpBytes HttpBytesSpec.
Open Scope N_scope.

(** ** Parsers *)
Fixpoint feed {S A} (f : S -> N -> step S A) (s : S) (l : bytes) : option S :=
  match l with [] => Some s | c :: l => match f s c with On s => feed f s l | _ => None end end.
Lemma feed_run {S A} (f : S -> N -> step S A) : forall a s s' b, feed f s a = Some s' -> run f s (a ++ b) = run f s' b.
Proof.
  induction a as [|c a IH]; intros s s' b E; cbn in E |- *; [injection E as ->; reflexivity|].
  destruct (f s c); try discriminate. apply IH. exact E.
Qed.
Lemma feed_app {S A} (f : S -> N -> step S A) : forall a s s' b, feed f s a = Some s' -> feed f s (a ++ b) = feed f s' b.
Proof.
  induction a as [|c a IH]; intros s s' b E; cbn in E |- *; [injection E as ->; reflexivity|].
  destruct (f s c); try discriminate. apply IH. exact E.
Qed.
Lemma run_done_app {S A} (f : S -> N -> step S A) : forall a s x r b, run f s a = PDone x r -> run f s (a ++ b) = PDone x (r ++ b).
Proof.
  induction a as [|c a IH]; intros s x r b E; cbn in E |- *; [discriminate|].
  destruct (f s c); [apply IH; exact E | injection E as -> ->; reflexivity | discriminate].
Qed.
Lemma run_bad_app {S A} (f : S -> N -> step S A) : forall a s b, run f s a = PBad -> run f s (a ++ b) = PBad.
Proof.
  induction a as [|c a IH]; intros s b E; cbn in E |- *; [discriminate|].
  destruct (f s c); [apply IH; exact E | discriminate | reflexivity].
Qed.
(** A proper prefix of a head is not a head, and not wrong either. *)
Lemma run_prefix {S A} (f : S -> N -> step S A) s a b x : run f s (a ++ b) = PDone x [] -> b <> [] -> run f s a = PMore.
Proof.
  intros E B. destruct (run f s a) as [| |y r] eqn:Q; [reflexivity| |].
  - rewrite (run_bad_app f _ _ b Q) in E. discriminate.
  - rewrite (run_done_app f _ _ _ _ b Q) in E. injection E as _ E. apply app_eq_nil in E. destruct E as [_ E]. contradiction.
Qed.

Lemma split_cases {A} : forall (a b c d : list A), a ++ b = c ++ d ->
  (exists t, a = c ++ t /\ t ++ b = d) \/ (exists t, t <> [] /\ c = a ++ t /\ b = t ++ d).
Proof.
  induction a as [|x a IH]; intros b c d E; cbn in E.
  - destruct c as [|y c]; [left; exists []; split; [reflexivity | exact E]|]. right. exists (y :: c). split; [discriminate|]. split; [reflexivity | exact E].
  - destruct c as [|y c]; cbn in E; [left; exists (x :: a); split; [reflexivity | exact E]|].
    injection E as -> E. destruct (IH _ _ _ E) as [(t & -> & Q)|(t & T & -> & Q)]; [left | right]; exists t; auto.
Qed.

(** ** Reading a head *)
Section Head.
Context {S A : Type}.
Variables (f : S -> N -> step S A) (s0 : S) (room : nat) (closed : bool).
Notation parse := (run f s0).

Lemma head_comes H x : parse H = PDone x [] -> (length H <= room)%nat -> forall coming held z, held ++ concat coming = H ++ z ->
  exists held' coming', settle (read_head parse room closed held coming) = Comes (Came x held' coming') /\ held' ++ concat coming' = z.
Proof.
  intros P L. induction coming as [|p coming IH]; intros held z E.
  - cbn [concat] in E. cbn [read_head]. destruct (split_cases _ _ _ _ E) as [(t & -> & Q)|(t & T & _ & Q)].
    + rewrite (run_done_app f _ _ _ _ t P). exists t, []. split; [reflexivity | exact Q].
    + destruct t; [contradiction T; reflexivity | discriminate Q].
  - cbn [concat] in E. cbn [read_head]. destruct (split_cases _ _ _ _ E) as [(t & -> & Q)|(t & T & Eh & Q)].
    + rewrite (run_done_app f _ _ _ _ t P). exists t, (p :: coming). split; [reflexivity | exact Q].
    + rewrite (run_prefix f s0 held t x); [|rewrite <- Eh; exact P | exact T].
      assert (Lh : (length held < length H)%nat) by (rewrite Eh, app_length; destruct t; [contradiction T; reflexivity | cbn; lia]).
      destruct (Nat.leb_spec room (length held)); [lia|]. cbv zeta.
      destruct (Nat.leb_spec (length p) (room - length held)).
      * cbn [settle]. apply IH. rewrite <- app_assoc. exact E.
      * cbn [settle]. set (free := (room - length held)%nat) in *.
        assert (E' : (held ++ firstn free p) ++ (skipn free p ++ concat coming) = H ++ z)
          by (rewrite <- E, <- app_assoc; f_equal; rewrite app_assoc, firstn_skipn; reflexivity).
        destruct (split_cases _ _ _ _ E') as [(t' & Q1 & Q2)|(t' & T' & Q1 & _)].
        -- rewrite Q1, (run_done_app f _ _ _ _ t' P). exists t', (skipn free p :: coming). split; [reflexivity | exact Q2].
        -- exfalso. apply (f_equal (@length N)) in Q1. rewrite !app_length, firstn_length in Q1. destruct t'; [contradiction T'; reflexivity | cbn [length] in Q1; lia].
Qed.
(** Less than a head, and then nothing. *)
Lemma head_waits H x : parse H = PDone x [] -> (length H <= room)%nat -> forall coming held t, H = (held ++ concat coming) ++ t -> t <> [] ->
  settle (read_head parse room closed held coming) = if closed then Comes Eof else Hangs.
Proof.
  intros P L. induction coming as [|p coming IH]; intros held t E T.
  - cbn [concat read_head] in *. rewrite app_nil_r in E. rewrite (run_prefix f s0 held t x); [|rewrite <- E; exact P | exact T].
    assert (Lh : (length held < length H)%nat) by (rewrite E, app_length; destruct t; [contradiction T; reflexivity | cbn; lia]).
    destruct (Nat.leb_spec room (length held)); [lia|]. destruct closed; reflexivity.
  - cbn [concat read_head] in *.
    assert (Lh : (length (held ++ p) < length H)%nat) by (rewrite E, !app_length; destruct t; [contradiction T; reflexivity | cbn; lia]).
    rewrite (run_prefix f s0 held ((p ++ concat coming) ++ t) x); [|rewrite app_assoc, <- E; exact P |].
    2:{ intros N. apply app_eq_nil in N. destruct N as [_ N]. contradiction. }
    rewrite app_length in Lh. destruct (Nat.leb_spec room (length held)); [lia|]. cbv zeta.
    destruct (Nat.leb_spec (length p) (room - length held)); [|lia]. cbn [settle]. apply (IH _ t); [|exact T]. rewrite E, <- !app_assoc. reflexivity.
Qed.
(** Nothing that is a head within the limits. *)
Lemma head_garbled : forall coming held, (length held <= room)%nat ->
  (forall p z, held ++ concat coming = p ++ z -> (length p <= room)%nat -> forall x r, parse p <> PDone x r) ->
  (room <= length (held ++ concat coming))%nat \/ parse (held ++ concat coming) = PBad ->
  settle (read_head parse room closed held coming) = Comes Garbled.
Proof.
  induction coming as [|p coming IH]; intros held Lh No Enough; cbn [concat read_head] in *.
  - rewrite app_nil_r in *. destruct (parse held) as [| |x r] eqn:Q; [|reflexivity|].
    + destruct (Nat.leb_spec room (length held)); [reflexivity|]. destruct Enough; [lia | discriminate].
    + elim (No held [] ltac:(rewrite app_nil_r; reflexivity) Lh x r Q).
  - destruct (parse held) as [| |x r] eqn:Q; [|reflexivity|].
    2:{ elim (No held (p ++ concat coming) eq_refl Lh x r Q). }
    destruct (Nat.leb_spec room (length held)); [reflexivity|]. cbv zeta.
    destruct (Nat.leb_spec (length p) (room - length held)).
    + cbn [settle]. apply IH; [rewrite app_length; lia | |]; rewrite <- app_assoc; assumption.
    + cbn [settle]. set (free := (room - length held)%nat) in *.
      destruct (parse (held ++ firstn free p)) as [| |x r] eqn:Q'; [reflexivity|reflexivity|].
      exfalso. apply (No (held ++ firstn free p) (skipn free p ++ concat coming)) with (x := x) (r := r); [| |exact Q'].
      * rewrite <- app_assoc. f_equal. rewrite app_assoc, firstn_skipn. reflexivity.
      * rewrite app_length, firstn_length. lia.
Qed.
End Head.

(** ** Reading a body *)
Lemma length_comes b closed : forall coming held z, held ++ concat coming = b ++ z ->
  exists c, settle (read_length (length b) closed held coming) = Comes (b, c) /\ stream c = z /\ b_closed c = closed /\ b_left c = Some 0%nat.
Proof.
  induction coming as [|p coming IH]; intros held z E; cbn [concat read_length] in *.
  - rewrite app_nil_r in E. subst held. rewrite app_length. destruct (Nat.leb_spec (length b) (length b + length z)); [|lia].
    eexists. split; [cbn [settle]; rewrite firstn_app, Nat.sub_diag, firstn_all, firstn_O, app_nil_r; reflexivity|].
    unfold stream. cbn. rewrite skipn_app, Nat.sub_diag, skipn_all, app_nil_r. auto.
  - destruct (Nat.leb_spec (length b) (length held)) as [L|L].
    + destruct (split_cases _ _ _ _ E) as [(t & -> & Q)|(t & T & -> & Q)].
      * eexists. split; [cbn [settle]; rewrite firstn_app, Nat.sub_diag, firstn_all, firstn_O, app_nil_r; reflexivity|].
        unfold stream. cbn. rewrite skipn_app, Nat.sub_diag, skipn_all. auto.
      * rewrite app_length in L. destruct t; [contradiction T; reflexivity | cbn in L; lia].
    + cbv zeta. destruct (Nat.leb_spec (length p) (length b - length held)) as [M|M]; cbn [settle].
      * apply IH. rewrite <- app_assoc. exact E.
      * set (k := (length b - length held)%nat) in *.
        assert (E' : (held ++ firstn k p) ++ (skipn k p ++ concat coming) = b ++ z) by (rewrite <- E, <- app_assoc; f_equal; rewrite app_assoc, firstn_skipn; reflexivity).
        assert (X : b = held ++ firstn k p /\ z = skipn k p ++ concat coming).
        { assert (Lb : length (held ++ firstn k p) = length b) by (rewrite app_length, firstn_length; lia).
          destruct (split_cases _ _ _ _ E') as [(t & Q1 & Q2)|(t & T & Q1 & Q2)]; apply (f_equal (@length N)) in Q1 as Q3.
          - rewrite Lb, app_length in Q3. destruct t; [|cbn in Q3; lia]. rewrite app_nil_r in Q1. auto.
          - rewrite (app_length (_ ++ _)), Lb in Q3. destruct t; [contradiction T; reflexivity | cbn in Q3; lia]. }
        destruct X as [<- ->]. eexists. split; [reflexivity|]. unfold stream. cbn. auto.
Qed.
Lemma body_comes c b z : waiting c b z -> exists c', settle (read_body c) = Comes (b, c') /\ stream c' = z /\ b_closed c' = b_closed c /\ b_left c' = Some 0%nat.
Proof. intros [L E]. unfold read_body. rewrite L. apply length_comes. exact E. Qed.
(** A body that is cut off. *)
Lemma length_waits n closed : forall coming held, (length (held ++ concat coming) < n)%nat ->
  settle (read_length n closed held coming) = if closed then Breaks FromMiasht else Hangs.
Proof.
  induction coming as [|p coming IH]; intros held L; cbn [concat read_length] in *; rewrite ?app_nil_r, ?app_length in L.
  - destruct (Nat.leb_spec n (length held)); [lia|]. destruct closed; reflexivity.
  - destruct (Nat.leb_spec n (length held)); [lia|]. cbv zeta. destruct (Nat.leb_spec (length p) (n - length held)); [|lia]. cbn [settle]. apply IH. rewrite !app_length. lia.
Qed.

(** ** The length of a body *)
Lemma is_length_iff (h : rheader) : is_length h = true <-> names_length h.
Proof. apply ustr_eqb_eq. Qed.
Lemma no_lengths (l : list rheader) : (forall h, In h l -> ~ names_length h) -> filter is_length l = [].
Proof.
  induction l as [|h l IH]; intros N; [reflexivity|]. cbn [filter]. destruct (is_length h) eqn:E.
  - apply is_length_iff in E. elim (N h (or_introl eq_refl) E).
  - apply IH. intros h' I. apply N. right. exact I.
Qed.
Lemma told_length hs n : tells_length hs n -> body_length hs = Some (N.to_nat n).
Proof.
  intros (l1 & k & l2 & -> & K & No). unfold body_length.
  assert (E : filter is_length (l1 ++ (k, show_N n) :: l2) = [(k, show_N n)]).
  { pose proof (no_lengths l1 (fun h I => No h (in_or_app _ _ _ (or_introl I)))) as E1.
    pose proof (no_lengths l2 (fun h I => No h (in_or_app _ _ _ (or_intror I)))) as E2.
    pose proof (proj2 (is_length_iff (k, show_N n)) K) as E3.
    etransitivity; [apply (filter_app is_length l1)|]. cbn [filter]. rewrite E3. unfold header, rheader in *. rewrite E1, E2. reflexivity. }
  unfold header, rheader, bytes in *. rewrite E. destruct (show_N_digits n) as (_ & -> & _). reflexivity.
Qed.

(** ** Headers *)
Lemma token_facts c : token_char c = true -> c <> 13 /\ c <> 10 /\ c <> 58 /\ c <> 32.
Proof. unfold token_char, mem. cbn [existsb]. intros T. repeat split; intros ->; discriminate T. Qed.
Lemma value_facts c : value_byte c = true -> c <> 13 /\ c <> 10.
Proof. intros T. split; intros ->; discriminate T. Qed.
Lemma chop_same v : v <> [] -> blank (last v 0) = false -> chop v = v.
Proof.
  induction v as [|c v IH]; intros N B; [contradiction N; reflexivity|]. destruct v as [|d v].
  - cbn in B |- *. rewrite B. reflexivity.
  - cbn [chop]. change (last (c :: d :: v) 0) with (last (d :: v) 0) in B. cbn [chop] in IH. rewrite (IH ltac:(discriminate) B). reflexivity.
Qed.
Lemma safe_parts h : safe_header h = true -> fst h <> [] /\ forallb token_char (fst h) = true /\ forallb value_byte (snd h) = true /\
  match snd h with [] => True | c :: _ => blank c = false /\ blank (last (snd h) 0) = false end.
Proof.
  unfold safe_header. rewrite !andb_true_iff. intros [[[N T] V] E]. split; [destruct (fst h); [discriminate N | discriminate]|].
  split; [exact T|]. split; [exact V|]. unfold edge_blank in E. destruct (snd h) as [|c v]; [exact I|].
  apply negb_true_iff, orb_false_iff in E. exact E.
Qed.
Section Headers.
Variable trims : bool.
Variable most : nat.
Notation hstep := (hstep trims most).

Lemma finished_same h : safe_header h = true -> finished trims (snd h) = snd h.
Proof.
  intros Sf. destruct (safe_parts h Sf) as (_ & _ & _ & E). unfold finished. destruct trims; [|reflexivity].
  destruct (snd h) as [|c v]; [reflexivity|]. destruct E as [_ E]. apply chop_same; [discriminate | exact E].
Qed.
Lemma feed_name hs : forall n acc, forallb token_char n = true -> feed hstep (HName hs acc) n = Some (HName hs (acc ++ n)).
Proof.
  induction n as [|c n IH]; intros acc T; cbn [feed]; [rewrite app_nil_r; reflexivity|].
  cbn [forallb] in T. apply andb_true_iff in T. destruct T as [T Tn]. cbn [HttpBytes.hstep].
  destruct (token_facts c T) as (_ & _ & N58 & _). destruct (N.eqb_spec c 58); [contradiction|]. rewrite T, (IH _ Tn), <- app_assoc. reflexivity.
Qed.
Lemma feed_value hs n : forall v acc, forallb value_byte v = true -> feed hstep (HValue hs n acc) v = Some (HValue hs n (acc ++ v)).
Proof.
  induction v as [|c v IH]; intros acc T; cbn [feed]; [rewrite app_nil_r; reflexivity|].
  cbn [forallb] in T. apply andb_true_iff in T. destruct T as [T Tn]. cbn [HttpBytes.hstep]. unfold value_step.
  destruct (value_facts c T) as (N13 & N10). destruct (N.eqb_spec c 13); [contradiction|]. destruct (N.eqb_spec c 10); [contradiction|].
  rewrite T, (IH _ Tn), <- app_assoc. reflexivity.
Qed.
Definition line (h : header) : bytes := fst h ++ u ": " ++ snd h ++ crlf.
Lemma feed_line hs h : safe_header h = true -> (length hs < most)%nat -> feed hstep (HStart hs) (line h) = Some (HStart (hs ++ [h])).
Proof.
  intros Sf L. destruct (safe_parts h Sf) as (N & T & V & E). pose proof (finished_same h Sf) as Fi. destruct h as [n v]. unfold line. cbn [fst snd] in *.
  destruct n as [|c n]; [contradiction N; reflexivity|]. cbn [forallb] in T. apply andb_true_iff in T. destruct T as [Tc Tn].
  cbn [app feed HttpBytes.hstep]. destruct (token_facts c Tc) as (N13 & N10 & _ & _).
  destruct (N.eqb_spec c 13); [contradiction|]. destruct (N.eqb_spec c 10); [contradiction|]. rewrite Tc.
  destruct (Nat.leb_spec most (length hs)); [lia|]. cbn [andb negb].
  rewrite (feed_app hstep n _ _ _ (feed_name hs n [c] Tn)). cbn [app].
  change (u ": ") with [58; 32]. cbn [app feed HttpBytes.hstep N.eqb Pos.eqb]. change (blank 32) with true. cbv iota.
  destruct v as [|d v].
  - cbn [app feed crlf HttpBytes.hstep]. unfold value_step. cbn. rewrite Fi. reflexivity.
  - destruct E as [B _]. cbn [forallb] in V. apply andb_true_iff in V. destruct V as [Vd Vv].
    cbn [app feed HttpBytes.hstep]. rewrite B. unfold value_step at 1. destruct (value_facts d Vd) as (M13 & M10).
    destruct (N.eqb_spec d 13); [contradiction|]. destruct (N.eqb_spec d 10); [contradiction|]. rewrite Vd. cbn [app].
    rewrite (feed_app hstep v _ _ _ (feed_value hs (c :: n) v [d] Vv)). cbn [app crlf feed HttpBytes.hstep]. unfold value_step. cbn [N.eqb Pos.eqb]. cbv iota. rewrite Fi. reflexivity.
Qed.
Lemma feed_lines : forall l hs, forallb safe_header l = true -> (length hs + length l <= most)%nat ->
  feed hstep (HStart hs) (header_lines l) = Some (HStart (hs ++ l)).
Proof.
  induction l as [|h l IH]; intros hs Sf L; [rewrite app_nil_r; reflexivity|].
  cbn [forallb] in Sf. apply andb_true_iff in Sf. destruct Sf as [Sh Sl]. cbn [length] in L.
  change (header_lines (h :: l)) with (line h ++ header_lines l). rewrite (feed_app hstep _ _ _ _ (feed_line hs h Sh ltac:(lia))).
  rewrite (IH (hs ++ [h]) Sl); [rewrite <- app_assoc; reflexivity | rewrite app_length; cbn; lia].
Qed.
Lemma run_lines l : forallb safe_header l = true -> (length l <= most)%nat -> run hstep (HStart []) (header_lines l ++ crlf) = PDone l [].
Proof. intros Sf L. rewrite (feed_run hstep _ _ _ _ (feed_lines l [] Sf L)). reflexivity. Qed.
(** One header too many. *)
Lemma run_many l : forallb safe_header l = true -> (most < length l)%nat -> forall z, run hstep (HStart []) (header_lines l ++ z) = PBad.
Proof.
  intros Sf L z. rewrite <- (firstn_skipn most l) in *. set (a := firstn most l) in *. set (b := skipn most l) in *.
  rewrite app_length in L. rewrite forallb_app in Sf. apply andb_true_iff in Sf. destruct Sf as [Sa Sb].
  assert (La : length a = most) by (unfold a; rewrite firstn_length; unfold a, b in L; rewrite <- app_length, firstn_skipn in L; lia).
  unfold header_lines. rewrite flat_map_app, <- app_assoc. fold (header_lines a). fold (header_lines b).
  rewrite (feed_run hstep _ _ _ _ (feed_lines a [] Sa ltac:(cbn; lia))). cbn [app].
  destruct b as [|[n v] b]; [cbn in L; lia|]. cbn [forallb] in Sb. apply andb_true_iff in Sb. destruct Sb as [Sh _].
  destruct (safe_parts _ Sh) as (N & T & _). cbn [fst] in *. destruct n as [|c n]; [contradiction N; reflexivity|].
  cbn [forallb] in T. apply andb_true_iff in T. destruct T as [Tc _]. destruct (token_facts c Tc) as (N13 & N10 & _ & _).
  cbn [header_lines flat_map app fst run HttpBytes.hstep]. destruct (N.eqb_spec c 13); [contradiction|]. destruct (N.eqb_spec c 10); [contradiction|].
  rewrite Tc. assert (B : (most <=? @length rheader a)%nat = true) by (apply Nat.leb_le; change (@length rheader a) with (@length header a); lia).
  rewrite B. reflexivity.
Qed.
End Headers.

Lemma lines_long l : forallb safe_header l = true -> (length l <= length (header_lines l))%nat.
Proof.
  induction l as [|h l IH]; intros Sf; [apply le_n|]. cbn [forallb] in Sf. apply andb_true_iff in Sf. destruct Sf as [Sh Sl].
  change (header_lines (h :: l)) with (line h ++ header_lines l). rewrite app_length. cbn [length]. specialize (IH Sl).
  unfold line. rewrite app_length. destruct (safe_parts h Sh) as (N & _). destruct (fst h); [contradiction N; reflexivity | cbn; lia].
Qed.
Lemma byte_deliver_safe trims hs : forallb safe_header hs = true -> byte_deliver trims hs = Some hs.
Proof. intros Sf. unfold byte_deliver. rewrite (run_lines trims _ hs Sf (lines_long hs Sf)). reflexivity. Qed.
(** For C60's assumption and all like it: bytes deliver ordinary headers. *)
Definition byte_http (trims : bool) : httpenv := {| deliver := byte_deliver trims; deliver_safe := byte_deliver_safe trims |}.

(** ** Heads of requests and responses *)
Lemma method_of_text m : method_of (method_text m) = Some m.
Proof. destruct m; reflexivity. Qed.
Section Heads.
Variables (trims : bool) (uri_byte : N -> bool) (most : nat).
Notation qstep := (qstep trims uri_byte most).
Notation pstep := (pstep trims most).

Lemma feed_target m : forall t acc, (forall c, In c t -> uri_byte c = true /\ c <> 32) -> feed qstep (QTarget m acc) t = Some (QTarget m (acc ++ t)).
Proof.
  induction t as [|c t IH]; intros acc T; cbn [feed]; [rewrite app_nil_r; reflexivity|]. cbn [HttpBytes.qstep].
  destruct (T c (or_introl eq_refl)) as [C N]. destruct (N.eqb_spec c 32); [contradiction|]. rewrite C, IH; [rewrite <- app_assoc; reflexivity|].
  intros d D. apply T. right. exact D.
Qed.
Lemma feed_method m : feed qstep QStart (method_text m ++ u " ") = Some (QTarget m []).
Proof. destruct m; reflexivity. Qed.
Lemma feed_line1 m t : rb_target t <> [] -> (forall c, In c (rb_target t) -> uri_byte c = true /\ c <> 32) ->
  feed qstep QStart (method_text m ++ u " " ++ rb_target t ++ u " HTTP/1.1" ++ crlf) = Some (QHeaders m (rb_target t) (HStart [])).
Proof.
  intros N T. rewrite app_assoc, (feed_app qstep _ _ _ _ (feed_method m)), (feed_app qstep _ _ _ _ (feed_target m _ [] T)). cbn [app].
  destruct (rb_target t) as [|c l]; [contradiction N; reflexivity|]. reflexivity.
Qed.
Lemma run_headers m t : forall l s x r, run (hstep trims most) s l = PDone x r -> run qstep (QHeaders m t s) l = PDone (m, t, x) r.
Proof.
  induction l as [|c l IH]; intros s x r E; cbn [run] in *; [discriminate|]. cbn [HttpBytes.qstep].
  destruct (hstep trims most s c); [apply IH; exact E | injection E as -> ->; reflexivity | discriminate].
Qed.
Lemma run_headers_bad m t : forall l s, run (hstep trims most) s l = PBad -> run qstep (QHeaders m t s) l = PBad.
Proof.
  induction l as [|c l IH]; intros s E; cbn [run] in *; [discriminate|]. cbn [HttpBytes.qstep].
  destruct (hstep trims most s c); [apply IH; exact E | discriminate | reflexivity].
Qed.
Lemma request_head_split m r : request_head m r = (method_text m ++ u " " ++ rb_target r ++ u " HTTP/1.1" ++ crlf) ++ header_lines (rb_headers r) ++ crlf.
Proof. unfold request_head. rewrite <- !app_assoc. reflexivity. Qed.
Lemma run_request m r : rb_target r <> [] -> (forall c, In c (rb_target r) -> uri_byte c = true /\ c <> 32) -> forallb safe_header (rb_headers r) = true ->
  (length (rb_headers r) <= most)%nat -> run qstep QStart (request_head m r) = PDone (m, rb_target r, rb_headers r) [].
Proof. intros N T Sf L. rewrite request_head_split, (feed_run qstep _ _ _ _ (feed_line1 m r N T)). apply run_headers, run_lines; assumption. Qed.
Lemma run_request_many m r : rb_target r <> [] -> (forall c, In c (rb_target r) -> uri_byte c = true /\ c <> 32) -> forallb safe_header (rb_headers r) = true ->
  (most < length (rb_headers r))%nat -> run qstep QStart (request_head m r) = PBad.
Proof. intros N T Sf L. rewrite request_head_split, (feed_run qstep _ _ _ _ (feed_line1 m r N T)). apply run_headers_bad, run_many; assumption. Qed.

Lemma feed_reason n : forall t, forallb value_byte t = true -> feed pstep (PReason n) t = Some (PReason n).
Proof.
  induction t as [|c t IH]; intros T; [reflexivity|]. cbn [forallb] in T. apply andb_true_iff in T. destruct T as [C T]. cbn [feed HttpBytes.pstep]. rewrite C. apply IH, T.
Qed.
Lemma feed_code st : feed pstep (PVersion (u "HTTP/1.1 ")) (u "HTTP/1.1 " ++ show_N (code_of st) ++ u " ") = Some (PReason (code_of st)).
Proof. destruct st; vm_compute; reflexivity. Qed.
Lemma run_pheaders n : forall l s x r, run (hstep trims most) s l = PDone x r -> run pstep (PHeaders n s) l = PDone (n, x) r.
Proof.
  induction l as [|c l IH]; intros s x r E; cbn [run] in *; [discriminate|]. cbn [HttpBytes.pstep].
  destruct (hstep trims most s c); [apply IH; exact E | injection E as -> ->; reflexivity | discriminate].
Qed.
Lemma response_head_split reason h : response_head reason h =
  (u "HTTP/1.1 " ++ show_N (code_of (pb_status h)) ++ u " ") ++ reason (pb_status h) ++ crlf ++ header_lines (pb_headers h) ++ crlf.
Proof. unfold response_head. rewrite <- !app_assoc. reflexivity. Qed.
Lemma run_response reason h : forallb value_byte (reason (pb_status h)) = true -> forallb safe_header (pb_headers h) = true ->
  (length (pb_headers h) <= most)%nat -> run pstep (PVersion (u "HTTP/1.1 ")) (response_head reason h) = PDone (code_of (pb_status h), pb_headers h) [].
Proof.
  intros V Sf L. rewrite response_head_split, (feed_run pstep _ _ _ _ (feed_code (pb_status h))), (feed_run pstep _ _ _ _ (feed_reason _ _ V)).
  cbn [app crlf run HttpBytes.pstep]. change (value_byte 13) with false. cbv iota. unfold after_code. cbn [N.eqb Pos.eqb]. cbv iota.
  cbn [run HttpBytes.pstep N.eqb Pos.eqb]. cbv iota. apply run_pheaders, run_lines; assumption.
Qed.
End Heads.
