(** * The url crate's model reads every target as TargetSpec.v says. *)
From Verif Require Import Base Utf8 DepUrl UrlProofs Utf8Spec Utf8Exact UrlSpec UrlExact TargetSpec.
From Verif Require Import Serde Status SerResponse DeRequest Client ClientSpec Server ServerSpec ServerProofs DepHttp HeaderProofs.
Open Scope N_scope.

(** ** Paths and queries *)
Definition cuts (known : bool) (c : N) : bool := (c =? 47) || (known && (c =? 92)).
Lemma cuts_parts known c : cuts known c = true <-> parts known c.
Proof. unfold cuts, parts. destruct known; cbn [andb]; intuition lia. Qed.
Lemma parts_dec known c : parts known c \/ ~ parts known c.
Proof. rewrite <- cuts_parts. destruct (cuts known c); auto. Qed.
Lemma cuts_not known c : ~ parts known c -> cuts known c = false.
Proof. rewrite <- cuts_parts. apply not_true_is_false. Qed.

Lemma pieces_exact known s ss : pieces known s ss -> split_on (cuts known) s = ss.
Proof.
  intros Q. induction Q as [s N|s c r ss N C Q IH].
  - apply split_on_none. apply forallb_forall. intros c I. rewrite (cuts_not _ _ (N c I)). reflexivity.
  - cbn [app]. induction s as [|d s IHs]; cbn [app split_on].
    + apply cuts_parts in C. rewrite C, IH. reflexivity.
    + rewrite (cuts_not _ _ (N d (or_introl eq_refl))), IHs by (intros x I; apply N; right; exact I). reflexivity.
Qed.
Lemma pieces_total known s : exists ss, pieces known s ss /\ (forall P : N -> Prop, Forall P s -> Forall (Forall P) ss).
Proof.
  induction s as [|c s (ss & S & Q)].
  - exists [[]]. split; [apply PcLast; intros c []|]. repeat constructor.
  - destruct (parts_dec known c) as [D|D].
    + exists ([] :: ss). split; [apply (PcMore known [] c s ss); [intros d [] | exact D | exact S]|].
      intros P F. inversion F; subst. constructor; [constructor | apply Q; assumption].
    + destruct S as [s A|a d r ss A B S].
      * exists [c :: s]. split; [apply PcLast; intros d [<-|I]; auto|]. intros P F. constructor; [exact F | constructor].
      * exists ((c :: a) :: ss). split; [apply (PcMore known (c :: a) d r ss); [intros e [<-|I]; auto | exact B | exact S]|].
        intros P F. inversion F as [|? ? Pc F']; subst. specialize (Q P F'). inversion Q; subst. constructor; [constructor; assumption | assumption].
Qed.
Lemma pieces_in known path raw : pieces known path raw -> forall r c, In r raw -> In c r -> In c path.
Proof.
  intros Q. induction Q as [s N|s d r ss N D Q IH]; intros x c Ix Ic.
  - destruct Ix as [<-|[]]. exact Ic.
  - destruct Ix as [<-|Ix]; [apply in_or_app; auto|]. apply in_or_app. right. right. exact (IH x c Ix Ic).
Qed.
Lemma odd_under_exact known c : visible c -> c <> 35 -> (odd_under known c <-> query_set known c = true).
Proof. unfold odd_under, query_set, visible. change (u """<>") with [34; 60; 62]. cbn [In]. mem_simp. destruct known; cbn [andb]; intuition lia. Qed.
Lemma odd_under_dec known c : odd_under known c \/ ~ odd_under known c.
Proof. unfold odd_under. destruct (in_dec_N c (u """<>")) as [A|A]; [auto|]. destruct known; [|right; intros [B|[B _]]; [auto | discriminate]]. destruct (N.eq_dec c 39) as [->|N]; [auto|]. right. intros [B|[_ B]]; auto. Qed.

Lemma no_hash q : ~ In 35 q -> forallb (fun x => negb (35 =? x)) q = true.
Proof. intros N. apply forallb_forall. intros c I. destruct (N.eqb_spec 35 c) as [<-|]; [contradiction | reflexivity]. Qed.
Lemma tidied_query known q q' : Forall visible q -> ~ In 35 q -> tidied (odd_under known) q q' -> q' = pct_encode (query_set known) q.
Proof.
  intros V N T. rewrite Forall_forall in V. apply (tidied_exact (odd_under known)); [|exact T]. intros c I. split; [apply V, I|]. apply odd_under_exact; [apply V, I|]. intros ->. contradiction.
Qed.
Lemma tail_exact known tail q : Forall visible tail -> tail_says known tail q -> parse_query known tail = q.
Proof.
  intros V Q. destruct Q as [|f|q q' N T|q q' f N T]; [reflexivity | reflexivity |..].
  - change (u "?" ++ q) with (63 :: q) in *. inversion V as [|? ? _ Vq]; subst. unfold parse_query. change (63 =? 63) with true. cbv iota. rewrite break_at_none by (apply no_hash, N). cbn [fst].
    rewrite (tidied_query known q q' Vq N T). reflexivity.
  - change (u "?" ++ q ++ u "#" ++ f) with (63 :: (q ++ 35 :: f)) in *. inversion V as [|? ? _ Vq]; subst. apply Forall_app in Vq. destruct Vq as [Vq _]. unfold parse_query. change (63 =? 63) with true. cbv iota.
    rewrite break_at_app by (try apply no_hash, N; reflexivity). cbn [fst]. rewrite (tidied_query known q q' Vq N T). reflexivity.
Qed.
Definition begins_tail (s : ustr) : Prop := s = [] \/ exists c r, s = c :: r /\ (c = 63 \/ c = 35).
Lemma tail_total known tail : Forall visible tail -> begins_tail tail -> exists q, tail_says known tail q.
Proof.
  intros V [->|(c & b & -> & [->| ->])]; [exists None; constructor | | exists None; apply (TaFragment known b)].
  inversion V as [|? ? _ Vq]; subst. destruct (first_of (N.eqb 35) b) as (q & r & -> & Aq & Br). apply Forall_app in Vq. destruct Vq as [Vq _].
  destruct (tidied_total (odd_under known) q (odd_under_dec known) Vq) as [q' T]. exists (Some q').
  assert (N : ~ In 35 q) by (intros I; rewrite forallb_forall in Aq; specialize (Aq _ I); discriminate Aq).
  destruct r as [|c r]; [rewrite app_nil_r; apply (TaQuery known q q' N T)|]. apply N.eqb_eq in Br. subst c. apply (TaBoth known q q' r N T).
Qed.
Lemma tail_begins known tail q : tail_says known tail q -> begins_tail tail.
Proof. intros Q. destruct Q as [|f|q q' N T|q q' f N T]; [left; reflexivity|..]; right; eexists _, _; (split; [reflexivity|]); auto. Qed.

Section Env.
Context `{urlenv}.
Lemma odd_path_any c : visible c -> c <> 63 /\ c <> 35 -> (odd_in_path c <-> path_set c = true).
Proof. unfold odd_in_path, path_set, visible. change (u """<>`{}") with [34; 60; 62; 96; 123; 125]. cbn [In]. mem_simp. destruct enc_caret; intuition lia. Qed.
Lemma path_exact known s segs q : Forall visible s -> path_says known s segs q -> parse_path_query known s = mkUrl (Some segs) q.
Proof.
  intros V Q. destruct Q as [path raw es segs tail q Np P T R Ta]. apply Forall_app in V. destruct V as [Vp Vt].
  unfold parse_path_query. rewrite rest_break; [|exact Np | destruct (tail_begins _ _ _ Ta) as [->|(c & r & -> & C)]; [auto|]; right; exists c, r; split; [reflexivity|]; unfold path_end; lia].
  rewrite (tail_exact known tail q Vt Ta). f_equal. f_equal. change (split_on (fun c => (c =? 47) || (known && (c =? 92))) path) with (split_on (cuts known) path).
  rewrite (pieces_exact known path raw P). apply (resolved_exact es segs raw []); [|exact R]. rewrite Forall_forall in Vp.
  pose proof (pieces_in known path raw P) as Q. clear P R. induction T as [|r e raw es T F IH]; constructor.
  - apply (tidied_exact odd_in_path); [|exact T]. intros c I. pose proof (Q r c (or_introl eq_refl) I) as Ic. split; [apply Vp, Ic|]. apply odd_path_any; auto.
  - apply IH. intros r' c Ir. apply Q. right. exact Ir.
Qed.
Lemma cut_tail s : exists path tail, s = path ++ tail /\ (forall c, In c path -> c <> 63 /\ c <> 35) /\ begins_tail tail.
Proof.
  destruct (first_of path_end s) as (path & b & -> & A & B). exists path, b. split; [reflexivity|]. split.
  - intros c I. rewrite forallb_forall in A. specialize (A c I). unfold path_end in A. lia.
  - destruct b as [|c b]; [left; reflexivity|]. right. exists c, b. split; [reflexivity|]. unfold path_end in B. lia.
Qed.
Lemma path_total known s : Forall visible s -> exists segs q, path_says known s segs q.
Proof.
  intros V. destruct (cut_tail s) as (path & tail & -> & Np & B). apply Forall_app in V. destruct V as [Vp Vt].
  destruct (tail_total known tail Vt B) as [q Q]. destruct (pieces_total known path) as (raw & P & Vr).
  destruct (tidied_visible odd_in_path raw odd_path_dec (Vr visible Vp)) as [es E]. destruct (resolved_total es []) as [segs R].
  exists segs, q. apply (PathSays known path raw es segs tail q Np P E R Q).
Qed.

(** ** Authorities *)
Definition meant (x : option url) : meaning :=
  match x with None => Refused | Some (mkUrl (Some p) q) => Rooted p q | Some (mkUrl None q) => Unrooted q end.
Definition stops (known : bool) (c : N) : bool := (c =? 47) || path_end c || (known && (c =? 92)).
Lemma stops_iff known c : stops known c = true <-> parts known c \/ c = 63 \/ c = 35.
Proof. unfold stops, parts, path_end. destruct known; cbn [andb]; intuition lia. Qed.
Lemma stops_not known who : (forall c, In c who -> ~ parts known c /\ c <> 63 /\ c <> 35) -> forallb (fun x => negb (stops known x)) who = true.
Proof. intros N. apply forallb_forall. intros c I. destruct (N c I) as (A & B & C). destruct (stops known c) eqn:E; [|reflexivity]. apply stops_iff in E. tauto. Qed.
Lemma host_exact known s m : Forall visible s -> host_says known s m -> meant (after_slashes known s) = m.
Proof.
  intros V Q. unfold after_slashes. change (fun c => (c =? 47) || path_end c || (known && (c =? 92))) with (stops known).
  destruct Q as [who r N R Hk|who c r segs q N Hk C P|who tail q N Hk T]; pose proof (stops_not known who N) as Q; apply Forall_app in V; destruct V as [Vw Vr].
  - destruct R as [->|(c & r' & -> & C)]; [rewrite app_nil_r, break_at_none by exact Q | rewrite break_at_app by (try exact Q; apply stops_iff, C)]; rewrite Hk; reflexivity.
  - cbn [app] in *. rewrite break_at_app by (try exact Q; apply stops_iff; auto). rewrite Hk. change ((c =? 47) || (known && (c =? 92))) with (cuts known c). apply cuts_parts in C. rewrite C.
    inversion Vr as [|? ? _ Vr']; subst. rewrite (path_exact known r segs q Vr' P). reflexivity.
  - pose proof (tail_exact known tail q Vr T) as E. destruct (tail_begins _ _ _ T) as [->|(c & r & -> & C)].
    + rewrite app_nil_r, break_at_none by exact Q. rewrite Hk. inversion T; subst. destruct known; reflexivity.
    + rewrite break_at_app by (try exact Q; apply stops_iff; auto). rewrite Hk. replace ((c =? 47) || (known && (c =? 92))) with false by (destruct C as [->| ->]; destruct known; reflexivity). rewrite E. destruct known; reflexivity.
Qed.
Lemma host_total known s : Forall visible s -> exists m, host_says known s m.
Proof.
  intros V. destruct (first_of (stops known) s) as (who & r & -> & A & B). apply Forall_app in V. destruct V as [Vw Vr].
  assert (N : forall c, In c who -> ~ parts known c /\ c <> 63 /\ c <> 35).
  { intros c I. rewrite forallb_forall in A. specialize (A c I). cbv beta in A. apply negb_true_iff in A. pose proof (proj2 (stops_iff known c)) as Q. rewrite A in Q. intuition discriminate. }
  destruct (host_ok known who) eqn:Hk.
  - destruct r as [|c r].
    + eexists. apply (HoBare known who [] None N Hk). constructor.
    + apply stops_iff in B. destruct B as [B|B].
      * inversion Vr as [|? ? _ Vr']; subst. destruct (path_total known r Vr') as (segs & q & P). eexists. apply (HoPath known who c r segs q N Hk B P).
      * destruct (tail_total known (c :: r) Vr) as [q Q]; [right; exists c, r; auto|]. eexists. apply (HoBare known who (c :: r) q N Hk Q).
  - exists Refused. apply HoRefused; [exact N | | exact Hk]. destruct r as [|c r]; [auto|]. right. exists c, r. split; [reflexivity|]. apply stops_iff, B.
Qed.

(** ** Targets without a scheme *)
Lemma is_slash_iff c : is_slash c = true <-> separates c.
Proof. unfold is_slash, separates. lia. Qed.
Lemma is_slash_not c : ~ separates c -> is_slash c = false.
Proof. unfold is_slash, separates. lia. Qed.
Lemma drop_slashes more r : Forall separates more -> match r with x :: _ => ~ separates x | [] => True end -> drop_while is_slash (more ++ r) = r.
Proof.
  intros F N. induction F as [|c more C F IH]; cbn [app].
  - destruct r as [|x r]; [reflexivity|]. cbn [drop_while]. rewrite (is_slash_not x N). reflexivity.
  - cbn [drop_while]. apply is_slash_iff in C. rewrite C. exact IH.
Qed.
Lemma slashes_of s : exists more r, s = more ++ r /\ Forall separates more /\ match r with x :: _ => ~ separates x | [] => True end.
Proof.
  induction s as [|c s (more & r & -> & F & N)]; [exists [], []; auto|]. destruct (is_slash c) eqn:E.
  - exists (c :: more), r. split; [reflexivity|]. split; [constructor; [apply is_slash_iff, E | exact F] | exact N].
  - exists [], (c :: more ++ r). split; [reflexivity|]. split; [constructor|]. rewrite <- is_slash_iff. congruence.
Qed.
Lemma relative_exact s m : Forall visible s -> relative_says s m -> meant (parse_relative s) = m.
Proof.
  intros V Q. destruct Q as [tail q T|c r segs q C N P|c r segs q C N1 N2 P|r m Sp Ho|c d more r m Sp C D F N Ho].
  - destruct (tail_begins _ _ _ T) as [->|(c & r & -> & C)]; [inversion T; reflexivity|]. unfold parse_relative. replace (path_end c) with true by (unfold path_end; lia). rewrite (tail_exact true _ _ V T). reflexivity.
  - unfold parse_relative. replace (path_end c) with false by (unfold path_end, separates in *; lia). rewrite (proj2 (is_slash_iff c) C). inversion V as [|? ? _ Vr]; subst. pose proof (path_exact true r segs q Vr P) as E.
    destruct r as [|d r]; [rewrite E; reflexivity|]. rewrite (is_slash_not d N), E. reflexivity.
  - unfold parse_relative. replace (path_end c) with false by (unfold path_end; lia). rewrite (is_slash_not c C). rewrite (path_exact true (c :: r) segs q V P). reflexivity.
  - change (u "//" ++ r) with (47 :: 47 :: r) in *. unfold parse_relative. change (path_end 47) with false. change (is_slash 47) with true. change (47 =? 47) with true. cbv iota. rewrite Sp. cbn [andb]. apply host_exact; [|exact Ho].
    inversion V as [|? ? _ V']; inversion V'; assumption.
  - cbn [app] in *. unfold parse_relative. replace (path_end c) with false by (unfold path_end, separates in *; lia). rewrite (proj2 (is_slash_iff c) C), (proj2 (is_slash_iff d) D).
    replace (slash_prefix && (c =? 47) && (d =? 47)) with false. 2:{ destruct Sp as [->|[->| ->]]; [reflexivity|..]; symmetry; [rewrite andb_false_iff; left|]; apply andb_false_r. }
    rewrite (drop_slashes more r F N). apply host_exact; [|exact Ho]. inversion V as [|? ? _ V']; inversion V' as [|? ? _ V2]. apply Forall_app in V2. apply V2.
Qed.
Lemma relative_total s : Forall visible s -> exists m, relative_says s m.
Proof.
  intros V. destruct s as [|c r]; [eexists; apply (ReTail [] None); constructor|]. inversion V as [|? ? _ Vr]; subst.
  destruct (path_end c) eqn:Pe.
  { destruct (tail_total true (c :: r) V) as [q Q]; [right; exists c, r; split; [reflexivity | unfold path_end in Pe; lia]|]. eexists. apply (ReTail _ q Q). }
  unfold path_end in Pe. destruct (is_slash c) eqn:C.
  - apply is_slash_iff in C. destruct r as [|d r].
    + destruct (path_total true [] Vr) as (segs & q & P). eexists. apply (ReRoot c [] segs q C I P).
    + destruct (is_slash d) eqn:D.
      * apply is_slash_iff in D. inversion Vr as [|? ? _ Vr']; subst. destruct (slash_prefix && (c =? 47) && (d =? 47)) eqn:Sp.
        -- rewrite !andb_true_iff, !N.eqb_eq in Sp. destruct Sp as [[Sp ->] ->]. destruct (host_total true r Vr') as [m Ho]. exists m. apply (ReHost r m Sp Ho).
        -- destruct (slashes_of r) as (more & r' & -> & F & N). apply Forall_app in Vr'. destruct (host_total true r' (proj2 Vr')) as [m Ho]. exists m. apply (ReHostLax c d more r' m); try assumption.
           unfold separates in C, D. rewrite !andb_false_iff in Sp. destruct Sp as [[Sp|Sp]|Sp]; [auto | right; left; lia | right; right; lia].
      * destruct (path_total true (d :: r) Vr) as (segs & q & P). eexists. apply (ReRoot c (d :: r) segs q C); [rewrite <- is_slash_iff; congruence | exact P].
  - destruct (path_total true (c :: r) V) as (segs & q & P). eexists. apply (RePath c r segs q); [rewrite <- is_slash_iff; congruence | lia | lia | exact P].
Qed.

(** ** Schemes *)
Lemma alpha_iff c : alpha c = true <-> is_letter c.
Proof. unfold alpha, is_letter. lia. Qed.
Lemma scheme_char_iff c : scheme_char c = true <-> is_letter c \/ is_figure c \/ In c (u "+-.").
Proof. unfold scheme_char. rewrite !orb_true_iff, alpha_iff. change (u "+-.") with [43; 45; 46]. unfold is_figure. cbn [In]. mem_simp. intuition lia. Qed.
Lemma scheme_rest_some s r : Forall (fun c => is_letter c \/ is_figure c \/ In c (u "+-.")) s -> scheme_rest (s ++ 58 :: r) = Some (lowercase s, r).
Proof.
  intros F. induction F as [|c s C F IH]; [reflexivity|]. cbn [app scheme_rest]. replace (c =? 58) with false.
  2:{ symmetry. apply N.eqb_neq. intros ->. unfold is_letter, is_figure in C. change (u "+-.") with [43; 45; 46] in C. cbn [In] in C. intuition lia. }
  apply scheme_char_iff in C. rewrite C, IH. reflexivity.
Qed.
Lemma scheme_rest_inv t a b : scheme_rest t = Some (a, b) -> exists s, t = s ++ 58 :: b /\ Forall (fun c => is_letter c \/ is_figure c \/ In c (u "+-.")) s /\ a = lowercase s.
Proof.
  revert a. induction t as [|c t IH]; intros a E; [discriminate|]. cbn [scheme_rest] in E. destruct (N.eqb_spec c 58) as [->|N].
  - injection E as <- <-. exists []. auto.
  - destruct (scheme_char c) eqn:C; [|discriminate]. destruct (scheme_rest t) as [[a' b']|] eqn:Et; [|discriminate]. injection E as <- <-. destruct (IH a' eq_refl) as (s & -> & F & ->).
    exists (c :: s). split; [reflexivity|]. split; [constructor; [apply scheme_char_iff, C | exact F] | reflexivity].
Qed.
Lemma scheme_some s r : scheme_text s -> parse_scheme (s ++ 58 :: r) = Some (lowercase s, r).
Proof. intros (c & s' & -> & C & F). cbn [app parse_scheme]. apply alpha_iff in C. rewrite C, (scheme_rest_some s' r F). reflexivity. Qed.
Lemma scheme_inv t a b : parse_scheme t = Some (a, b) -> exists s, t = s ++ 58 :: b /\ scheme_text s /\ a = lowercase s.
Proof.
  destruct t as [|c t]; [discriminate|]. cbn [parse_scheme]. destruct (alpha c) eqn:C; [|discriminate]. destruct (scheme_rest t) as [[a' b']|] eqn:E; [|discriminate]. intros [= <- <-].
  destruct (scheme_rest_inv t a' b' E) as (s & -> & F & ->). exists (c :: s). split; [reflexivity|]. split; [exists c, s; split; [reflexivity|]; split; [apply alpha_iff, C | exact F] | reflexivity].
Qed.
Lemma spells_iff s w : Forall (fun c => ~ 65 <= c <= 90) w -> (spells s w <-> lowercase s = w).
Proof.
  unfold spells, lowercase. intros F. split.
  - intros Q. induction Q as [|c d s w C Q IH]; [reflexivity|]. inversion F as [|? ? N F']; subst. cbn [map]. rewrite (IH F'). f_equal. unfold lower. destruct C as [->|[C ->]].
    + replace ((65 <=? d) && (d <=? 90)) with false by lia. reflexivity.
    + replace ((65 <=? c) && (c <=? 90)) with true by lia. reflexivity.
  - intros <-. clear F. induction s as [|c s IH]; constructor; [|exact IH]. unfold lower. destruct ((65 <=? c) && (c <=? 90)) eqn:E; [right; split; [lia | reflexivity] | left; reflexivity].
Qed.
Ltac small := repeat (constructor; [lia|]); constructor.
Lemma spells_file s : spells s (u "file") <-> lowercase s = u "file". Proof. apply spells_iff. cbn. small. Qed.
Lemma spells_http s : spells s (u "http") <-> lowercase s = u "http". Proof. apply spells_iff. cbn. small. Qed.
Lemma known_iff s : known_scheme s <-> smem (lowercase s) [u "https"; u "ws"; u "wss"; u "ftp"] = true.
Proof.
  rewrite smem_In. unfold known_scheme. assert (F : Forall (Forall (fun c => ~ 65 <= c <= 90)) [u "https"; u "ws"; u "wss"; u "ftp"]) by (repeat (constructor; [cbn; small|]); constructor).
  rewrite Forall_forall in F. split.
  - intros (w & I & Sw). apply spells_iff in Sw; [rewrite Sw; exact I | apply F, I].
  - intros I. exists (lowercase s). split; [exact I|]. apply spells_iff; [apply F, I | reflexivity].
Qed.
(** Words that are spelled so are schemes. *)
Lemma spelled_scheme s w : spells s w -> Forall (fun c => 97 <= c <= 122) w -> w <> [] -> scheme_text s.
Proof.
  intros Q F N. destruct Q as [|c d s w C Q]; [contradiction|]. inversion F as [|? ? D F']; subst. exists c, s. split; [reflexivity|]. split; [unfold is_letter; lia|].
  clear - Q F'. induction Q as [|c d s w C Q IH]; constructor; inversion F' as [|? ? D F'']; subst; [unfold is_letter; lia | apply IH, F''].
Qed.
Lemma file_scheme s : spells s (u "file") -> scheme_text s. Proof. intros Q. apply (spelled_scheme s _ Q); [cbn; small | discriminate]. Qed.
Lemma http_scheme s : spells s (u "http") -> scheme_text s. Proof. intros Q. apply (spelled_scheme s _ Q); [cbn; small | discriminate]. Qed.
Lemma known_scheme_text s : known_scheme s -> scheme_text s.
Proof. intros (w & I & Q). apply (spelled_scheme s w Q); repeat (destruct I as [<-|I]; [first [discriminate | cbn; small]|]); destruct I. Qed.

(** ** All targets *)
Lemma target_exact t m : Forall visible t -> target_means t m -> meant (parse_url t) = m.
Proof.
  intros V Q. unfold parse_url. rewrite (visible_parse t V).
  destruct Q as [t m N R|s r m W ->|s r m W N R|s c d more r m W C D F N R|s more r m W F N R|s r m T N1 N2 N3 R|s r segs q T N1 N2 N3 N R|s text tail q T N1 N2 N3 N Nt R].
  - destruct (parse_scheme t) as [[a b]|] eqn:E; [|apply relative_exact; assumption]. destruct (scheme_inv t a b E) as (s & -> & T & _). destruct (N s b eq_refl T).
  - change (u ":" ++ r) with (58 :: r) in *. rewrite (scheme_some s r (file_scheme s W)). apply spells_file in W. rewrite W. change (ustr_eqb (u "file") (u "file")) with true. cbv iota. destruct (file_url r) as [[p q]|]; reflexivity.
  - change (u ":" ++ r) with (58 :: r) in *. rewrite (scheme_some s r (http_scheme s W)). apply spells_http in W. rewrite W. change (ustr_eqb (u "http") (u "file")) with false. change (ustr_eqb (u "http") (u "http")) with true. cbv iota.
    apply Forall_app in V. destruct V as [_ V]. apply Forall_inv_tail in V. replace (starts_slashes r) with false; [apply relative_exact; assumption|].
    symmetry. apply not_true_is_false. unfold starts_slashes. destruct r as [|c [|d r]]; [discriminate | discriminate|]. rewrite andb_true_iff, !is_slash_iff. apply (N c d r eq_refl).
  - change (u ":" ++ [c; d] ++ more ++ r) with (58 :: c :: d :: more ++ r) in *. rewrite (scheme_some s _ (http_scheme s W)). apply spells_http in W. rewrite W. change (ustr_eqb (u "http") (u "file")) with false. change (ustr_eqb (u "http") (u "http")) with true. cbv iota.
    apply Forall_app in V. destruct V as [_ V]. do 3 apply Forall_inv_tail in V. apply Forall_app in V. destruct V as [_ V]. unfold starts_slashes. rewrite (proj2 (is_slash_iff c) C), (proj2 (is_slash_iff d) D). cbn [andb].
    change (c :: d :: more ++ r) with ((c :: d :: more) ++ r). rewrite drop_slashes; [apply host_exact; assumption | | exact N]. constructor; [exact C|]. constructor; [exact D | exact F].
  - change (u ":" ++ more ++ r) with (58 :: more ++ r) in *. rewrite (scheme_some s _ (known_scheme_text s W)). apply known_iff in W. rewrite W. apply smem_In in W.
    replace (ustr_eqb (lowercase s) (u "file")) with false by (repeat (destruct W as [<-|W]; [reflexivity|]); destruct W). replace (ustr_eqb (lowercase s) (u "http")) with false by (repeat (destruct W as [<-|W]; [reflexivity|]); destruct W).
    apply Forall_app in V. destruct V as [_ V]. apply Forall_inv_tail in V. apply Forall_app in V. destruct V as [_ V]. rewrite (drop_slashes more r F N). apply host_exact; assumption.
  - change (u "://" ++ r) with (58 :: 47 :: 47 :: r) in *. rewrite (scheme_some s _ T). rewrite spells_file in N1. rewrite spells_http in N2. rewrite known_iff in N3. apply ustr_eqb_neq in N1, N2. apply not_true_is_false in N3. rewrite N1, N2, N3.
    apply Forall_app in V. destruct V as [_ V]. do 3 apply Forall_inv_tail in V. change (47 =? 47) with true. cbv iota. apply host_exact; assumption.
  - change (u ":/" ++ r) with (58 :: 47 :: r) in *. rewrite (scheme_some s _ T). rewrite spells_file in N1. rewrite spells_http in N2. rewrite known_iff in N3. apply ustr_eqb_neq in N1, N2. apply not_true_is_false in N3. rewrite N1, N2, N3.
    apply Forall_app in V. destruct V as [_ V]. do 2 apply Forall_inv_tail in V. change (47 =? 47) with true. cbv iota. pose proof (path_exact false r segs q V R) as E. destruct r as [|d r]; [rewrite E; reflexivity|]. apply N.eqb_neq in N. rewrite N, E. reflexivity.
  - change (u ":" ++ text ++ tail) with (58 :: text ++ tail) in *. rewrite (scheme_some s _ T). rewrite spells_file in N1. rewrite spells_http in N2. rewrite known_iff in N3. apply ustr_eqb_neq in N1, N2. apply not_true_is_false in N3. rewrite N1, N2, N3.
    apply Forall_app in V. destruct V as [_ V]. apply Forall_inv_tail in V. apply Forall_app in V. destruct V as [_ V]. pose proof (tail_exact false tail q V R) as E.
    assert (B : break_at path_end (text ++ tail) = (text, tail)).
    { apply rest_break; [exact Nt|]. destruct (tail_begins _ _ _ R) as [->|(c & r & -> & C)]; [auto|]. right. exists c, r. split; [reflexivity|]. unfold path_end. lia. }
    destruct (text ++ tail) as [|c r] eqn:Et; [destruct text; [|discriminate]; cbn [app] in Et; subst tail; inversion R; reflexivity|].
    replace (c =? 47) with false.
    2:{ symmetry. apply N.eqb_neq. destruct text as [|d text]; [cbn [app] in Et; destruct (tail_begins _ _ _ R) as [->|(c' & r' & -> & C)]; [discriminate|]; injection Et as -> ->; lia|]. injection Et as -> _. exact N. }
    rewrite B. cbn [snd]. rewrite E. reflexivity.
Qed.
Lemma target_total t : Forall visible t -> exists m, target_means t m.
Proof.
  intros V. destruct (parse_scheme t) as [[a r]|] eqn:E.
  2:{ destruct (relative_total t V) as [m R]. exists m. apply TmRelative; [|exact R]. intros s r -> T. change (u ":" ++ r) with (58 :: r) in E. rewrite (scheme_some s r T) in E. discriminate. }
  destruct (scheme_inv t a r E) as (s & -> & T & ->). clear E. apply Forall_app in V. destruct V as [_ V]. apply Forall_inv_tail in V. change (58 :: r) with (u ":" ++ r).
  destruct (ustr_eqb_spec (lowercase s) (u "file")) as [W1|N1]; [eexists; apply (TmFile s r _ (proj2 (spells_file s) W1) eq_refl)|].
  destruct (ustr_eqb_spec (lowercase s) (u "http")) as [W2|N2].
  { apply spells_http in W2. destruct (starts_slashes r) eqn:Sl.
    - unfold starts_slashes in Sl. destruct r as [|c [|d r]]; [discriminate | discriminate|]. rewrite andb_true_iff, !is_slash_iff in Sl. destruct (slashes_of r) as (more & r' & -> & F & N). do 2 apply Forall_inv_tail in V. apply Forall_app in V.
      destruct (host_total true r' (proj2 V)) as [m Ho]. exists m. apply (TmHttpHost s c d more r' m); tauto.
    - destruct (relative_total r V) as [m R]. exists m. apply TmHttp; [exact W2 | | exact R]. intros c d r' ->. unfold starts_slashes in Sl. rewrite <- !is_slash_iff, <- andb_true_iff. congruence. }
  destruct (smem (lowercase s) [u "https"; u "ws"; u "wss"; u "ftp"]) eqn:W3.
  { apply known_iff in W3. destruct (slashes_of r) as (more & r' & -> & F & N). apply Forall_app in V. destruct (host_total true r' (proj2 V)) as [m Ho]. exists m. apply (TmKnown s more r' m); assumption. }
  assert (N3 : ~ known_scheme s) by (rewrite known_iff; congruence). rewrite <- spells_file in N1. rewrite <- spells_http in N2. clear W3.
  destruct r as [|c r]; [eexists; apply (TmOtherText s [] [] None T N1 N2 N3 I); [intros c [] | constructor]|].
  destruct (N.eqb_spec c 47) as [->|Nc].
  - apply Forall_inv_tail in V. destruct r as [|d r]; [destruct (path_total false [] V) as (segs & q & P); eexists; apply (TmOtherPath s [] segs q T N1 N2 N3 I P)|].
    destruct (N.eqb_spec d 47) as [->|Nd].
    + apply Forall_inv_tail in V. destruct (host_total false r V) as [m Ho]. exists m. apply (TmOtherHost s r m T N1 N2 N3 Ho).
    + destruct (path_total false (d :: r) V) as (segs & q & P). eexists. apply (TmOtherPath s (d :: r) segs q T N1 N2 N3 Nd P).
  - destruct (cut_tail (c :: r)) as (text & tail & Et & Nt & B). rewrite Et in *. apply Forall_app in V. destruct (tail_total false tail (proj2 V) B) as [q Q]. eexists. apply (TmOtherText s text tail q T N1 N2 N3); [|exact Nt | exact Q].
    destruct text as [|d text]; [exact I|]. injection Et as -> _. exact Nc.
Qed.
Theorem target_iff t m : Forall visible t -> (meant (parse_url t) = m <-> target_means t m).
Proof.
  intros V. split; [|apply target_exact, V]. intros E. destruct (target_total t V) as [m' Q]. pose proof (target_exact t m' V Q) as E'. congruence.
Qed.
Theorem target_read t : Forall visible t ->
  (target_means t Refused <-> parse_url t = None) /\
  (forall p q, target_means t (Rooted p q) <-> parse_url t = Some (mkUrl (Some p) q)) /\
  (forall q, target_means t (Unrooted q) <-> parse_url t = Some (mkUrl None q)).
Proof.
  intros V. repeat split; intros *; rewrite <- (target_iff t _ V); unfold meant; destruct (parse_url t) as [[[p'|] q']|]; congruence.
Qed.
Theorem target_once t : Forall visible t -> exists m, target_means t m /\ forall m', target_means t m' -> m' = m.
Proof. intros V. exists (meant (parse_url t)). split; [apply target_iff; auto|]. intros m' Q. symmetry. apply target_iff; assumption. Qed.
End Env.

(** ** The forms of RFC 7230 *)
Section Forms.
Context `{urlenv}.
Lemma visible_scheme s : scheme_text s -> Forall visible s.
Proof.
  intros (c & r & -> & C & F). constructor; [unfold is_letter in C; unfold visible; lia|]. apply (Forall_impl _) with (2 := F). intros d D. unfold is_letter, is_figure in D. change (u "+-.") with [43; 45; 46] in D. cbn [In] in D. unfold visible. intuition lia.
Qed.
Theorem authority_unrooted who port : authority_form who port -> ~ spells who (u "file") -> ~ spells who (u "http") -> ~ known_scheme who ->
  Forall visible (who ++ u ":" ++ port) /\ target_means (who ++ u ":" ++ port) (Unrooted None).
Proof.
  intros (T & N & F) K1 K2 K3. change (u ":" ++ port) with (58 :: port). assert (V : Forall visible port) by (apply (Forall_impl _) with (2 := F); unfold is_figure, visible; lia). split.
  { apply Forall_app. split; [apply visible_scheme, T|]. constructor; [unfold visible; lia | exact V]. }
  rewrite <- (app_nil_r port). apply (TmOtherText who port [] None); [exact T | exact K1 | exact K2 | exact K3 | | | constructor].
  - destruct port as [|c port]; [exact I|]. apply Forall_inv in F. unfold is_figure in F. lia.
  - rewrite Forall_forall in F. intros c I. specialize (F c I). unfold is_figure in F. lia.
Qed.
Theorem absolute_form s who r m : spells s (u "http") -> who <> [] -> (forall c, In c who -> visible c /\ ~ separates c /\ c <> 63 /\ c <> 35) -> host_ok true who = true -> Forall visible r ->
  match r with d :: _ => ~ separates d | [] => True end ->
  (target_means (s ++ u "://" ++ who ++ u "/" ++ r) m <-> target_means (u "/" ++ r) m).
Proof.
  intros W N Vw Ho Vr Nr. assert (V1 : Forall visible (u "/" ++ r)) by (change (u "/" ++ r) with (47 :: r); constructor; [unfold visible; lia | exact Vr]).
  assert (V2 : Forall visible (s ++ u "://" ++ who ++ u "/" ++ r)).
  { apply Forall_app. split; [apply visible_scheme, http_scheme, W|]. change (u "://" ++ who ++ u "/" ++ r) with (58 :: 47 :: 47 :: who ++ u "/" ++ r). do 3 (constructor; [unfold visible; lia|]). apply Forall_app. split; [apply Forall_forall; intros c I; apply Vw, I | exact V1]. }
  destruct (path_total true r Vr) as (segs & q & P).
  assert (Q1 : target_means (u "/" ++ r) (Rooted segs q)).
  { apply TmRelative; [|apply (ReRoot 47 r segs q); [left; reflexivity | exact Nr | exact P]]. intros s' r' E (c & s'' & -> & C & _). injection E as <- _. unfold is_letter in C. lia. }
  assert (Q2 : target_means (s ++ u "://" ++ who ++ u "/" ++ r) (Rooted segs q)).
  { apply (TmHttpHost s 47 47 [] (who ++ u "/" ++ r)); [exact W | left; reflexivity | left; reflexivity | constructor | destruct who as [|c who]; [contradiction|]; apply (Vw c (or_introl eq_refl))|].
    apply (HoPath true who 47 r segs q); [|exact Ho | left; reflexivity | exact P]. intros c I. destruct (Vw c I) as (_ & Ns & N1 & N2). split; [|auto]. unfold parts. unfold separates in Ns. tauto. }
  apply (target_exact _ _ V1) in Q1. apply (target_exact _ _ V2) in Q2. rewrite <- (target_iff _ _ V1), <- (target_iff _ _ V2), Q1, Q2. reflexivity.
Qed.
End Forms.

Section Server.
Context `{floatlib} `{urlenv} {Conn R : Type}.
Theorem dangerous_iff explain reason ln (ps : list (hproc Conn R)) r :
  names_ok (q_headers r) = true -> Forall visible (q_target r) -> (reply_to explain reason ln ps r = Crashes <-> dangerous (q_target r)).
Proof.
  intros N V. rewrite (reply_panics_iff explain reason ln ps r N). unfold dangerous. split.
  - intros ([p q] & E & Ep). cbn [u_path] in Ep. subst p. exists q. apply (proj2 (proj2 (target_read _ V))), E.
  - intros (q & Q). apply (proj2 (proj2 (target_read _ V))) in Q. eexists. split; [exact Q | reflexivity].
Qed.
Theorem refused_answered explain reason ln (ps : list (hproc Conn R)) r r' :
  Forall visible (q_target r) -> target_means (q_target r) Refused -> settle (l_drain ln r) = Comes r' ->
  exists h b, reply_to explain reason ln ps r = Sends (q_conn r') h b /\ code_of (pb_status h) = 400.
Proof.
  intros V T D. unfold reply_to. rewrite (proj1 (proj1 (target_read _ V)) T). unfold invalid_request, refusal. rewrite D. cbn [once].
  eexists. eexists. split; reflexivity.
Qed.
Theorem authority_panics explain reason ln (ps : list (hproc Conn R)) r who port :
  authority_form who port -> ~ spells who (u "file") -> ~ spells who (u "http") -> ~ known_scheme who ->
  names_ok (q_headers r) = true -> q_target r = who ++ u ":" ++ port -> reply_to explain reason ln ps r = Crashes.
Proof.
  intros A K1 K2 K3 N E. destruct (authority_unrooted who port A K1 K2 K3) as [V T]. rewrite <- E in V, T. apply dangerous_iff; [exact N | exact V|]. exists None. exact T.
Qed.
End Server.
