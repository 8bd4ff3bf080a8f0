(** * Which calls through a pool are run by servers: none twice, and those that are answered once (C92). *)
From Verif Require PoolSystemReport.
From Verif Require Import Base Utf8 Decimal DepUrl Serde Procedure FieldSpec Status SerHeader SerRequest SerResponse DeHeader DeRequest DeResponse Router RouterSpec DepHttp
  Error Client ClientSpec Server ServerSpec EndToEndSpec SessionSpec Pool PoolSystem PoolSystemSpec PoolAnswerSpec PoolAnswer HttpBytes HttpBytesSpec CutsSpec WholeSpec Whole PoolBytesSpec PoolBytes PoolBytesServed
  Invoke InvokeSpec InvokeProofs PoolOnceSpec PoolOnceProofs PoolOnceIndex.
Open Scope nat_scope.

Lemma prefix_of_runs {A B} (f : A -> list B) : (forall a, length (f a) <= 1) -> forall l p, prefix p (flat_map f l) -> exists j, p = flat_map f (firstn j l).
Proof.
  intros L. induction l as [|a l IH]; intros p [z E].
  - exists 0. cbn [flat_map] in E. symmetry in E. apply app_eq_nil in E. destruct E as [-> _]. reflexivity.
  - cbn [flat_map] in E. specialize (L a). destruct (f a) as [|x [|? ?]] eqn:Fa; [|destruct p as [|y p]|cbn in L; lia].
    + destruct (IH p (ex_intro _ z E)) as [j ->]. exists (S j). cbn [firstn flat_map]. rewrite Fa. reflexivity.
    + exists 0. reflexivity.
    + cbn [app] in E. injection E as <- E. destruct (IH p (ex_intro _ z E)) as [j ->]. exists (S j). cbn [firstn flat_map]. rewrite Fa. reflexivity.
Qed.
Lemma Forall2_firstn {A B} (P : A -> B -> Prop) n : forall l m, Forall2 P l m -> Forall2 P (firstn n l) (firstn n m).
Proof. induction n as [|n IH]; intros l m Q; [constructor|]. inversion Q; subst; cbn [firstn]; constructor; auto. Qed.
Lemma nth_firstn {A} : forall j (l : list A) n, n < j -> nth_error (firstn j l) n = nth_error l n.
Proof. induction j as [|j IH]; intros l n L; [lia|]. destruct l as [|x l], n as [|n]; try reflexivity. cbn [firstn nth_error]. apply IH. lia. Qed.
Lemma prefix_firstn {A} n (l : list A) : prefix (firstn n l) l.
Proof. exists (skipn n l). symmetry. apply firstn_skipn. Qed.
Lemma prefix_count (i : nat) p l : prefix p l -> count_occ Nat.eq_dec p i <= count_occ Nat.eq_dec l i.
Proof. intros [z ->]. rewrite count_occ_app. lia. Qed.
Lemma count_concat i cs rans tr : Forall2 (fun c ran => prefix ran (writers_on c tr)) cs rans ->
  count_occ Nat.eq_dec (concat rans) i <= list_sum (map (fun c => count_occ Nat.eq_dec (writers_on c tr) i) cs).
Proof.
  induction 1 as [|c ran cs rans P Q IH]; [apply Nat.le_0_l|]. cbn [concat map list_sum fold_right]. rewrite count_occ_app. pose proof (prefix_count i _ _ P). unfold list_sum in IH. lia.
Qed.
Lemma once_over cs rans tr : NoDup (writers tr) -> NoDup cs -> Forall2 (fun c ran => prefix ran (writers_on c tr)) cs rans -> NoDup (concat rans).
Proof.
  intros N Nc Q. apply (NoDup_count_occ Nat.eq_dec). intros i. pose proof (count_concat i cs rans tr Q). pose proof (count_writers i cs tr Nc). pose proof (proj1 (NoDup_count_occ Nat.eq_dec _) N i). lia.
Qed.

Section Once.
Context {F : floatlib} {U : urlenv} {R : Type}.
Variable explain : request bconn -> ekind -> ustr * option ustr * option (list ustr).
Variable explained : method -> ustr -> list rheader -> ekind -> ustr * option ustr * option (list ustr).
Variable reason : status -> ustr.
Variables (trims : bool) (uri_byte : N -> bool) (sl : limits).
Variable manners : hproc bconn R -> manner R.
Hypothesis Ex : forall q k, explain q k = explained (q_method q) (q_target q) (q_headers q) k.
Variables (tmax : Z) (checks : bool).
Notation ln := (byte_link trims uri_byte sl).
Notation invocations ps k c := (invoked (fst (irounds explain reason ln (build (registrations ps)) k (itask_new (Ready c))))).
Notation fits a := (fit_request uri_byte sl (a_method a) (a_request a) (a_body a)).

Theorem ran_once ls size d s tr (ps : conn -> list (hproc bconn R)) (near : conn -> bconn) (k : conn -> nat) cs :
  prun tmax checks ls (psys_new size d) = (s, tr) ->
  (forall c hp, In hp (ps c) -> behaves hp (manners hp) /\ exists mk, manners hp = Takes mk) ->
  (forall c, length (b_held (near c)) <= most_bytes sl) -> (forall c a, In a (asked_on s c tr) -> fits a) ->
  (forall c, prefix (stream (near c)) (flat_map asking_bytes (asked_on s c tr))) -> NoDup cs ->
  exists rans, NoDup (concat rans) /\ Forall2 (fun c ran => prefix ran (writers_on c tr) /\
    exists l, Forall2 (asks_as s) ran l /\ invocations (ps c) (k c) (near c) = flat_map (worth (ps c) manners) l) cs rans.
Proof.
  intros Er Hp Hl Hf Hs Nc. destruct (writes_once tmax checks ls size d s tr Er) as [Nw Fw].
  assert (E : forall cs, exists rans, Forall2 (fun c ran => prefix ran (writers_on c tr) /\
    exists l, Forall2 (asks_as s) ran l /\ invocations (ps c) (k c) (near c) = flat_map (worth (ps c) manners) l) cs rans).
  { clear cs Nc. induction cs as [|c cs [rans Q]]; [exists []; constructor|].
    destruct (all_runs_of_calls explained reason trims uri_byte sl (ps c) manners (fun hp I => proj2 (Hp c hp I)) (b_closed (near c)) (asked_on s c tr) (stream (near c))
      (proj2 (Forall_forall _ _) (Hf c)) (Hs c)) as (j & _ & Ej & _).
    destruct (runs_by_bytes explain explained reason trims uri_byte sl (ps c) manners Ex (fun hp I => proj1 (Hp c hp I)) (near c) (Hl c)) as [Pk _]. specialize (Pk (k c)). rewrite Ej in Pk.
    destruct (prefix_of_runs _ (worth_once (ps c) manners) _ _ Pk) as [m Em]. rewrite firstn_firstn in Em.
    exists (firstn (Nat.min m j) (writers_on c tr) :: rans). constructor; [|exact Q]. split; [apply prefix_firstn|]. exists (firstn (Nat.min m j) (asked_on s c tr)). split; [apply Forall2_firstn, Fw | exact Em]. }
  destruct (E cs) as [rans Q]. exists rans. split; [|exact Q]. apply (once_over cs rans tr Nw Nc). clear -Q. induction Q as [|c ran cs rans [P _] Q IH]; constructor; assumption.
Qed.

Theorem answered_once (cl : limits) (ps : saddr -> list (hproc bconn R)) (far near : conn -> bconn) ls size d s tr i pc v b :
  prun tmax checks ls (psys_new size d) = (s, tr) -> Forall honest_label ls -> told_apart checks s tr ->
  over_tcp explain reason trims uri_byte cl sl ps far near s (plog tmax checks ls (psys_new size d)) ->
  (forall a hp, In hp (ps a) -> behaves hp (manners hp) /\ exists mk, manners hp = Takes mk) ->
  (forall c, length (b_held (near c)) <= most_bytes sl) ->
  (forall c, prefix (stream (near c)) (flat_map asking_bytes (asked_on s c tr))) ->
  nth_error (s_calls s) i = Some pc -> c_state pc = Finished v b ->
  exists c ran l k0, In (EOpen c (c_addr pc)) tr /\ count_occ Nat.eq_dec ran i = 1 /\ prefix ran (writers_on c tr) /\ Forall2 (asks_as s) ran l /\
    forall k, k0 <= k -> invocations (ps (c_addr pc)) k (near c) = flat_map (worth (ps (c_addr pc)) manners) l.
Proof.
  intros Er Fh Ta O Hp Hl Hs En Es. assert (Et : concat (map snd (plog tmax checks ls (psys_new size d))) = tr) by (rewrite <- PoolSystemReport.prun_log, Er; reflexivity).
  destruct (writes_once tmax checks ls size d s tr Er) as [Nw Fw].
  destruct (@answered_place F U same_http bconn R explain reason ln ps near tmax checks ls size d s tr i pc v b Er Fh Ta (bytes_orderly explain reason trims uri_byte cl sl ps far near tmax checks ls size d s tr Er Fh O) En Es)
    as (c & n & h & b0 & Op & Pl & [k Nr]).
  assert (Hf : Forall (fun a => fits a) (asked_on s c tr)) by (apply Forall_forall; intros a I; apply (ot_asked _ _ _ _ _ _ _ _ _ _ _ O c); rewrite Et; exact I).
  destruct (all_runs_of_calls explained reason trims uri_byte sl (ps (c_addr pc)) manners (fun hp I => proj2 (Hp _ hp I)) (b_closed (near c)) (asked_on s c tr) (stream (near c)) Hf (Hs c)) as (j & _ & Ej & Lj & _).
  destruct (runs_by_bytes explain explained reason trims uri_byte sl (ps (c_addr pc)) manners Ex (fun hp I => proj1 (Hp _ hp I)) (near c) (Hl c)) as [_ [k0 K0]].
  destruct (server_whole explain explained reason trims uri_byte sl (ps (c_addr pc)) manners Ex (fun hp I => proj1 (Hp _ hp I)) (near c) (Hl c)) as [Wk _]. destruct (Wk k) as [[z Z] _].
  assert (Ln : n < j).
  { apply (Nat.lt_le_trans _ (length (fst (whole explained reason (run (qstep trims uri_byte (most_headers sl)) QStart) (most_bytes sl) (ps (c_addr pc)) manners (b_closed (near c)) (stream (near c)))))); [|exact Lj].
    rewrite Z, app_length. assert (n < length (replies_on explain reason ln ps near (c_addr pc) c k)) by (apply nth_error_Some; rewrite Nr; discriminate). unfold replies_on in *. lia. }
  exists c, (firstn j (writers_on c tr)), (firstn j (asked_on s c tr)), k0. split; [exact Op|]. split.
  - apply Nat.le_antisymm.
    + pose proof (prefix_count i _ _ (prefix_firstn j (writers_on c tr))). pose proof (count_writers i [c] tr ltac:(constructor; [intros []|constructor])) as Q. cbn [map list_sum fold_right] in Q.
      pose proof (proj1 (NoDup_count_occ Nat.eq_dec _) Nw i). lia.
    + apply (count_occ_In Nat.eq_dec). apply (nth_error_In _ n). rewrite nth_firstn by exact Ln. exact Pl.
  - split; [apply prefix_firstn|]. split; [apply Forall2_firstn, Fw|]. intros k1 L1. rewrite K0 by exact L1. exact Ej.
Qed.
End Once.
