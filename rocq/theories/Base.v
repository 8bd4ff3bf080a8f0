(** * Base: results, strings, bytes.

    Shared vocabulary of the model.  Nothing here is specific to htrpc except [ekind] and [res],
    which model src/error.rs:119-128 and the crate's [Result] (src/lib.rs:99-100). *)
From Coq Require Export List NArith ZArith Lia Bool.
From Coq Require Import Ascii String.
Export ListNotations.
Export (notations) Coq.Strings.String.
Require Export ZifyBool ZifyNat ZifyN.
Ltac Zify.zify_post_hook ::= Z.div_mod_to_equations.

Arguments N.add : simpl never.
Arguments N.sub : simpl never.
Arguments N.mul : simpl never.
Arguments N.div : simpl never.
Arguments N.modulo : simpl never.
Arguments N.ltb : simpl never.
Arguments N.leb : simpl never.
Arguments N.eqb : simpl nomatch.

(** Models src/error.rs:119-128 [ErrorKind]. *)
Inductive ekind := Invalid | Other.

(** Models the crate's [Result<T>] (src/lib.rs:99-100) with two extra outcomes:
    [Panic] is a Rust panic (unwrap/expect/assert!/unreachable!/track_try_unwrap!), and [Diverge] is
    "the model's fuel ran out", which theorems exclude.
    Simplification: of an [Error] (src/error.rs:14) only its kind is kept; message and history are not. *)
Inductive res (A : Type) :=
| Ok (a : A)
| Err (k : ekind)
| Panic
| Diverge.
Arguments Ok {A} a.
Arguments Err {A} k.
Arguments Panic {A}.
Arguments Diverge {A}.

(** The [?] operator (every [track!(..)?] in /repo/src). [track!(...)?], e.g. src/misc.rs:17-22. *)
Definition bind {A B} (r : res A) (f : A -> res B) : res B :=
  match r with
  | Ok a => f a
  | Err k => Err k
  | Panic => Panic
  | Diverge => Diverge
  end.

Notation "x <- e ;; f" := (bind e (fun x => f))
  (at level 61, e at next level, right associativity).
Notation "' p <- e ;; f" := (bind e (fun p => f))
  (at level 61, p pattern, e at next level, right associativity).

(** [Option::ok_or_else(|| ErrorKind::Invalid...)] and [map_err] of a parse failure to Invalid
    (e.g. src/deserializers/url_path.rs:39-45, src/error.rs:31-60). *)
Definition ok_or_invalid {A} (o : option A) : res A :=
  match o with Some a => Ok a | None => Err Invalid end.

(** [track_assert!(cond, ErrorKind::Invalid)] (e.g. src/serializers/url_path.rs:32): an error, not a panic. *)
Definition assert_invalid (b : bool) : res unit := if b then Ok tt else Err Invalid.

(** Whether a [Result] is [Ok]; not in the code. *)
Definition is_ok {A} (r : res A) : bool := match r with Ok _ => true | _ => false end.

(** [Result::map] (std), used at src/server.rs:185 and src/client.rs:111. *)
Definition res_map {A B} (f : A -> B) (r : res A) : res B :=
  match r with Ok a => Ok (f a) | Err k => Err k | Panic => Panic | Diverge => Diverge end.

(** ** Strings: lists of Unicode scalar values; bytes: numbers below 256.
    [str] and [String], e.g. src/serializers/url_path.rs:108, src/procedure.rs:107. *)
Definition ustr := list N.
(** Byte strings, e.g. src/procedure.rs:43,54-57. *)
Definition bytes := list N.

(** Literals: [u "abc"] is the Rust literal ["abc"]. *)
Local Open Scope list_scope.
(** Literals as at src/serializers/url_path.rs:71. *)
Definition u (s : string) : ustr := List.map N_of_ascii (list_ascii_of_string s).
Arguments u s%string.

(** Equality of slices (std), as at src/deserializers/url_path.rs:46,60. *)
Fixpoint list_eqb {A} (eqb : A -> A -> bool) (a b : list A) : bool :=
  match a, b with
  | [], [] => true
  | x :: a', y :: b' => eqb x y && list_eqb eqb a' b'
  | _, _ => false
  end.

(** Equality of strings (std), as at src/deserializers/url_path.rs:46,60. *)
Definition ustr_eqb : ustr -> ustr -> bool := list_eqb N.eqb.

Lemma list_eqb_spec {A} (eqb : A -> A -> bool) :
  (forall x y, eqb x y = true <-> x = y) ->
  forall a b, list_eqb eqb a b = true <-> a = b.
Proof.
  intros H. induction a as [|x a IH]; intros [|y b]; cbn [list_eqb]; split; intros E;
    try discriminate; try reflexivity.
  - apply andb_true_iff in E. destruct E as [E1 E2]. apply H in E1. apply IH in E2. congruence.
  - injection E as -> ->. apply andb_true_iff. split; [apply H | apply IH]; reflexivity.
Qed.

Lemma ustr_eqb_eq a b : ustr_eqb a b = true <-> a = b.
Proof. apply list_eqb_spec. intros; apply N.eqb_eq. Qed.

Lemma ustr_eqb_refl a : ustr_eqb a a = true.
Proof. apply ustr_eqb_eq; reflexivity. Qed.

Lemma ustr_eqb_neq a b : ustr_eqb a b = false <-> a <> b.
Proof.
  rewrite <- ustr_eqb_eq. destruct (ustr_eqb a b); split; congruence.
Qed.

Lemma ustr_eqb_spec a b : reflect (a = b) (ustr_eqb a b).
Proof.
  destruct (ustr_eqb a b) eqn:E; constructor.
  - apply ustr_eqb_eq, E.
  - apply ustr_eqb_neq, E.
Qed.

Lemma ustr_eqb_sym a b : ustr_eqb a b = ustr_eqb b a.
Proof. destruct (ustr_eqb_spec a b), (ustr_eqb_spec b a); congruence. Qed.

(** The same as a decision; for proofs. *)
Definition ustr_eq_dec (a b : ustr) : {a = b} + {a <> b} := list_eq_dec N.eq_dec a b.

(** Membership test for code points. For the character sets of the url crate (DepUrl.v), which src/serializers/url_path.rs:34 relies on. *)
Definition mem (c : N) (l : list N) : bool := existsb (N.eqb c) l.

(** For names among a list of names (serde's generated matches), see src/rfc7807.rs:19-24. *)
Definition smem (s : ustr) (l : list ustr) : bool := existsb (ustr_eqb s) l.

Lemma smem_In s l : smem s l = true <-> In s l.
Proof.
  unfold smem. rewrite existsb_exists. split.
  - intros (x & Hx & E). apply ustr_eqb_eq in E. subst. exact Hx.
  - intros H. exists s. split; [exact H | apply ustr_eqb_refl].
Qed.

Lemma mem_In c l : mem c l = true <-> In c l.
Proof.
  unfold mem. rewrite existsb_exists. split.
  - intros (x & Hx & E). apply N.eqb_eq in E. subst. exact Hx.
  - intros H. exists c. split; [exact H | apply N.eqb_refl].
Qed.

(** Rust [char] = Unicode scalar value. E.g. the argument of src/serializers/url_path.rs:105. *)
Definition is_scalar (c : N) : bool := (c <? 0xD800)%N || ((0xE000 <=? c)%N && (c <? 0x110000)%N).
(** For header names, src/deserializers/http_header.rs:50, and the url crate. *)
Definition is_ascii (c : N) : bool := (c <? 128)%N.
(** What the type [&str] guarantees, e.g. src/serializers/url_path.rs:108. *)
Definition str_ok (s : ustr) : bool := forallb is_scalar s.
(** What the type [u8] guarantees, e.g. src/deserializers/http_header.rs:47. *)
Definition bytes_ok (b : bytes) : bool := forallb (fun x => (x <? 256)%N) b.
(** For header names, src/deserializers/http_header.rs:50. *)
Definition all_ascii (s : ustr) : bool := forallb is_ascii s.

(** ASCII lower-casing.  Models [k.to_lowercase()] (src/deserializers/http_header.rs:50) on the ASCII
    header names an HTTP parser can deliver; simplification: non-ASCII letters are left alone. *)
Definition lower (c : N) : N := if (65 <=? c)%N && (c <=? 90)%N then (c + 32)%N else c.
(** See src/deserializers/http_header.rs:50. *)
Definition lowercase (s : ustr) : ustr := map lower s.

(** Maybe-drop of leading/trailing characters ([str::trim_matches]). Used by the url crate on what src/misc.rs:18-22 gives it. *)
Fixpoint drop_while (f : N -> bool) (s : ustr) : ustr :=
  match s with
  | [] => []
  | c :: r => if f c then drop_while f r else s
  end.
(** Used by the url crate on what src/misc.rs:18-22 and src/serializers/url_path.rs:34 give it. *)
Definition trim_matches (f : N -> bool) (s : ustr) : ustr := rev (drop_while f (rev (drop_while f s))).

(** [str::split(sep)]: always at least one piece.
    Used by [path_segments] (src/router.rs:32, src/deserializers/url_path.rs:24) and [query_pairs] (src/deserializers/rpc_request.rs:274). *)
Fixpoint split_on (sep : N -> bool) (s : ustr) : list ustr :=
  match s with
  | [] => [[]]
  | c :: r =>
      if sep c then [] :: split_on sep r
      else match split_on sep r with
           | p :: ps => (c :: p) :: ps
           | [] => [[c]]
           end
  end.

(** The text of a path with its segments, src/serializers/rpc_request.rs:58. *)
Fixpoint join (sep : ustr) (l : list ustr) : ustr :=
  match l with
  | [] => []
  | [x] => x
  | x :: r => x ++ sep ++ join sep r
  end.

Lemma split_on_nonempty sep s : split_on sep s <> [].
Proof.
  destruct s as [|c s]; cbn; [discriminate|].
  destruct (sep c); [discriminate|]. destruct (split_on sep s); discriminate.
Qed.

Lemma split_on_none sep s : forallb (fun c => negb (sep c)) s = true -> split_on sep s = [s].
Proof.
  induction s as [|c s IH]; cbn; [reflexivity|].
  intros H. apply andb_true_iff in H. destruct H as [H1 H2].
  destruct (sep c); [discriminate|]. rewrite (IH H2). reflexivity.
Qed.

Lemma split_on_app sep s c r :
  forallb (fun c => negb (sep c)) s = true -> sep c = true ->
  split_on sep (s ++ c :: r) = s :: split_on sep r.
Proof.
  intros H Hc. induction s as [|x s IH]; cbn.
  - rewrite Hc. reflexivity.
  - cbn in H. apply andb_true_iff in H. destruct H as [H1 H2].
    destruct (sep x); [discriminate|]. rewrite (IH H2). reflexivity.
Qed.

Lemma split_on_join sep c l :
  sep c = true -> l <> [] ->
  (forall s, In s l -> forallb (fun c => negb (sep c)) s = true) ->
  split_on sep (join [c] l) = l.
Proof.
  intros Hc. induction l as [|x l IH]; intros Hne H; [contradiction|].
  destruct l as [|y l].
  - cbn. apply split_on_none. apply H. left; reflexivity.
  - change (join [c] (x :: y :: l)) with (x ++ c :: join [c] (y :: l)).
    rewrite split_on_app; [| apply H; left; reflexivity | exact Hc].
    f_equal. apply IH; [discriminate|]. intros s Hs. apply H. right. exact Hs.
Qed.

Lemma split_on_pieces sep s :
  forall p, In p (split_on sep s) -> forallb (fun c => negb (sep c)) p = true.
Proof.
  induction s as [|c s IH]; cbn; intros p Hp.
  - destruct Hp as [<-|[]]. reflexivity.
  - destruct (sep c) eqn:E.
    + destruct Hp as [<-|Hp]; [reflexivity | apply IH, Hp].
    + destruct (split_on sep s) as [|q qs] eqn:Es.
      * destruct Hp as [<-|[]]. cbn. rewrite E. reflexivity.
      * destruct Hp as [<-|Hp].
        -- cbn. rewrite E. cbn. apply IH. left; reflexivity.
        -- apply IH. right; exact Hp.
Qed.

Lemma bind_ok {A B} (r : res A) (f : A -> res B) b :
  bind r f = Ok b -> exists a, r = Ok a /\ f a = Ok b.
Proof. destruct r; cbn; intros H; try discriminate. exists a. auto. Qed.

(** Destructures every [bind _ _ = Ok _] hypothesis. *)
Ltac inv_bind :=
  repeat match goal with
  | H : bind _ _ = Ok _ |- _ =>
      let a := fresh "a" in let H1 := fresh "Hb" in let H2 := fresh "Hb" in
      apply bind_ok in H; destruct H as (a & H1 & H2)
  end.

Lemma assert_invalid_ok b x : assert_invalid b = Ok x -> b = true.
Proof. destruct b; cbn; congruence. Qed.

Lemma forallb_app' {A} (f : A -> bool) a b : forallb f (a ++ b) = forallb f a && forallb f b.
Proof. apply forallb_app. Qed.

Lemma forallb_impl {A} (f g : A -> bool) l :
  (forall x, f x = true -> g x = true) -> forallb f l = true -> forallb g l = true.
Proof.
  intros H Hf. rewrite forallb_forall in *. intros x Hx. apply H, Hf, Hx.
Qed.

Lemma drop_while_none f s : forallb (fun c => negb (f c)) s = true -> drop_while f s = s.
Proof.
  destruct s as [|c s]; cbn; [reflexivity|]. intros H. apply andb_true_iff in H. destruct H as [H _].
  destruct (f c); [discriminate|reflexivity].
Qed.

Lemma forallb_rev {A} (f : A -> bool) l : forallb f (rev l) = forallb f l.
Proof.
  induction l as [|x l IH]; cbn; [reflexivity|].
  rewrite forallb_app, IH. cbn. rewrite andb_true_r. apply andb_comm.
Qed.

Lemma trim_matches_none f s : forallb (fun c => negb (f c)) s = true -> trim_matches f s = s.
Proof.
  intros H. unfold trim_matches. rewrite (drop_while_none f s H).
  rewrite drop_while_none; [apply rev_involutive|]. rewrite forallb_rev. exact H.
Qed.

(** Neither a panic nor out of fuel. What is wanted of every [Result] in src/. *)
Definition safe {A} (r : res A) : Prop := match r with Ok _ | Err _ => True | Panic | Diverge => False end.

Lemma safe_bind {A B} (r : res A) (f : A -> res B) : safe r -> (forall a, r = Ok a -> safe (f a)) -> safe (bind r f).
Proof. destruct r; cbn; intros S F; auto. Qed.
Lemma safe_ok_or {A} (o : option A) : safe (ok_or_invalid o).
Proof. destruct o; exact I. Qed.
Lemma safe_assert b : safe (assert_invalid b).
Proof. destruct b; exact I. Qed.
