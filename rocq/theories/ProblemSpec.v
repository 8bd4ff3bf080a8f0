(** * What a problem document is supposed to be (RFC 7807, section 3), independently of serde's machinery. *)
From Verif Require Import Base Serde Json JsonDe Problem.
Open Scope N_scope.

(** The types of problem: RFC 7807, section 4.2, and the page that documents the other one. *)
Definition blank_type : ustr := u "about:blank".
Definition tracked_type : ustr := u "https://docs.rs/htrpc/0.0.2/htrpc/rfc7807/struct.TrackableProblem.html".

(** The members of the document of a problem, in order; optional ones only when present. *)
Definition member (n : ustr) (o : option json) : list (ustr * json) := match o with Some j => [(n, j)] | None => [] end.
Definition document (p : problem) : list (ustr * json) :=
  match p with
  | AboutBlank title s => [(u "type", JStr blank_type); (u "title", JStr title); (u "status", JInt (Z.of_N s))]
  | Trackable title s detail instance history =>
      [(u "type", JStr tracked_type); (u "title", JStr title); (u "status", JInt (Z.of_N s))] ++
      member (u "detail") (option_map JStr detail) ++ member (u "instance") (option_map JStr instance) ++
      member (u "history") (option_map (fun h => JArr (map JStr h)) history)
  end.

(** What the members of some document, in any order and among others, say. *)
Definition says {A} (l : list (ustr * json)) (n : ustr) (f : A -> json) (o : option A) : Prop :=
  match o with
  | Some x => assoc n l = Some (f x)
  | None => assoc n l = None \/ assoc n l = Some JNull
  end.
Definition describes (url_norm : ustr -> option ustr) (l : list (ustr * json)) (p : problem) : Prop :=
  assoc (u "status") l = Some (JInt (Z.of_N (problem_status p))) /\
  match p with
  | AboutBlank title s => assoc (u "type") l = Some (JStr blank_type) /\ assoc (u "title") l = Some (JStr title)
  | Trackable title s detail instance history =>
      assoc (u "type") l = Some (JStr tracked_type) /\ assoc (u "title") l = Some (JStr title) /\
      says l (u "detail") JStr detail /\ says l (u "history") (fun h => JArr (map JStr h)) history /\
      match instance with
      | None => assoc (u "instance") l = None \/ assoc (u "instance") l = Some JNull
      | Some n => exists s, assoc (u "instance") l = Some (JStr s) /\ url_norm s = Some n
      end
  end.

(** The values a [Problem] of the program can have: 16-bit statuses, Unicode strings, and URLs, which print as what
    they parse from. *)
Definition problem_ok (url_norm : ustr -> option ustr) (p : problem) : Prop :=
  problem_status p < 65536 /\
  match p with
  | AboutBlank title _ => str_ok title = true
  | Trackable title _ detail instance history =>
      str_ok title = true /\ (forall s, detail = Some s -> str_ok s = true) /\
      (forall s, instance = Some s -> str_ok s = true /\ url_norm s = Some s) /\
      (forall h, history = Some h -> Forall (fun s => str_ok s = true) h)
  end.
