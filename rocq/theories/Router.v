(** * Request routing.  Models src/router.rs. *)
From Verif Require Import Base Procedure.

(** Models miasht's [Method] (re-exported as [HttpMethod], src/types.rs:1-6), a dependency: the nine methods. *)
Inductive method := MOptions | MGet | MHead | MPost | MPut | MDelete | MTrace | MConnect | MPatch.
(** Equality of methods, for the map at src/router.rs:112. *)
Definition method_eq_dec (a b : method) : {a = b} + {a <> b}.
Proof. decide equality. Defined.
(** The same as a boolean, for the map at src/router.rs:112. *)
Definition method_eqb (a b : method) : bool := if method_eq_dec a b then true else false.

(** Equality of [Option<&'static str>] keys (std). For the map at src/router.rs:111. *)
Definition key_eqb (a b : option ustr) : bool :=
  match a, b with
  | None, None => true
  | Some x, Some y => ustr_eqb x y
  | _, _ => false
  end.

Section Router.
Context {H : Type}.

(** Models src/router.rs:110-120 [TrieNode].  The two [HashMap]s are association lists, looked up by first match. *)
Inductive trie := Node (children : list (option ustr * trie)) (leafs : list (method * H)).
(** The field at src/router.rs:111. *)
Definition children (t : trie) := let (c, _) := t in c.
(** The field at src/router.rs:112. *)
Definition leafs (t : trie) := let (_, l) := t in l.

(** Models src/router.rs:115-120,74-78,48-50: the empty node, trie and builder. *)
Definition trie_new : trie := Node [] [].

(** [HashMap::get] on [children]. src/router.rs:124-125. *)
Fixpoint get_key (k : option ustr) (l : list (option ustr * trie)) : option trie :=
  match l with
  | [] => None
  | (k', t) :: r => if key_eqb k k' then Some t else get_key k r
  end.
(** [HashMap::entry(k)] followed by writing the node back. src/router.rs:93. *)
Fixpoint set_key (k : option ustr) (t : trie) (l : list (option ustr * trie)) : list (option ustr * trie) :=
  match l with
  | [] => [(k, t)]
  | (k', t') :: r => if key_eqb k k' then (k', t) :: r else (k', t') :: set_key k t r
  end.
(** [HashMap::get] on [leafs]; models src/router.rs:127-129 [get_value]. *)
Fixpoint get_leaf (m : method) (l : list (method * H)) : option H :=
  match l with
  | [] => None
  | (m', h) :: r => if method_eqb m m' then Some h else get_leaf m r
  end.

(** Models src/router.rs:79-104 [Trie::insert].  The node it creates on the way stays even when the
    registration is refused, so the trie is returned in both cases. *)
Fixpoint trie_insert (t : trie) (m : method) (ep : entry_point) (h : H) : trie * res unit :=
  match ep with
  | [] =>
      match get_leaf m (leafs t) with
      | Some _ => (t, Err Invalid)
      | None => (Node (children t) ((m, h) :: leafs t), Ok tt)
      end
  | sg :: r =>
      let key := as_option sg in
      let child := match get_key key (children t) with Some c => c | None => trie_new end in
      let (c, e) := trie_insert child m r h in
      (Node (set_key key c (children t)) (leafs t), e)
  end.

(** Models src/router.rs:121-126 [get_child]. *)
Definition get_child (t : trie) (segment : ustr) : option trie :=
  match get_key (Some segment) (children t) with
  | Some c => Some c
  | None => get_key None (children t)
  end.

(** The two refusals of src/router.rs:36,40. *)
Inductive no_route := NotFound | MethodNotAllowed.

(** Models src/router.rs:31-40 [route], given the URL's path segments. *)
Fixpoint route_segs (t : trie) (m : method) (segs : list ustr) : H + no_route :=
  match segs with
  | [] => match get_leaf m (leafs t) with Some h => inl h | None => inr MethodNotAllowed end
  | s :: r =>
      match get_child t s with
      | Some c => route_segs c m r
      | None => inr NotFound
      end
  end.

(** Models src/router.rs:26-41 [Router::route]; a URL without path segments hits the [expect] at 32. *)
Definition route (t : trie) (m : method) (path : option (list ustr)) : res (H + no_route) :=
  match path with
  | None => Panic
  | Some segs => Ok (route_segs t m segs)
  end.

(** A sequence of [register_handler] calls (src/router.rs:56-67) on a new builder. *)
Definition registration := (method * entry_point * H)%type.
(** Models src/router.rs:56-67 [register_handler] on the list of what was registered. *)
Definition register (t : trie) (g : registration) : trie :=
  let '(m, ep, h) := g in fst (trie_insert t m ep h).
(** Models src/router.rs:48-67: a builder after these registrations; one that is refused changes nothing. *)
Definition build (gs : list registration) : trie := fold_left register gs trie_new.
End Router.
Arguments trie : clear implicits.
