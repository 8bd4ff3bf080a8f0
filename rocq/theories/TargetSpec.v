(** * What request targets say, whatever their form

    RFC 7230, section 5.3, knows four forms of request targets: "/where?query" (origin form), "http://who/where"
    (absolute form), "who:port" (authority form, of CONNECT) and "*" (asterisk form).  htrpc reads all of them with
    the url crate against the base "http://foo/" (src/misc.rs:6-24).  This file says what any target made of visible
    ASCII characters means to it: its path, if it has one, and its query.  It refers to no function of the model. *)
From Verif Require Import Base DepUrl UrlSpec.
Open Scope N_scope.

(** ** Paths and queries *)
(** Backslashes separate too, but only under the schemes browsers know. *)
Definition parts (known : bool) (c : N) : Prop := c = 47 \/ (known = true /\ c = 92).
Inductive pieces (known : bool) : ustr -> list ustr -> Prop :=
| PcLast s : (forall c, In c s -> ~ parts known c) -> pieces known s [s]
| PcMore s c r ss : (forall c, In c s -> ~ parts known c) -> parts known c -> pieces known r ss -> pieces known (s ++ [c] ++ r) (s :: ss).
(** Apostrophes in queries are escaped under those schemes only. *)
Definition odd_under (known : bool) (c : N) : Prop := In c (u """<>") \/ (known = true /\ c = 39).
(** What follows a path: a query, a fragment, both or nothing. *)
Inductive tail_says (known : bool) : ustr -> option ustr -> Prop :=
| TaNothing : tail_says known [] None
| TaFragment f : tail_says known (u "#" ++ f) None
| TaQuery q q' : ~ In 35 q -> tidied (odd_under known) q q' -> tail_says known (u "?" ++ q) (Some q')
| TaBoth q q' f : ~ In 35 q -> tidied (odd_under known) q q' -> tail_says known (u "?" ++ q ++ u "#" ++ f) (Some q').
(** A text without the slash before it. *)
Inductive path_says `{urlenv} (known : bool) : ustr -> list ustr -> option ustr -> Prop :=
| PathSays path raw es segs tail q : (forall c, In c path -> c <> 63 /\ c <> 35) -> pieces known path raw ->
    Forall2 (tidied odd_in_path) raw es -> resolved [] es segs -> tail_says known tail q -> path_says known (path ++ tail) segs q.

(** ** Authorities *)
(** What a target turns out to be. *)
Inductive meaning :=
| Refused                                             (* not a URL *)
| Rooted (segs : list ustr) (q : option ustr)         (* has a path *)
| Unrooted (q : option ustr).                         (* a URL without a path that begins with a slash *)

(** A text after the slashes that announce an authority. *)
Inductive host_says `{urlenv} (known : bool) : ustr -> meaning -> Prop :=
| HoRefused who r : (forall c, In c who -> ~ parts known c /\ c <> 63 /\ c <> 35) -> r = [] \/ (exists c r', r = c :: r' /\ (parts known c \/ c = 63 \/ c = 35)) ->
    host_ok known who = false -> host_says known (who ++ r) Refused
| HoPath who c r segs q : (forall c, In c who -> ~ parts known c /\ c <> 63 /\ c <> 35) -> host_ok known who = true ->
    parts known c -> path_says known r segs q -> host_says known (who ++ [c] ++ r) (Rooted segs q)
| HoBare who tail q : (forall c, In c who -> ~ parts known c /\ c <> 63 /\ c <> 35) -> host_ok known who = true ->
    tail_says known tail q -> host_says known (who ++ tail) (if known then Rooted [[]] q else Unrooted q).

(** ** Targets without a scheme *)
Inductive relative_says `{urlenv} : ustr -> meaning -> Prop :=
| ReTail tail q : tail_says true tail q -> relative_says tail (Rooted [[]] q)
| ReRoot c r segs q : separates c -> match r with d :: _ => ~ separates d | [] => True end -> path_says true r segs q -> relative_says (c :: r) (Rooted segs q)
| RePath c r segs q : ~ separates c -> c <> 63 -> c <> 35 -> path_says true (c :: r) segs q -> relative_says (c :: r) (Rooted segs q)
| ReHost r m : slash_prefix = true -> host_says true r m -> relative_says (u "//" ++ r) m
| ReHostLax c d more r m : slash_prefix = false \/ c = 92 \/ d = 92 -> separates c -> separates d -> Forall separates more ->
    match r with x :: _ => ~ separates x | [] => True end -> host_says true r m -> relative_says ([c; d] ++ more ++ r) m.

(** ** Schemes *)
Definition is_letter (c : N) : Prop := 65 <= c <= 90 \/ 97 <= c <= 122.
Definition is_figure (c : N) : Prop := 48 <= c <= 57.
Definition scheme_text (s : ustr) : Prop :=
  exists c r, s = c :: r /\ is_letter c /\ Forall (fun c => is_letter c \/ is_figure c \/ In c (u "+-.")) r.
(** [s] is the word [w] in small or capital letters. *)
Definition spells (s w : ustr) : Prop := Forall2 (fun c d => c = d \/ (65 <= c <= 90 /\ d = c + 32)) s w.
Definition known_scheme (s : ustr) : Prop := exists w, In w [u "https"; u "ws"; u "wss"; u "ftp"] /\ spells s w.

Inductive target_means `{urlenv} : ustr -> meaning -> Prop :=
| TmRelative t m : (forall s r, t = s ++ u ":" ++ r -> ~ scheme_text s) -> relative_says t m -> target_means t m
| TmFile s r m : spells s (u "file") -> m = match file_url r with Some (p, q) => Rooted p q | None => Refused end -> target_means (s ++ u ":" ++ r) m
| TmHttp s r m : spells s (u "http") -> (forall c d r', r = c :: d :: r' -> ~ (separates c /\ separates d)) -> relative_says r m -> target_means (s ++ u ":" ++ r) m
| TmHttpHost s c d more r m : spells s (u "http") -> separates c -> separates d -> Forall separates more ->
    match r with x :: _ => ~ separates x | [] => True end -> host_says true r m -> target_means (s ++ u ":" ++ [c; d] ++ more ++ r) m
| TmKnown s more r m : known_scheme s -> Forall separates more -> match r with x :: _ => ~ separates x | [] => True end ->
    host_says true r m -> target_means (s ++ u ":" ++ more ++ r) m
| TmOtherHost s r m : scheme_text s -> ~ spells s (u "file") -> ~ spells s (u "http") -> ~ known_scheme s -> host_says false r m -> target_means (s ++ u "://" ++ r) m
| TmOtherPath s r segs q : scheme_text s -> ~ spells s (u "file") -> ~ spells s (u "http") -> ~ known_scheme s ->
    match r with d :: _ => d <> 47 | [] => True end -> path_says false r segs q -> target_means (s ++ u ":/" ++ r) (Rooted segs q)
| TmOtherText s text tail q : scheme_text s -> ~ spells s (u "file") -> ~ spells s (u "http") -> ~ known_scheme s ->
    match text with d :: _ => d <> 47 | [] => True end -> (forall c, In c text -> c <> 63 /\ c <> 35) -> tail_says false tail q ->
    target_means (s ++ u ":" ++ text ++ tail) (Unrooted q).

(** ** Targets that make the server's task panic *)
Definition dangerous `{urlenv} (t : ustr) : Prop := exists q, target_means t (Unrooted q).
(** "who:port": letters, figures, dots and dashes, then a port. *)
Definition authority_form (who port : ustr) : Prop := scheme_text who /\ port <> [] /\ Forall is_figure port.
