(** * The text of a URL, character by character, and what a query text says. *)
From Verif Require Import Base DepUrl Utf8Spec.
Open Scope N_scope.

(** "%41" for the byte 65: two upper-case hexadecimal digits. *)
Definition hex (d h : N) : Prop := nth_error (u "0123456789ABCDEF") (N.to_nat d) = Some h.
Inductive escape : bytes -> ustr -> Prop :=
| EsEnd : escape [] []
| EsByte x y h l bs t : hex x h -> hex y l -> escape bs t -> escape (16 * x + y :: bs) (u "%" ++ [h; l] ++ t).

(** ** Path segments *)
(** Printable characters other than these stand for themselves; the caret depends on the url crate's release. *)
Definition stands_in_path `{urlenv} (c : N) : Prop :=
  33 <= c <= 126 /\ ~ In c (u """#%/<>?\`{}") /\ (enc_caret = true -> c <> 94).
(** Tabs and line ends vanish. *)
Definition vanishes (c : N) : Prop := c = 9 \/ c = 10 \/ c = 13.
Inductive segment `{urlenv} : ustr -> ustr -> Prop :=
| SgEnd : segment [] []
| SgGone c s t : vanishes c -> segment s t -> segment (c :: s) t
| SgKept c s t : stands_in_path c -> segment s t -> segment (c :: s) (c :: t)
| SgEscaped c bs e s t : ~ vanishes c -> ~ stands_in_path c -> utf8 c bs -> escape bs e -> segment s t -> segment (c :: s) (e ++ t).
(** Older releases drop controls and spaces at both ends. *)
Definition blank (c : N) : Prop := c <= 32.
Definition trimmed (s m : ustr) : Prop :=
  exists a b, s = a ++ m ++ b /\ Forall blank a /\ Forall blank b /\
    (forall c r, m = c :: r -> ~ blank c) /\ (forall r c, m = r ++ [c] -> ~ blank c).
Definition taken_in `{urlenv} (s m : ustr) : Prop := if trim_segment then trimmed s m else m = s.

(** A text becomes one more segment of a path; a lone dot or two dots do not. *)
Definition dots (s : ustr) : Prop := s = u "." \/ s = u "..".
Definition slash (path : ustr) : ustr := if ustr_eqb path (u "/") then [] else u "/".
Inductive pushed `{urlenv} (path : ustr) : ustr -> ustr -> Prop :=
| PuDots s : dots s -> pushed path s path
| PuAdd s m e : ~ dots s -> taken_in s m -> segment m e -> ~ dots e -> pushed path s (path ++ slash path ++ e)
(** Dots that appear only when tabs and blanks are gone: an empty segment, or the last segment cut off. *)
| PuDot s m : ~ dots s -> taken_in s m -> segment m (u ".") -> pushed path s (path ++ slash path)
| PuUp s m front last : ~ dots s -> taken_in s m -> segment m (u "..") -> path = front ++ u "/" ++ last -> ~ In 47 last -> pushed path s (front ++ u "/").
Inductive path_text `{urlenv} : ustr -> list ustr -> ustr -> Prop :=
| PtEnd path : path_text path [] path
| PtStep path s path' ss path'' : pushed path s path' -> path_text path' ss path'' -> path_text path (s :: ss) path''.

(** ** Queries *)
Definition stands_in_query (c : N) : Prop :=
  48 <= c <= 57 \/ 65 <= c <= 90 \/ 97 <= c <= 122 \/ In c (u "*-._").
Inductive form : ustr -> ustr -> Prop :=
| FmEnd : form [] []
| FmKept c s t : stands_in_query c -> form s t -> form (c :: s) (c :: t)
| FmSpace s t : form s t -> form (32 :: s) (u "+" ++ t)
| FmEscaped c bs e s t : ~ stands_in_query c -> c <> 32 -> utf8 c bs -> escape bs e -> form s t -> form (c :: s) (e ++ t).
Inductive query_text : list (ustr * ustr) -> ustr -> Prop :=
| QtNone : query_text [] []
| QtOne k v k' v' : form k k' -> form v v' -> query_text [(k, v)] (k' ++ u "=" ++ v')
| QtMore k v k' v' p l t : form k k' -> form v v' -> query_text (p :: l) t -> query_text ((k, v) :: p :: l) (k' ++ u "=" ++ v' ++ u "&" ++ t).

(** The whole request target. *)
Definition target `{urlenv} (segs : list ustr) (pairs : option (list (ustr * ustr))) (t : ustr) : Prop :=
  exists p, path_text (u "/") segs p /\
    match pairs with None => t = p | Some l => exists q, query_text l q /\ t = p ++ u "?" ++ q end.

(** ** What a query text says, whoever wrote it *)
(** Escapes with digits of either case; a percent sign not followed by two digits is itself. *)
Definition any_hex (d h : N) : Prop :=
  nth_error (u "0123456789ABCDEF") (N.to_nat d) = Some h \/ nth_error (u "0123456789abcdef") (N.to_nat d) = Some h.
Definition escaped_next (s : ustr) : Prop := exists x y h l r, any_hex x h /\ any_hex y l /\ s = h :: l :: r.
Inductive says_bytes : ustr -> bytes -> Prop :=
| SbEnd : says_bytes [] []
| SbPlus s b : says_bytes s b -> says_bytes (u "+" ++ s) (32 :: b)
| SbEscape x y h l s b : any_hex x h -> any_hex y l -> says_bytes s b -> says_bytes (u "%" ++ [h; l] ++ s) (16 * x + y :: b)
| SbPercent s b : ~ escaped_next s -> says_bytes s b -> says_bytes (u "%" ++ s) (37 :: b)
| SbChar c bs s b : c <> 37 -> c <> 43 -> utf8 c bs -> says_bytes s b -> says_bytes (c :: s) (bs ++ b).
Definition says (s t : ustr) : Prop := exists b, says_bytes s b /\ lossy b t.
(** Pieces between ampersands, empty ones skipped; key and value at the first equals sign, or a key alone. *)
Definition piece (p : ustr) (kv : ustr * ustr) : Prop :=
  (exists k v, p = k ++ u "=" ++ v /\ ~ In 61 k /\ says k (fst kv) /\ says v (snd kv)) \/
  (~ In 61 p /\ says p (fst kv) /\ snd kv = []).
Inductive query_says : ustr -> list (ustr * ustr) -> Prop :=
| QsEmpty : query_says [] []
| QsLast p kv : p <> [] -> ~ In 38 p -> piece p kv -> query_says p [kv]
| QsSkip s l : query_says s l -> query_says (u "&" ++ s) l
| QsMore p kv s l : p <> [] -> ~ In 38 p -> piece p kv -> query_says s l -> query_says (p ++ u "&" ++ s) (kv :: l).

(** ** What a request target says, whoever wrote it *)
(** Targets as request lines carry them: visible ASCII, beginning with one slash. *)
Definition visible (c : N) : Prop := 33 <= c <= 126.
Definition separates (c : N) : Prop := c = 47 \/ c = 92.
(** Characters are escaped that should have been; escapes are left alone. *)
Inductive tidied (odd : N -> Prop) : ustr -> ustr -> Prop :=
| TiEnd : tidied odd [] []
| TiKept c s t : ~ odd c -> tidied odd s t -> tidied odd (c :: s) (c :: t)
| TiEscaped c e s t : odd c -> escape [c] e -> tidied odd s t -> tidied odd (c :: s) (e ++ t).
Definition odd_in_path `{urlenv} (c : N) : Prop := In c (u """<>`{}") \/ (enc_caret = true /\ c = 94).
Definition odd_in_query (c : N) : Prop := In c (u """<>'").
(** The segments between separators. *)
Inductive segments : ustr -> list ustr -> Prop :=
| SsLast s : (forall c, In c s -> ~ separates c) -> segments s [s]
| SsMore s c r ss : (forall c, In c s -> ~ separates c) -> separates c -> segments r ss -> segments (s ++ [c] ++ r) (s :: ss).
(** One dot stays, two go up; a dot may be written as an escape. At the end they leave an empty segment. *)
Definition a_dot (s : ustr) : Prop := s = u "." \/ s = u "%2e" \/ s = u "%2E".
Definition stays_here (s : ustr) : Prop := a_dot s.
Definition goes_up (s : ustr) : Prop := exists a b, s = a ++ b /\ a_dot a /\ a_dot b.
Inductive resolved (so_far : list ustr) : list ustr -> list ustr -> Prop :=
| ReEnd : resolved so_far [] so_far
| RePlain s r x : ~ stays_here s -> ~ goes_up s -> resolved (so_far ++ [s]) r x -> resolved so_far (s :: r) x
| ReHere s s' r x : stays_here s -> resolved so_far (s' :: r) x -> resolved so_far (s :: s' :: r) x
| ReHereLast s : stays_here s -> resolved so_far [s] (so_far ++ [[]])
| ReUp s s' r x : goes_up s -> resolved (removelast so_far) (s' :: r) x -> resolved so_far (s :: s' :: r) x
| ReUpLast s : goes_up s -> resolved so_far [s] (removelast so_far ++ [[]]).
Inductive target_says `{urlenv} : ustr -> list ustr -> option ustr -> Prop :=
| TgPath path raw segs rest : (forall c, In c path -> c <> 63 /\ c <> 35) -> segments path raw ->
    (exists es, Forall2 (tidied odd_in_path) raw es /\ resolved [] es segs) ->
    rest = [] \/ (exists frag, rest = u "#" ++ frag) -> target_says (u "/" ++ path ++ rest) segs None
| TgQuery path raw segs q q' rest : (forall c, In c path -> c <> 63 /\ c <> 35) -> segments path raw ->
    (exists es, Forall2 (tidied odd_in_path) raw es /\ resolved [] es segs) ->
    ~ In 35 q -> tidied odd_in_query q q' ->
    rest = [] \/ (exists frag, rest = u "#" ++ frag) -> target_says (u "/" ++ path ++ u "?" ++ q ++ rest) segs (Some q').
