(** * Model of the parts of the url crate (version 2, Cargo.toml:22) that htrpc uses.

    Dependency, not htrpc code.  htrpc calls: [Url::parse("http://localhost/")]
    (src/serializers/rpc_request.rs:30), [PathSegmentsMut::push] (src/serializers/url_path.rs:34,46),
    [query_pairs_mut]/[append_pair] (src/serializers/rpc_request.rs:228, src/serializers/url_query.rs:28),
    [&url\[BeforePath..\]] (src/serializers/rpc_request.rs:58,231), [Url::options().base_url(..).parse]
    (src/misc.rs:18-22), [path_segments] (src/router.rs:32, src/deserializers/url_path.rs:23-25) and
    [query_pairs] (src/deserializers/rpc_request.rs:272).

    Representation: a path is kept as its list of percent-encoded segments ("/a/b" is ["a";"b"] and "/" is
    [""]).  Scheme, host, port, credentials and fragment are not kept: htrpc never reads them. *)
From Verif Require Import Base Utf8.
Open Scope N_scope.

(** What the model leaves open about the url crate: details that changed between 2.x releases and the
    host / file-URL syntax.  Theorems are proved for every instance.
    Concerns [push] (src/serializers/url_path.rs:34,46) and [parse] (src/misc.rs:18-22). *)
Class urlenv := {
  enc_caret : bool;      (** newer 2.5 releases also percent-encode ['^'] in paths *)
  trim_segment : bool;   (** older releases trim C0 controls and spaces around a pushed segment *)
  slash_prefix : bool;   (** newer releases strip exactly ["//"] before an authority, older all slashes *)
  host_ok : bool -> ustr -> bool;  (** does this authority parse?  first argument: special scheme *)
  file_url : ustr -> option (list ustr * option ustr)  (** parse of what follows ["file:"] *)
}.

(** A parsed URL as htrpc sees it: [path_segments()] and [query()].
    src/router.rs:32, src/deserializers/url_path.rs:23-25, src/deserializers/rpc_request.rs:274. *)
Record url := mkUrl { u_path : option (list ustr); u_query : option ustr }.

(** ** Percent encoding (percent-encoding crate). For [push] at src/serializers/url_path.rs:34,46. *)
Definition hexdig (n : N) : N := if n <? 10 then 48 + n else 55 + n.
(** For [push] at src/serializers/url_path.rs:34,46. *)
Definition pct_byte (b : N) : ustr := [37; hexdig (b / 16); hexdig (b mod 16)].

(** url::parser PATH set: C0 controls, DEL, space, quote, '#', '<', '>', '?', '`', '{', '}' (and '^').
    For [push] at src/serializers/url_path.rs:34,46 and [parse] at src/misc.rs:18-22. *)
Definition path_set `{urlenv} (c : N) : bool :=
  (c <? 33) || (c =? 127) || mem c [34; 35; 60; 62; 63; 96; 123; 125] || (enc_caret && (c =? 94)).
(** url::parser SPECIAL_PATH_SEGMENT set: PATH plus '/', '%', '\'. For [push] at src/serializers/url_path.rs:34,46. *)
Definition segment_set `{urlenv} (c : N) : bool := path_set c || mem c [47; 37; 92].
(** url::parser QUERY set: C0 controls, DEL, space, quote, '#', '<', '>'; the SPECIAL_QUERY set of the special
    schemes has ''' as well. For [parse] at src/misc.rs:18-22. *)
Definition query_set (special : bool) (c : N) : bool :=
  (c <? 33) || (c =? 127) || mem c [34; 35; 60; 62] || (special && (c =? 39)).

(** For [push] at src/serializers/url_path.rs:34,46. *)
Definition pct_char (set : N -> bool) (c : N) : ustr :=
  if is_ascii c && negb (set c) then [c] else flat_map pct_byte (utf8_char c).
(** [utf8_percent_encode(s, set)]: non-ASCII always encoded. For [push] at src/serializers/url_path.rs:34,46. *)
Definition pct_encode (set : N -> bool) (s : ustr) : ustr := flat_map (pct_char set) s.

(** ** The client side: pushing path segments. For [push] at src/serializers/url_path.rs:34,46. *)
Definition tab_or_nl (c : N) : bool := mem c [9; 10; 13].
(** For [push] at src/serializers/url_path.rs:34,46. *)
Definition c0_or_space (c : N) : bool := c <? 33.
(** For [push] at src/serializers/url_path.rs:34,46. *)
Definition strip_tabs (s : ustr) : ustr := filter (fun c => negb (tab_or_nl c)) s.

(** For [push] at src/serializers/url_path.rs:34,46. *)
Definition dot : ustr := u ".".
(** For [push] at src/serializers/url_path.rs:34,46. *)
Definition dotdot : ustr := u "..".

(** The text that [push] really parses: [Input::new]/[new_no_trim] and [Input::next]. For [push] at src/serializers/url_path.rs:34,46. *)
Definition seg_input `{urlenv} (s : ustr) : ustr :=
  strip_tabs (if trim_segment then trim_matches c0_or_space s else s).

(** For [push] at src/serializers/url_path.rs:34,46. *)
Definition is_root (p : list ustr) : bool := match p with [[]] => true | _ => false end.

(** Adds one more segment after the existing ones; the root path "/" has no segment of its own yet.
    For [push] at src/serializers/url_path.rs:34,46. *)
Definition add_seg (p : list ustr) (s : ustr) : list ustr := if is_root p then [s] else p ++ [s].

(** [PathSegmentsMut::push] = url::path_segments::extend + Parser::parse_path in PathSegmentSetter context. src/serializers/url_path.rs:34,46. *)
Definition push `{urlenv} (p : list ustr) (s : ustr) : list ustr :=
  if ustr_eqb s dot || ustr_eqb s dotdot then p
  else
    let e := pct_encode segment_set (seg_input s) in
    if ustr_eqb e dotdot then (if is_root p then p else removelast p ++ [[]])
    else if ustr_eqb e dot then add_seg p []
    else add_seg p e.

(** ** application/x-www-form-urlencoded. For [append_pair] at src/serializers/url_query.rs:28. *)
Definition form_keep (c : N) : bool :=
  ((48 <=? c) && (c <=? 57)) || ((65 <=? c) && (c <=? 90)) || ((97 <=? c) && (c <=? 122)) ||
  mem c [42; 45; 46; 95].
(** For [append_pair] at src/serializers/url_query.rs:28. *)
Definition form_byte (b : N) : ustr :=
  if form_keep b then [b] else if b =? 32 then [43] else pct_byte b.
(** [form_urlencoded::byte_serialize]. For [append_pair] at src/serializers/url_query.rs:28. *)
Definition form_encode (s : ustr) : ustr := flat_map form_byte (utf8_encode s).

(** [Serializer::append_pair] on the query string built so far. src/serializers/url_query.rs:28. *)
Definition append_pair (q : ustr) (k v : ustr) : ustr :=
  (match q with [] => [] | _ => q ++ [38] end) ++ form_encode k ++ [61] ++ form_encode v.

(** For [query_pairs] at src/deserializers/rpc_request.rs:274. *)
Definition hexval (c : N) : option N :=
  if (48 <=? c) && (c <=? 57) then Some (c - 48)
  else if (65 <=? c) && (c <=? 70) then Some (c - 55)
  else if (97 <=? c) && (c <=? 102) then Some (c - 87)
  else None.

(** [percent_decode] (percent-encoding crate) on bytes: malformed escapes are left as they are.
    For [query_pairs] at src/deserializers/rpc_request.rs:274. *)
Fixpoint pct_decode (b : bytes) : bytes :=
  match b with
  | [] => []
  | c :: r =>
      if c =? 37 then
        match r with
        | h :: ((l :: r2) as r1) =>
            match hexval h, hexval l with
            | Some a, Some d => (a * 16 + d) :: pct_decode r2
            | _, _ => c :: pct_decode r
            end
        | _ => c :: pct_decode r
        end
      else c :: pct_decode r
  end.

(** [form_urlencoded::decode]: '+' becomes a space, escapes are decoded, then lossy UTF-8.
    For [query_pairs] at src/deserializers/rpc_request.rs:274. *)
Definition form_decode (s : ustr) : ustr :=
  utf8_lossy (pct_decode (map (fun c => if c =? 43 then 32 else c) (utf8_encode s))).

(** For [query_pairs] at src/deserializers/rpc_request.rs:274. *)
Fixpoint cut_at (sep : N) (s : ustr) : ustr * ustr :=
  match s with
  | [] => ([], [])
  | c :: r => if c =? sep then ([], r) else let (a, b) := cut_at sep r in (c :: a, b)
  end.

(** [form_urlencoded::Parse]: pieces between '&', empty ones skipped, cut at the first '='.
    For [query_pairs] at src/deserializers/rpc_request.rs:274. *)
Definition form_parse (q : ustr) : list (ustr * ustr) :=
  map (fun p => let (k, v) := cut_at 61 p in (form_decode k, form_decode v))
      (filter (fun p => match p with [] => false | _ => true end) (split_on (N.eqb 38) q)).

(** [Url::query_pairs]: an absent query reads as an empty one. src/deserializers/rpc_request.rs:274. *)
Definition query_pairs (x : url) : list (ustr * ustr) :=
  form_parse (match u_query x with Some q => q | None => [] end).

(** ** The URL text htrpc puts on the request line: [&url\[Position::BeforePath..\]]. src/serializers/rpc_request.rs:58,231. *)
Definition url_text (p : list ustr) (q : option ustr) : ustr :=
  [47] ++ join [47] p ++ match q with Some q => 63 :: q | None => [] end.

(** ** The server side: [Url::options().base_url("http://foo/").parse(target)]. For [parse] at src/misc.rs:18-22. *)
Definition is_slash (c : N) : bool := (c =? 47) || (c =? 92).
(** For [parse] at src/misc.rs:18-22. *)
Definition path_end (c : N) : bool := (c =? 63) || (c =? 35).

(** For [parse] at src/misc.rs:18-22. *)
Fixpoint break_at (f : N -> bool) (s : ustr) : ustr * ustr :=
  match s with
  | [] => ([], [])
  | c :: r => if f c then ([], s) else let (a, b) := break_at f r in (c :: a, b)
  end.

(** For [parse] at src/misc.rs:18-22. *)
Definition seg_dotdot (s : ustr) : bool :=
  smem (lowercase s) [dotdot; u "%2e%2e"; u ".%2e"; u "%2e."].
(** For [parse] at src/misc.rs:18-22. *)
Definition seg_dot (s : ustr) : bool := smem (lowercase s) [dot; u "%2e"].

(** Parser::parse_path in UrlParser context, on the text between separators. For [parse] at src/misc.rs:18-22. *)
Fixpoint path_loop `{urlenv} (acc : list ustr) (pieces : list ustr) : list ustr :=
  match pieces with
  | [] => acc
  | p :: rest =>
      let e := pct_encode path_set p in
      let last := match rest with [] => true | _ => false end in
      let acc' :=
        if seg_dotdot e then removelast acc ++ (if last then [[]] else [])
        else if seg_dot e then acc ++ (if last then [[]] else [])
        else acc ++ [e] in
      path_loop acc' rest
  end.

(** What follows the path: an optional query (up to '#'); the fragment is dropped. For [parse] at src/misc.rs:18-22. *)
Definition parse_query (special : bool) (s : ustr) : option ustr :=
  match s with
  | c :: r => if c =? 63 then Some (pct_encode (query_set special) (fst (break_at (N.eqb 35) r))) else None
  | [] => None
  end.

(** Path, query and fragment following an authority or a base ([special]: '\' is a separator too). For [parse] at src/misc.rs:18-22. *)
Definition parse_path_query `{urlenv} (special : bool) (s : ustr) : url :=
  let (p, rest) := break_at path_end s in
  mkUrl (Some (path_loop [] (split_on (fun c => (c =? 47) || (special && (c =? 92))) p))) (parse_query special rest).

(** Parser::after_double_slash: authority, then path. For [parse] at src/misc.rs:18-22. *)
Definition after_slashes `{urlenv} (special : bool) (s : ustr) : option url :=
  let (auth, rest) := break_at (fun c => (c =? 47) || path_end c || (special && (c =? 92))) s in
  if host_ok special auth then
    match rest with
    | c :: r =>
        if (c =? 47) || (special && (c =? 92)) then Some (parse_path_query special r)
        else Some (mkUrl (if special then Some [[]] else None) (parse_query special rest))
    | [] => Some (mkUrl (if special then Some [[]] else None) None)
    end
  else None.

(** For [parse] at src/misc.rs:18-22. *)
Definition alpha (c : N) : bool := ((65 <=? c) && (c <=? 90)) || ((97 <=? c) && (c <=? 122)).
(** For [parse] at src/misc.rs:18-22. *)
Definition scheme_char (c : N) : bool :=
  alpha c || ((48 <=? c) && (c <=? 57)) || mem c [43; 45; 46].

(** For [parse] at src/misc.rs:18-22. *)
Fixpoint scheme_rest (s : ustr) : option (ustr * ustr) :=
  match s with
  | [] => None
  | c :: r =>
      if c =? 58 then Some ([], r)
      else if scheme_char c then
        match scheme_rest r with Some (a, b) => Some (lower c :: a, b) | None => None end
      else None
  end.
(** Parser::parse_scheme. For [parse] at src/misc.rs:18-22. *)
Definition parse_scheme (s : ustr) : option (ustr * ustr) :=
  match s with
  | c :: r =>
      if alpha c then
        match scheme_rest r with Some (a, b) => Some (lower c :: a, b) | None => None end
      else None
  | [] => None
  end.

(** Parser::parse_relative against "http://foo/". For [parse] at src/misc.rs:18-22. *)
Definition parse_relative `{urlenv} (s : ustr) : option url :=
  match s with
  | [] => Some (mkUrl (Some [[]]) None)
  | c :: r =>
      if path_end c then Some (mkUrl (Some [[]]) (parse_query true s))
      else if is_slash c then
        match r with
        | d :: r2 =>
            if is_slash d then
              after_slashes true
                (if slash_prefix && (c =? 47) && (d =? 47) then r2 else drop_while is_slash r2)
            else Some (parse_path_query true r)
        | [] => Some (parse_path_query true r)
        end
      else Some (parse_path_query true s)
  end.

(** For [parse] at src/misc.rs:18-22. *)
Definition starts_slashes (s : ustr) : bool :=
  match s with c :: d :: _ => is_slash c && is_slash d | _ => false end.

(** Parser::parse_url with base "http://foo/": [None] is a [ParseError]. src/misc.rs:18-22. *)
Definition parse_url `{urlenv} (input : ustr) : option url :=
  let s := strip_tabs (trim_matches c0_or_space input) in
  match parse_scheme s with
  | None => parse_relative s
  | Some (sch, rest) =>
      if ustr_eqb sch (u "file") then
        match file_url rest with Some (p, q) => Some (mkUrl (Some p) q) | None => None end
      else if ustr_eqb sch (u "http") then
        if starts_slashes rest then after_slashes true (drop_while is_slash rest) else parse_relative rest
      else if smem sch [u "https"; u "ws"; u "wss"; u "ftp"] then
        after_slashes true (drop_while is_slash rest)
      else
        match rest with
        | c :: r =>
            if c =? 47 then
              match r with
              | d :: r2 =>
                  if d =? 47 then after_slashes false r2 else Some (parse_path_query false r)
              | [] => Some (parse_path_query false r)
              end
            else Some (mkUrl None (parse_query false (snd (break_at path_end rest))))
        | [] => Some (mkUrl None None)
        end
  end.
