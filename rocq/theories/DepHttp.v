(** * What htrpc needs of the HTTP message layer (miasht 0.0, httparse; Cargo.toml:16).

    Dependency, not htrpc code.  htrpc hands over a list of headers with [add_raw_header]
    (src/serializers/http_header.rs:28) and gets headers back from [Headers::iter]
    (src/deserializers/http_header.rs:37-43).  What happens to headers that HTTP/1.1 cannot carry (line breaks in
    values, names that are no tokens, surrounding white space, too many of them) is left open: theorems hold for
    every [deliver].  The only assumption is that ordinary headers arrive unchanged and in order.
    Simplification: miasht's limits on the number and size of headers are not modelled. *)
From Verif Require Import Base Utf8 Serde SerHeader DeHeader.
Open Scope N_scope.

(** RFC 7230 token characters, as httparse accepts them. For headers given to src/serializers/http_header.rs:28. *)
Definition token_char (c : N) : bool :=
  ((48 <=? c) && (c <=? 57)) || ((65 <=? c) && (c <=? 90)) || ((97 <=? c) && (c <=? 122)) ||
  mem c [33; 35; 36; 37; 38; 39; 42; 43; 45; 46; 94; 95; 96; 124; 126].
(** Bytes allowed in a header value: TAB, printable ASCII, and everything above. For headers given to src/serializers/http_header.rs:28. *)
Definition value_byte (c : N) : bool := (c =? 9) || ((32 <=? c) && negb (c =? 127) && (c <? 256)).
(** For headers given to src/serializers/http_header.rs:28. *)
Definition blank (c : N) : bool := (c =? 32) || (c =? 9).
(** For headers given to src/serializers/http_header.rs:28. *)
Definition edge_blank (v : bytes) : bool :=
  match v with [] => false | c :: _ => blank c || blank (last v 0) end.

(** Headers that travel unchanged. For headers given to src/serializers/http_header.rs:28. *)
Definition safe_header (h : header) : bool :=
  negb (match fst h with [] => true | _ => false end) && forallb token_char (fst h) &&
  forallb value_byte (snd h) && negb (edge_blank (snd h)).

(** Between src/serializers/http_header.rs:28 and src/deserializers/http_header.rs:37-43. *)
Class httpenv := {
  deliver : list header -> option (list rheader);  (** [None]: the peer cannot parse the message *)
  deliver_safe : forall hs, forallb safe_header hs = true -> deliver hs = Some hs
}.

Lemma token_ascii s : forallb token_char s = true -> all_ascii s = true.
Proof.
  apply forallb_impl. intros c; cbv beta. unfold token_char, is_ascii. intros T.
  unfold mem in T. cbn [existsb] in T. lia.
Qed.
