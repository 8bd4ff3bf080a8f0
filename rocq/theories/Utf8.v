(** * UTF-8 (std), as used through [str::as_bytes], [str::from_utf8], [String::from_utf8_lossy].

    Dependency: Rust std.  Used by src/serializers/http_header.rs:28 ([as_bytes]),
    src/deserializers/http_header.rs:184,188,348 ([from_utf8]) and by the url crate's percent
    encoding and form_urlencoded decoding. *)
From Verif Require Import Base.
Open Scope N_scope.

(** [char::encode_utf8]. Used under src/serializers/http_header.rs:28 and src/serializers/url_path.rs:34. *)
Definition utf8_char (c : N) : bytes :=
  if c <? 0x80 then [c]
  else if c <? 0x800 then [0xC0 + c / 64; 0x80 + c mod 64]
  else if c <? 0x10000 then [0xE0 + c / 4096; 0x80 + (c / 64) mod 64; 0x80 + c mod 64]
  else [0xF0 + c / 262144; 0x80 + (c / 4096) mod 64; 0x80 + (c / 64) mod 64; 0x80 + c mod 64].

(** [str::as_bytes]. src/serializers/http_header.rs:28, src/rfc7807.rs:47. *)
Definition utf8_encode (s : ustr) : bytes := flat_map utf8_char s.

(** Continuation bytes, for [from_utf8] at src/deserializers/http_header.rs:184,188,348. *)
Definition cont (b : N) : bool := (0x80 <=? b) && (b <? 0xC0).

(** One step of the decoder: the next character, or [None] for an ill-formed maximal subpart, and
    the remaining bytes (Unicode table 3-7, as std implements it). For [from_utf8] at src/deserializers/http_header.rs:184,188,348. *)
Definition dec1 (b0 : N) (r : bytes) : option N * bytes :=
  if b0 <? 0x80 then (Some b0, r)
  else if (0xC2 <=? b0) && (b0 <? 0xE0) then
    match r with
    | b1 :: r1 => if cont b1 then (Some ((b0 - 0xC0) * 64 + (b1 - 0x80)), r1) else (None, r)
    | [] => (None, r)
    end
  else if (0xE0 <=? b0) && (b0 <? 0xF0) then
    let lo := if b0 =? 0xE0 then 0xA0 else 0x80 in
    let hi := if b0 =? 0xED then 0xA0 else 0xC0 in
    match r with
    | b1 :: r1 =>
        if (lo <=? b1) && (b1 <? hi) then
          match r1 with
          | b2 :: r2 =>
              if cont b2 then (Some ((b0 - 0xE0) * 4096 + (b1 - 0x80) * 64 + (b2 - 0x80)), r2)
              else (None, r1)
          | [] => (None, r1)
          end
        else (None, r)
    | [] => (None, r)
    end
  else if (0xF0 <=? b0) && (b0 <? 0xF5) then
    let lo := if b0 =? 0xF0 then 0x90 else 0x80 in
    let hi := if b0 =? 0xF4 then 0x90 else 0xC0 in
    match r with
    | b1 :: r1 =>
        if (lo <=? b1) && (b1 <? hi) then
          match r1 with
          | b2 :: r2 =>
              if cont b2 then
                match r2 with
                | b3 :: r3 =>
                    if cont b3 then
                      (Some ((b0 - 0xF0) * 262144 + (b1 - 0x80) * 4096 + (b2 - 0x80) * 64 + (b3 - 0x80)), r3)
                    else (None, r2)
                | [] => (None, r2)
                end
              else (None, r1)
          | [] => (None, r1)
          end
        else (None, r)
    | [] => (None, r)
    end
  else (None, r).

(** Fuelled decoding loops; fuel is the number of bytes, each step consumes at least one.
    For [from_utf8] at src/deserializers/http_header.rs:184,188,348. *)
Fixpoint utf8_decode_f (fuel : nat) (b : bytes) : option ustr :=
  match fuel with
  | O => match b with [] => Some [] | _ => None end
  | S f =>
      match b with
      | [] => Some []
      | b0 :: r =>
          match dec1 b0 r with
          | (Some c, r') => match utf8_decode_f f r' with Some s => Some (c :: s) | None => None end
          | (None, _) => None
          end
      end
  end.

(** [str::from_utf8]: strict. src/deserializers/http_header.rs:184,188,237,348. *)
Definition utf8_decode (b : bytes) : option ustr := utf8_decode_f (length b) b.

(** The loop of [String::from_utf8_lossy], used by [query_pairs] (src/deserializers/rpc_request.rs:274). *)
Fixpoint utf8_lossy_f (fuel : nat) (b : bytes) : ustr :=
  match fuel with
  | O => []
  | S f =>
      match b with
      | [] => []
      | b0 :: r =>
          match dec1 b0 r with
          | (Some c, r') => c :: utf8_lossy_f f r'
          | (None, r') => 0xFFFD :: utf8_lossy_f f r'
          end
      end
  end.

(** [String::from_utf8_lossy]. Used by [query_pairs] (src/deserializers/rpc_request.rs:274). *)
Definition utf8_lossy (b : bytes) : ustr := utf8_lossy_f (length b) b.

(** ** Facts *)
Lemma utf8_char_head c r :
  is_scalar c = true ->
  exists b0 r0, utf8_char c ++ r = b0 :: r0 /\ dec1 b0 r0 = (Some c, r).
Proof.
  unfold is_scalar, utf8_char, dec1. intros H.
  destruct (c <? 0x80) eqn:E1; [|destruct (c <? 0x800) eqn:E2; [|destruct (c <? 0x10000) eqn:E3]].
  - exists c, r. split; [reflexivity|]. rewrite E1. reflexivity.
  - eexists _, _. split; [reflexivity|].
    replace (0xC0 + c / 64 <? 0x80) with false by lia.
    replace ((0xC2 <=? 0xC0 + c / 64) && (0xC0 + c / 64 <? 0xE0)) with true by lia.
    unfold cont.
    replace ((0x80 <=? 0x80 + c mod 64) && (0x80 + c mod 64 <? 0xC0)) with true by lia.
    do 2 f_equal. lia.
  - eexists _, _. split; [reflexivity|].
    replace (0xE0 + c / 4096 <? 0x80) with false by lia.
    replace ((0xC2 <=? 0xE0 + c / 4096) && (0xE0 + c / 4096 <? 0xE0)) with false by lia.
    replace ((0xE0 <=? 0xE0 + c / 4096) && (0xE0 + c / 4096 <? 0xF0)) with true by lia.
    cbv zeta. cbn [app].
    destruct (0xE0 + c / 4096 =? 0xE0) eqn:Ea; destruct (0xE0 + c / 4096 =? 0xED) eqn:Eb;
      match goal with |- (if ?x then _ else _) = _ => replace x with true by lia end;
      unfold cont;
      match goal with |- (if ?x then _ else _) = _ => replace x with true by lia end;
      do 2 f_equal; lia.
  - eexists _, _. split; [reflexivity|].
    replace (0xF0 + c / 262144 <? 0x80) with false by lia.
    replace ((0xC2 <=? 0xF0 + c / 262144) && (0xF0 + c / 262144 <? 0xE0)) with false by lia.
    replace ((0xE0 <=? 0xF0 + c / 262144) && (0xF0 + c / 262144 <? 0xF0)) with false by lia.
    replace ((0xF0 <=? 0xF0 + c / 262144) && (0xF0 + c / 262144 <? 0xF5)) with true by lia.
    cbv zeta. cbn [app].
    destruct (0xF0 + c / 262144 =? 0xF0) eqn:Ea; destruct (0xF0 + c / 262144 =? 0xF4) eqn:Eb;
      match goal with |- (if ?x then _ else _) = _ => replace x with true by lia end;
      unfold cont;
      match goal with |- (if ?x then _ else _) = _ => replace x with true by lia end;
      match goal with |- (if ?x then _ else _) = _ => replace x with true by lia end;
      do 2 f_equal; lia.
Qed.

Lemma utf8_char_len c : (1 <= length (utf8_char c))%nat.
Proof. unfold utf8_char. repeat destruct (_ <? _); cbn; lia. Qed.

Lemma utf8_decode_f_encode s : forall fuel,
  str_ok s = true -> (length s <= fuel)%nat -> utf8_decode_f fuel (utf8_encode s) = Some s.
Proof.
  induction s as [|c s IH]; intros fuel Hs Hf.
  - destruct fuel; reflexivity.
  - cbn [str_ok forallb] in Hs. apply andb_true_iff in Hs. destruct Hs as [Hc Hs].
    destruct fuel as [|fuel]; [cbn in Hf; lia|].
    cbn [utf8_encode flat_map].
    destruct (utf8_char_head c (flat_map utf8_char s) Hc) as (b0 & r0 & E & D).
    rewrite E. cbn [utf8_decode_f]. rewrite D.
    change (flat_map utf8_char s) with (utf8_encode s). rewrite IH; [reflexivity | exact Hs | cbn in Hf; lia].
Qed.

Lemma utf8_encode_len s : (length s <= length (utf8_encode s))%nat.
Proof.
  induction s as [|c s IH]; cbn; [lia|]. rewrite app_length.
  pose proof (utf8_char_len c). unfold utf8_encode in IH. lia.
Qed.

Theorem utf8_decode_encode s : str_ok s = true -> utf8_decode (utf8_encode s) = Some s.
Proof. intros H. apply utf8_decode_f_encode; [exact H | apply utf8_encode_len]. Qed.

Lemma utf8_lossy_f_encode s : forall fuel,
  str_ok s = true -> (length s <= fuel)%nat -> utf8_lossy_f fuel (utf8_encode s) = s.
Proof.
  induction s as [|c s IH]; intros fuel Hs Hf.
  - destruct fuel; reflexivity.
  - cbn [str_ok forallb] in Hs. apply andb_true_iff in Hs. destruct Hs as [Hc Hs].
    destruct fuel as [|fuel]; [cbn in Hf; lia|].
    cbn [utf8_encode flat_map].
    destruct (utf8_char_head c (flat_map utf8_char s) Hc) as (b0 & r0 & E & D).
    rewrite E. cbn [utf8_lossy_f]. rewrite D.
    change (flat_map utf8_char s) with (utf8_encode s). rewrite IH; [reflexivity | exact Hs | cbn in Hf; lia].
Qed.

Theorem utf8_lossy_encode s : str_ok s = true -> utf8_lossy (utf8_encode s) = s.
Proof. intros H. apply utf8_lossy_f_encode; [exact H | apply utf8_encode_len]. Qed.

Lemma utf8_encode_ascii s : all_ascii s = true -> utf8_encode s = s.
Proof.
  induction s as [|c s IH]; cbn; [reflexivity|].
  intros H. apply andb_true_iff in H. destruct H as [H1 H2].
  unfold is_ascii in H1. unfold utf8_char. rewrite H1.
  cbn. f_equal. apply IH, H2.
Qed.

Lemma utf8_encode_app a b : utf8_encode (a ++ b) = utf8_encode a ++ utf8_encode b.
Proof. unfold utf8_encode. apply flat_map_app. Qed.

Lemma utf8_char_bytes c : is_scalar c = true -> bytes_ok (utf8_char c) = true.
Proof.
  unfold is_scalar, utf8_char, bytes_ok. intros H.
  destruct (c <? 0x80) eqn:E1; [|destruct (c <? 0x800) eqn:E2; [|destruct (c <? 0x10000) eqn:E3]];
    cbn [forallb]; lia.
Qed.

Lemma utf8_encode_bytes s : str_ok s = true -> bytes_ok (utf8_encode s) = true.
Proof.
  induction s as [|c s IH]; cbn; [reflexivity|].
  intros H. apply andb_true_iff in H. destruct H as [H1 H2].
  pose proof (utf8_char_bytes c H1) as Hb.
  unfold bytes_ok, utf8_encode in *. rewrite forallb_app, Hb. cbn. apply IH, H2.
Qed.

Lemma utf8_char_ge c : is_ascii c = false -> forallb (fun b => negb (is_ascii b)) (utf8_char c) = true.
Proof.
  unfold is_ascii, utf8_char. intros H. rewrite H.
  destruct (c <? 0x800) eqn:E2; [|destruct (c <? 0x10000) eqn:E3]; cbn [forallb]; lia.
Qed.

Lemma ascii_str_ok s : all_ascii s = true -> str_ok s = true.
Proof. apply forallb_impl. unfold is_ascii, is_scalar. intros; lia. Qed.
