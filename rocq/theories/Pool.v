(** * The connection pool.  Models src/pool.rs:22-224.

    [BTreeMap]s (std) are modelled as association lists sorted by the key's [Ord]; the [HashMap] as an association list
    under full equality of addresses.  A TCP connection is an element of an arbitrary type [C], the [oneshot::Sender] of an
    acquisition is identified by a call number.  [SystemTime] is an integer (nanoseconds); [tmax] is the largest
    representable one, past which [SystemTime + Duration] panics (std). *)
From Verif Require Import Base.
Open Scope N_scope.

(** ** Socket addresses (std::net) *)
(** [SocketAddr]: V4 with address and port, V6 also with flow label and scope id. src/pool.rs:5,24. *)
Inductive saddr := AddrV4 (ip port : N) | AddrV6 (ip port flow scope : N).

(** std: derived [PartialEq] of [SocketAddr]. src/pool.rs:185. *)
Definition saddr_eqb (a b : saddr) : bool :=
  match a, b with
  | AddrV4 i p, AddrV4 i' p' => (i =? i') && (p =? p')
  | AddrV6 i p f s, AddrV6 i' p' f' s' => (i =? i') && (p =? p') && (f =? f') && (s =? s')
  | _, _ => false
  end.

(** [SocketAddr::ip] and [port]: what the [Ord] of [ConnectionId] looks at.  [IpAddr]'s derived [Ord]: V4 before V6, then
    the octets, which is numeric order. src/pool.rs:39-40. *)
Definition ip_fam (a : saddr) : N := match a with AddrV4 _ _ => 4 | AddrV6 _ _ _ _ => 6 end.
(** [SocketAddr::ip] (std), src/pool.rs:39-40. *)
Definition ip_of (a : saddr) : N := match a with AddrV4 i _ => i | AddrV6 i _ _ _ => i end.
(** [SocketAddr::port] (std), src/pool.rs:39-40. *)
Definition port_of (a : saddr) : N := match a with AddrV4 _ p => p | AddrV6 _ p _ _ => p end.

(** ** [ConnectionId] *)
(** Models src/pool.rs:22-31. *)
Record cid := mkCid { id_addr : saddr; id_seq : N }.

(** std: [Ord] of tuples is lexicographic. src/pool.rs:40. *)
Definition then_cmp (c d : comparison) : comparison := match c with Eq => d | _ => c end.

(** Models src/pool.rs:37-42 [Ord::cmp]: the flow label and scope id of an IPv6 address do not count. *)
Definition cid_cmp (x y : cid) : comparison :=
  then_cmp (ip_fam (id_addr x) ?= ip_fam (id_addr y))
    (then_cmp (ip_of (id_addr x) ?= ip_of (id_addr y))
      (then_cmp (port_of (id_addr x) ?= port_of (id_addr y)) (id_seq x ?= id_seq y))).

(** ** std's [BTreeMap] *)
Section BTree.
  Context {K V : Type}.
  Variable cmp : K -> K -> comparison.
  (** [insert]: an equal key stays, its value is replaced. src/pool.rs:210-211. *)
  Fixpoint bt_insert (k : K) (v : V) (l : list (K * V)) : list (K * V) :=
    match l with
    | [] => [(k, v)]
    | (k', v') :: r => match cmp k k' with
                       | Lt => (k, v) :: l
                       | Eq => (k', v) :: r
                       | Gt => (k', v') :: bt_insert k v r
                       end
    end.
  (** [remove]. src/pool.rs:187-188,221-222. *)
  Fixpoint bt_remove (k : K) (l : list (K * V)) : option V * list (K * V) :=
    match l with
    | [] => (None, [])
    | (k', v') :: r => match cmp k k' with
                       | Lt => (None, l)
                       | Eq => (Some v', r)
                       | Gt => let '(o, r) := bt_remove k r in (o, (k', v') :: r)
                       end
    end.
  (** [range((Bound::Included(lower), Bound::Unbounded))]. src/pool.rs:180-184. *)
  Fixpoint bt_from (lower : K) (l : list (K * V)) : list (K * V) :=
    match l with
    | [] => []
    | (k', v') :: r => match cmp k' lower with Lt => bt_from lower r | _ => l end
    end.
End BTree.

(** ** std's [HashMap] keyed by addresses. src/pool.rs:151. *)
Fixpoint hm_remove (a : saddr) (l : list (saddr * Z)) : option Z * list (saddr * Z) :=
  match l with
  | [] => (None, [])
  | (b, t) :: r => if saddr_eqb a b then (Some t, r) else let '(o, r) := hm_remove a r in (o, (b, t) :: r)
  end.
(** [HashMap::insert], src/pool.rs:153,174. *)
Definition hm_insert (a : saddr) (t : Z) (l : list (saddr * Z)) : list (saddr * Z) := (a, t) :: snd (hm_remove a l).

(** ** The pool. src/pool.rs:104,208. *)
Definition u64_max : N := 18446744073709551615.

Section Pool.
  Context {C : Type}.

  (** Models src/pool.rs:44-57 [Command]; the reply channel is the number of the call waiting on it. *)
  Inductive command :=
  | AcquireConnection (addr : saddr) (reply : nat)
  | ReleaseConnection (addr : saddr) (connection : C)
  | AddToBlacklist (addr : saddr).

  (** What the pool sends on the reply channel, models the [PooledConnection]s built at src/pool.rs:63-71 (failed until
      some time), 189-193 (an idle connection) and 195-203 (connecting; [on_error] is set only there). *)
  Inductive answer := Suspended (until : Z) | Idle (connection : C) | Connect.

  (** Models src/pool.rs:98-108 [RpcClientPool]; the channel's ends are in the system around the pool, the connect timeout
      is part of the connecting future. *)
  Record pool := mkPool {
    p_size : N;
    p_conns : list (cid * C);
    p_lru : list (N * saddr);
    p_seq : N;
    p_black : list (saddr * Z);
    p_susp : Z                       (* suspended_duration *)
  }.

  (** Models src/pool.rs:116-129 [with_pool_size] followed by 139-141 [set_suspended_duration]. *)
  Definition pool_new (size : N) (susp : Z) : pool := mkPool size [] [] 0 [] susp.

  Variables (tmax : Z) (checks : bool).

  (** Models src/pool.rs:178-205 [acquire_connection]. *)
  Definition acquire_connection (addr : saddr) (p : pool) : res (answer * pool) :=
    match bt_from cid_cmp (mkCid addr 0) (p_conns p) with
    | (id, _) :: _ =>
        if saddr_eqb (id_addr id) addr then
          let lru := snd (bt_remove N.compare (id_seq id) (p_lru p)) in
          match bt_remove cid_cmp id (p_conns p) with
          | (Some c, conns) => Ok (Idle c, mkPool (p_size p) conns lru (p_seq p) (p_black p) (p_susp p))
          | (None, _) => Panic                                     (* expect, 188 *)
          end
        else Ok (Connect, p)
    | [] => Ok (Connect, p)
    end.

  (** Models src/pool.rs:214-224 [drop_exceeded_lru_connections]; the loop is given more rounds than it can need. *)
  Fixpoint drop_exceeded (fuel : nat) (p : pool) : res pool :=
    match fuel with
    | O => Diverge
    | S f =>
        if p_size p <? N.of_nat (length (p_conns p)) then
          match p_lru p with
          | [] => Panic                                            (* expect, 220 *)
          | (seq, addr) :: _ =>
              drop_exceeded f (mkPool (p_size p) (snd (bt_remove cid_cmp (mkCid addr seq) (p_conns p)))
                                 (snd (bt_remove N.compare seq (p_lru p))) (p_seq p) (p_black p) (p_susp p))
          end
        else Ok p
    end.

  (** [seq_no += 1], src/pool.rs:208: past [u64::MAX] a panic, or 0 when compiled without overflow checks. *)
  Definition next_seq (n : N) : res N := if n <? u64_max then Ok (n + 1) else if checks then Panic else Ok 0.

  (** Models src/pool.rs:206-213 [release_connection]. *)
  Definition release_connection (addr : saddr) (c : C) (p : pool) : res pool :=
    let id := mkCid addr (p_seq p) in
    n <- next_seq (p_seq p) ;;
    let conns := bt_insert cid_cmp id c (p_conns p) in
    drop_exceeded (S (length conns))
      (mkPool (p_size p) conns (bt_insert N.compare (id_seq id) (id_addr id) (p_lru p)) n (p_black p) (p_susp p)).

  (** Models src/pool.rs:148-177 [handle_command]; [now] is what [SystemTime::now()] returns during this command. *)
  Definition handle_command (now : Z) (c : command) (p : pool) : res (option (nat * answer) * pool) :=
    match c with
    | AcquireConnection addr reply =>
        let '(o, black) := hm_remove addr (p_black p) in           (* 151 *)
        let p' := mkPool (p_size p) (p_conns p) (p_lru p) (p_seq p) black (p_susp p) in
        match o with
        | Some until =>
            if (now <? until)%Z then                               (* 152-163 *)
              Ok (Some (reply, Suspended until),
                  mkPool (p_size p) (p_conns p) (p_lru p) (p_seq p) (hm_insert addr until black) (p_susp p))
            else '(a, p) <- acquire_connection addr p' ;; Ok (Some (reply, a), p)
        | None => '(a, p) <- acquire_connection addr p' ;; Ok (Some (reply, a), p)
        end
    | ReleaseConnection addr c => p <- release_connection addr c p ;; Ok (None, p)
    | AddToBlacklist addr =>
        if (now + p_susp p <=? tmax)%Z then                        (* 173: the addition panics on overflow *)
          Ok (None, mkPool (p_size p) (p_conns p) (p_lru p) (p_seq p) (hm_insert addr (now + p_susp p)%Z (p_black p)) (p_susp p))
        else Panic
    end.

  (** Models src/pool.rs:229-235: the commands handled one after the other, with the clock readings; the answers sent. *)
  Fixpoint run (h : list (Z * command)) (p : pool) : res (list (nat * answer) * pool) :=
    match h with
    | [] => Ok ([], p)
    | (now, c) :: r =>
        '(o, p) <- handle_command now c p ;;
        '(l, p) <- run r p ;;
        Ok (match o with Some x => x :: l | None => l end, p)
    end.
End Pool.
Arguments command : clear implicits.
Arguments answer : clear implicits.
Arguments pool : clear implicits.
