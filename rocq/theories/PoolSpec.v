(** * What a connection pool is supposed to do: a queue of idle connections and a deadline per address. *)
From Verif Require Import Base Pool.
Open Scope N_scope.

(** Same IP address and port; an IPv6 scope or flow label does not count. *)
Definition same_endpoint (a b : saddr) : bool :=
  (ip_fam a =? ip_fam b) && (ip_of a =? ip_of b) && (port_of a =? port_of b).

Section Spec.
  Context {C : Type}.

  (** The idle connections, in the order of their release. *)
  Definition idle := list (saddr * C).

  (** Acquiring looks at the connection to the same IP and port that was released longest ago; it is taken if it goes to
      the very address asked for. *)
  Fixpoint take (a : saddr) (l : idle) : option C * idle :=
    match l with
    | [] => (None, [])
    | (b, c) :: r =>
        if same_endpoint b a then if saddr_eqb b a then (Some c, r) else (None, l)
        else let '(o, r) := take a r in (o, (b, c) :: r)
    end.
  (** The connection to exactly this address released longest ago. *)
  Fixpoint take_exact (a : saddr) (l : idle) : option C * idle :=
    match l with
    | [] => (None, [])
    | (b, c) :: r => if saddr_eqb b a then (Some c, r) else let '(o, r) := take_exact a r in (o, (b, c) :: r)
    end.

  (** Releasing appends; the connections idle for longest go while there are too many. *)
  Definition put (size : N) (a : saddr) (c : C) (l : idle) : idle :=
    let l := l ++ [(a, c)] in skipn (length l - N.to_nat size) l.

  (** Until when an address is suspended, from the history of commands: the last failure recorded, unless the address was
      asked for when that time was over. *)
  Definition deadline_step (d : Z) (a : saddr) (o : option Z) (x : Z * command C) : option Z :=
    match x with
    | (now, AddToBlacklist b) => if saddr_eqb b a then Some (now + d)%Z else o
    | (now, AcquireConnection b _) =>
        if saddr_eqb b a then match o with Some t => if (now <? t)%Z then o else None | None => None end else o
    | (_, ReleaseConnection _ _) => o
    end.
  Definition deadline (d : Z) (a : saddr) (past : list (Z * command C)) : option Z := fold_left (deadline_step d a) past None.

  (** The answers to a history and the connections idle after it, when acquiring takes connections with [tk]. *)
  Fixpoint spec_run (tk : saddr -> idle -> option C * idle) (size : N) (d : Z) (past h : list (Z * command C)) (l : idle) : list (nat * answer C) * idle :=
    match h with
    | [] => ([], l)
    | (now, c) :: r =>
        let past' := past ++ [(now, c)] in
        match c with
        | AcquireConnection a i =>
            let serve := let '(o, l) := tk a l in
                         let '(xs, l) := spec_run tk size d past' r l in
                         ((i, match o with Some c => Idle c | None => Connect end) :: xs, l) in
            match deadline d a past with
            | Some t => if (now <? t)%Z then let '(xs, l) := spec_run tk size d past' r l in ((i, Suspended t) :: xs, l) else serve
            | None => serve
            end
        | ReleaseConnection a c => spec_run tk size d past' r (put size a c l)
        | AddToBlacklist _ => spec_run tk size d past' r l
        end
    end.

  Definition address (c : command C) : saddr :=
    match c with AcquireConnection a _ => a | ReleaseConnection a _ => a | AddToBlacklist a => a end.
  (** No two addresses in the history differ only in IPv6 scope or flow label. *)
  Definition unaliased (h : list (Z * command C)) : Prop :=
    forall x y, In x h -> In y h -> same_endpoint (address (snd x)) (address (snd y)) = true -> address (snd x) = address (snd y).

  (** Commands that leave a suspension of the address until [t] as it is. *)
  Definition quiet (a : saddr) (t : Z) (x : Z * command C) : Prop :=
    address (snd x) <> a \/ match snd x with AcquireConnection _ _ => (fst x < t)%Z | ReleaseConnection _ _ => True | AddToBlacklist _ => False end.
  (** Every suspension ends at a time that can be represented. *)
  Definition representable (tmax d : Z) (h : list (Z * command C)) : Prop :=
    forall now a, In (now, AddToBlacklist a) h -> (now + d <= tmax)%Z.

  Definition is_release (x : Z * command C) : bool := match snd x with ReleaseConnection _ _ => true | _ => false end.
  Definition releases (h : list (Z * command C)) : N := N.of_nat (length (filter is_release h)).
End Spec.
