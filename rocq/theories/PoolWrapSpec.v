(** * What remains true of the pool when its counter has gone all the way round. *)
From Verif Require Import Base Pool PoolSpec.
Open Scope N_scope.

Section Spec.
  Context {C : Type}.
  (** The connections given to the pool, with the addresses they were given for. *)
  Definition given (h : list (Z * command C)) : list (saddr * C) :=
    flat_map (fun x => match snd x with ReleaseConnection a c => [(a, c)] | _ => [] end) h.
  (** The addresses asked for, and the connections handed out for them: the answers come in the order of the questions. *)
  Definition wanted (h : list (Z * command C)) : list saddr :=
    flat_map (fun x => match snd x with AcquireConnection a _ => [a] | _ => [] end) h.
  Definition handed (h : list (Z * command C)) (xs : list (nat * answer C)) : list (saddr * C) :=
    flat_map (fun x => match snd (snd x) with Idle c => [(fst x, c)] | _ => [] end) (combine (wanted h) xs).
  (** What is kept. *)
  Definition kept (p : pool C) : list (saddr * C) := map (fun x => (id_addr (fst x), snd x)) (p_conns p).
  (** IP version, IP address and port. *)
  Definition endpoint (a : saddr) : N * N * N := (ip_fam a, ip_of a, port_of a).
  Definition at_endpoint (x : saddr * C) : N * N * N * C := (endpoint (fst x), snd x).
End Spec.
