(** * Property C96: a pool's addresses do not touch one another, but for the room. *)
From Verif Require Import Base Pool PoolSpec PoolProofs PoolApartSpec PoolApart PoolProps.
From Coq Require Import Permutation.
Open Scope N_scope.

(** As long as the pool has room for all its connections: the commands about an address are answered as if there were no others,
    and the same connections to it are idle. *)
Theorem C96_isolated {C} tmax checks size d b (h : list (Z * command C)) :
  releases h <= 2 ^ 64 - 1 -> representable tmax d h -> unaliased h -> roomy size d h -> exists xs p ys q,
    run tmax checks h (pool_new size d) = Ok (xs, p) /\ run tmax checks (concerning b h) (pool_new size d) = Ok (ys, q) /\
    answers_for b h xs = ys /\
    Permutation (filter (fun x => saddr_eqb (fst x) b) (map (fun x => (id_addr (fst x), snd x)) (p_conns p))) (map (fun x => (id_addr (fst x), snd x)) (p_conns q)).
Proof. exact (isolated tmax checks size d b h). Qed.
Print Assumptions C96_isolated.

(** With or without room: whether an address is refused as suspended, and until when, depends on the commands about it alone. *)
Theorem C96_suspended_alone {C} tmax checks size d b (h : list (Z * command C)) :
  releases h <= 2 ^ 64 - 1 -> representable tmax d h -> unaliased h -> exists xs p ys q,
    run tmax checks h (pool_new size d) = Ok (xs, p) /\ run tmax checks (concerning b h) (pool_new size d) = Ok (ys, q) /\
    map suspension (answers_for b h xs) = map suspension ys.
Proof. exact (suspended_alone tmax checks size d b h). Qed.
Print Assumptions C96_suspended_alone.

(** Without room they do touch: in a pool of any size, connections to another address push out the one to this. *)
Theorem C96_without_room_refuted {C} tmax checks size d a b (c c' : C) : 1 <= size -> size + 1 <= 2 ^ 64 - 1 -> same_endpoint a b = false -> exists h p q,
  unaliased h /\ run tmax checks h (pool_new size d) = Ok ([(0%nat, Connect)], p) /\ run tmax checks (concerning b h) (pool_new size d) = Ok ([(0%nat, Idle c)], q).
Proof. exact (fun L1 L2 Ne => ex_intro _ (pushing size a b c c' ++ [(0%Z, AcquireConnection b 0%nat)]) (pushed_out tmax checks size d a b c c' L1 L2 Ne)). Qed.
Print Assumptions C96_without_room_refuted.

(** ** Cases: the history of C34 has room in a pool of size 4; the answers to either address among all; in a pool of size 3,
    where one connection is pushed out, the suspensions are the same but an answer is not. *)
Example C96_case :
  (releases ex_hist <= 2 ^ 64 - 1 /\ representable 100 10 ex_hist /\ unaliased ex_hist /\ roomy 4 10 ex_hist) /\
  (exists xs p ys q, run 100 true ex_hist (pool_new 4 10) = Ok (xs, p) /\ length xs = 6%nat /\
    run 100 true (concerning ex_b ex_hist) (pool_new 4 10) = Ok (ys, q) /\ answers_for ex_b ex_hist xs = ys /\ ys <> [] /\ (length ys < 6)%nat) /\
  (exists xs p ys q, run 100 true ex_hist (pool_new 3 10) = Ok (xs, p) /\ run 100 true (concerning ex_a ex_hist) (pool_new 3 10) = Ok (ys, q) /\
    map suspension (answers_for ex_a ex_hist xs) = map suspension ys /\ answers_for ex_a ex_hist xs <> ys).
Proof.
  split.
  - destruct ex_hist_fits as (A & B & D). split; [exact A|]. split; [exact B|]. split; [exact D|]. intros h1 h2 E.
    assert (G : forallb (fun n => N.of_nat (length (idle_after 10 [] (firstn n ex_hist) [])) <=? 4) (seq 0 (S (length ex_hist))) = true) by (vm_compute; reflexivity).
    rewrite forallb_forall in G. specialize (G (length h1)). rewrite E in G at 2. rewrite firstn_app, firstn_all, Nat.sub_diag, firstn_O, app_nil_r in G. apply N.leb_le, G, in_seq. rewrite E, app_length. split; [apply Nat.le_0_l|]. cbn. lia.
  - split; (eexists _, _, _, _; split; [vm_compute; reflexivity|]).
    + split; [reflexivity|]. split; [vm_compute; reflexivity|]. split; [vm_compute; reflexivity|]. split; [vm_compute; discriminate | vm_compute; repeat constructor].
    + split; [vm_compute; reflexivity|]. split; [vm_compute; reflexivity | vm_compute; discriminate].
Qed.
Example C96_pushed_case : 1 <= 2 /\ 2 + 1 <= 2 ^ 64 - 1 /\ same_endpoint ex_a ex_b = false /\ length (pushing 2 ex_a ex_b 1%nat 2%nat) = 3%nat.
Proof. vm_compute. repeat split; discriminate. Qed.
