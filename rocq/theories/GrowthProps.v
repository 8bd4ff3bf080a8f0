(** * Property C99: what one more procedure does to the requests of the others. *)
From Verif Require Import Base Procedure Router RouterSpec RouterProofs GrowthSpec Growth.

Section C99.
Context {H : Type}.
Implicit Type gs : list (method * entry_point * H).

(** A request is served by the registration of its method that matches it and that no other one shadows, if there is
    one, and by nothing else. *)
Theorem C99_served_by gs m segs h : route (build gs) m (Some segs) = Ok (inl h) <->
  exists ep, In (m, ep, h) (accepted gs) /\ matches ep segs /\ unshadowed (accepted gs) ep segs.
Proof. exact (served_by_iff gs m segs h). Qed.

(** Whatever the request, after one more registration it is treated as before, or as it would be if the new procedure
    were the only one. So it never goes to another of the procedures that were there before. *)
Theorem C99_as_before_or_as_alone gs g m path :
  route (build (gs ++ [g])) m path = route (build gs) m path \/ route (build (gs ++ [g])) m path = route (build [g]) m path.
Proof. exact (one_or_other gs g m path). Qed.

(** A request that was served is served by the same procedure after any number of further registrations, if none of
    them diverts it ... *)
Theorem C99_kept gs gs' m ep h segs :
  In (m, ep, h) (accepted gs) -> matches ep segs -> unshadowed (accepted gs) ep segs ->
  (forall g, In g gs' -> ~ diverts ep (snd (fst g)) segs) ->
  route (build (gs ++ gs')) m (Some segs) = Ok (inl h).
Proof. exact (kept gs gs' m ep h segs). Qed.

(** ... and if the new one diverts it, it goes to the new one, provided that has the same method and matches, and
    otherwise it is refused: the procedure that served it is not tried any more. *)
Theorem C99_diverted gs m ep h segs m' ep' h' :
  In (m, ep, h) (accepted gs) -> matches ep segs -> unshadowed (accepted gs) ep segs -> diverts ep ep' segs ->
  (m' = m /\ matches ep' segs -> route (build (gs ++ [(m', ep', h')])) m (Some segs) = Ok (inl h')) /\
  (~ (m' = m /\ matches ep' segs) ->
     exists e, route (build (gs ++ [(m', ep', h')])) m (Some segs) = Ok (inr e)).
Proof. exact (diverted gs m ep h segs m' ep' h'). Qed.

(** A procedure without variables in its entry point keeps all its requests, whatever is added. *)
Theorem C99_constants_keep gs gs' m ep h segs :
  In (m, ep, h) (accepted gs) -> matches ep segs -> all_constants ep ->
  unshadowed (accepted gs) ep segs /\ route (build (gs ++ gs')) m (Some segs) = Ok (inl h).
Proof. exact (constants_keep gs gs' m ep h segs). Qed.

(** What is added takes no request from a procedure if it has no constant where that one has a variable. *)
Theorem C99_no_constant_no_loss gs gs' m ep h segs :
  In (m, ep, h) (accepted gs) -> matches ep segs -> unshadowed (accepted gs) ep segs ->
  (forall g, In g gs' -> no_more_constants ep (snd (fst g))) ->
  route (build (gs ++ gs')) m (Some segs) = Ok (inl h).
Proof. exact (no_constant_no_loss gs gs' m ep h segs). Qed.
End C99.

(** The users' API: GET /users/<id>, GET /users/<id>/posts, GET /about. *)
Definition ex_users : list (method * entry_point * nat) :=
  [ (MGet, [Val (u "users"); Var], 1); (MGet, [Val (u "users"); Var; Val (u "posts")], 2); (MGet, [Val (u "about")], 3) ].
(** POST /users/import, to be added. *)
Definition ex_import : method * entry_point * nat := (MPost, [Val (u "users"); Val (u "import")], 4).

(** It is not true that a procedure of one method leaves the requests of other methods alone: adding
    POST /users/import takes GET /users/import away from GET /users/<id>, and GET /users/import/posts too. *)
Theorem C99_other_method_refuted :
  exists (gs : list (method * entry_point * nat)) g m segs h,
    fst (fst g) <> m /\ route (build gs) m (Some segs) = Ok (inl h) /\
    route (build (gs ++ [g])) m (Some segs) = Ok (inr MethodNotAllowed).
Proof.
  exists ex_users, ex_import, MGet, [u "users"; u "import"], 1.
  split; [discriminate | split; vm_compute; reflexivity].
Qed.
(** Nor that what is added takes only requests that it answers itself. *)
Theorem C99_taken_unanswered_refuted :
  exists (gs : list (method * entry_point * nat)) g m segs h, fst (fst g) = m /\
    route (build gs) m (Some segs) = Ok (inl h) /\ route (build (gs ++ [g])) m (Some segs) = Ok (inr NotFound) /\
    route (build [g]) m (Some segs) = Ok (inr NotFound).
Proof.
  exists ex_users, (MGet, [Val (u "users"); Val (u "import")], 4), MGet, [u "users"; u "import"; u "posts"], 2.
  split; [reflexivity | split; [|split]; vm_compute; reflexivity].
Qed.

(** The hypotheses of the above are met: GET /users/7 is kept and GET /users/import is diverted. *)
Example C99_case :
  In (MGet, [Val (u "users"); Var], 1) (accepted ex_users) /\
  matches [Val (u "users"); Var] [u "users"; u "7"] /\ matches [Val (u "users"); Var] [u "users"; u "import"] /\
  unshadowed (accepted ex_users) [Val (u "users"); Var] [u "users"; u "7"] /\
  unshadowed (accepted ex_users) [Val (u "users"); Var] [u "users"; u "import"] /\
  ~ diverts [Val (u "users"); Var] (snd (fst ex_import)) [u "users"; u "7"] /\
  diverts [Val (u "users"); Var] (snd (fst ex_import)) [u "users"; u "import"] /\
  route (build (ex_users ++ [ex_import])) MGet (Some [u "users"; u "7"]) = Ok (inl 1) /\
  route (build (ex_users ++ [ex_import])) MPost (Some [u "users"; u "import"]) = Ok (inl 4) /\
  route (build (ex_users ++ [ex_import])) MGet (Some [u "users"; u "7"; u "posts"]) = Ok (inl 2).
Proof.
  split; [left; reflexivity|]. split; [cbn; auto|]. split; [cbn; auto|]. split; [vm_compute; auto|].
  split; [vm_compute; auto|]. split; [cbn; intros [_ E]; discriminate|]. split; [cbn; auto|].
  split; [vm_compute; reflexivity|]. split; vm_compute; reflexivity.
Qed.
(** GET /about has constants only; and a procedure with a variable for "users" takes nothing from GET /users/<id>. *)
Example C99_case_constants :
  In (MGet, [Val (u "about")], 3) (accepted ex_users) /\ matches [Val (u "about")] [u "about"] /\
  all_constants [Val (u "about")] /\ no_more_constants [Val (u "users"); Var] [Var; Var; Val (u "x")] /\
  route (build (ex_users ++ [ex_import; (MGet, [Var], 5)])) MGet (Some [u "about"]) = Ok (inl 3).
Proof.
  split; [right; right; left; reflexivity|]. split; [cbn; auto|]. split; [intros [E|[]]; discriminate|].
  split; [exact I | vm_compute; reflexivity].
Qed.

Print Assumptions C99_served_by.
Print Assumptions C99_as_before_or_as_alone.
Print Assumptions C99_kept.
Print Assumptions C99_diverted.
Print Assumptions C99_constants_keep.
Print Assumptions C99_no_constant_no_loss.
Print Assumptions C99_other_method_refuted.
Print Assumptions C99_taken_unanswered_refuted.
