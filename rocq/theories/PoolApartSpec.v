(** * What is said of a pool's addresses among each other (C96). *)
From Verif Require Import Base Pool PoolSpec.
Open Scope N_scope.

Section Spec.
Context {C : Type}.

(** The commands about one address, and the answers to them among all answers. *)
Definition concerning (b : saddr) (h : list (Z * command C)) : list (Z * command C) := filter (fun x => saddr_eqb (address (snd x)) b) h.
Fixpoint answers_for (b : saddr) (h : list (Z * command C)) (xs : list (nat * answer C)) : list (nat * answer C) :=
  match h with
  | [] => []
  | (_, AcquireConnection a _) :: h =>
      match xs with
      | [] => []
      | x :: xs => if saddr_eqb a b then x :: answers_for b h xs else answers_for b h xs
      end
  | _ :: h => answers_for b h xs
  end.
(** The connections that would be idle if none were ever given up. *)
Fixpoint idle_after (d : Z) (past h : list (Z * command C)) (l : list (saddr * C)) : list (saddr * C) :=
  match h with
  | [] => l
  | (now, c) :: r =>
      idle_after d (past ++ [(now, c)]) r
        match c with
        | AcquireConnection a _ =>
            match deadline d a past with
            | Some t => if (now <? t)%Z then l else snd (take_exact a l)
            | None => snd (take_exact a l)
            end
        | ReleaseConnection a c => l ++ [(a, c)]
        | AddToBlacklist _ => l
        end
  end.
(** At no time are they more than the size of the pool. *)
Definition roomy (size : N) (d : Z) (h : list (Z * command C)) : Prop :=
  forall h1 h2, h = h1 ++ h2 -> N.of_nat (length (idle_after d [] h1 [])) <= size.
(** Whether an answer is a refusal, and until when. *)
Definition suspension (x : nat * answer C) : nat * option Z := (fst x, match snd x with Suspended t => Some t | _ => None end).
End Spec.
