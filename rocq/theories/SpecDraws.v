(** Which draws of the generator a run uses. *)
From Coq Require Import List ZArith Arith.
From Verif Require Import Base Num ModelTerm ModelCollide ModelSet.
From Coq Require Import List.
Import ListNotations.

Section Draws.
Context {N : Num}.
(** The next [n] draws of [g] from position [k] are those of [g'] from position [k']. *)
Definition same_draws (g : rng N) (k : nat) (g' : rng N) (k' n : nat) : Prop :=
  forall i, (i < n)%nat -> g_rand g (k + i) = g_rand g' (k' + i) /\ g_exc g (k + i) = g_exc g' (k' + i).
(** The state with the generator at another position. *)
Definition at_pos (s : dstate N) (k : nat) : dstate N :=
  mkState (s_mem s) (s_ranges s) (s_res s) (s_erase s) k (s_log s).
(** Draws of one collision: two for a direction, two directions and an energy fraction for three
    products. *)
Definition draws_of (q : equation N) : nat :=
  match q_model q with
  | MElastic _ | MVSS _ _ | MIn22 _ => 2
  | MIn23 _ => 5
  | _ => 0
  end.
(** Least number of draws of a test: two for the pair, one for the acceptance; with a collision
    one for its channel, and those of the collision. *)
Definition test_draws (db : nat -> nat -> list (equation N)) (t : nat * nat * (nat * nat) * Z) : nat :=
  let '(A, B, _, j) := t in
  if (j <? 0)%Z then 3
  else 4 + match nth_error (db A B) (Z.to_nat j) with Some q => draws_of q | None => 0 end.
(** Tests without a collision. *)
Definition misses (l : list (nat * nat * (nat * nat) * Z)) : nat := length (filter (fun t => (snd t <? 0)%Z) l).
(** Pairs of species with channels. *)
Definition channel_pairs (n : nat) (db : nat -> nat -> list (equation N)) : nat :=
  length (filter (fun p => match db (fst p) (snd p) with [] => false | _ => true end)
    (filter (fun p => Nat.leb (fst p) (snd p)) (list_prod (seq 0 n) (seq 0 n)))).
End Draws.
