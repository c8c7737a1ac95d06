(** Averages over the five draws of a collision with three products. *)
From Coq Require Import Reals List.
From Coquelicot Require Import Coquelicot.
From Verif Require Import Base Num ModelTerm ModelCollide SpecPhys SpecMore.
From Coq Require Import List.
Import ListNotations.
Local Open Scope R_scope.

(** Mean over five independent uniform draws. *)
Definition mean5_is (f : R -> R -> R -> R -> R -> R) (m : R) : Prop :=
  exists (h2 : R -> R -> R -> R) (h1 : R -> R),
    (forall q r r', 0 <= q <= 1 -> 0 <= r <= 1 -> 0 <= r' <= 1 -> mean_is (f q r r') (h2 q r r')) /\
    (forall q, 0 <= q <= 1 -> mean_is (h2 q) (h1 q)) /\ is_RInt h1 0 1 m.
Definition five_draws (q r r' s s' : R) : rng RNum :=
  mkRng (N:=RNum) (fun k => nth k [q; r; r'; s; s'] 0) (fun _ => 0).
(** The velocity of product number [j] of three. *)
Definition product3 (j : nat) (o : outcome (rpart * rpart * list rpart * nat)) : rvec :=
  match o with
  | Ok (_, _, [a; b; c], _) => p_vel (nth j [a; b; c] c)
  | _ => V3 (N:=RNum) 0 0 0
  end.
(** Kinetic energy of a particle of mass [m] relative to a point moving with velocity [c]. *)
Definition kinetic_from (m : R) (c : nat -> R) (v : rvec) : R :=
  m / 2 * ((vx v - c 0%nat) ^ 2 + (vy v - c 1%nat) ^ 2 + (vz v - c 2%nat) ^ 2).
