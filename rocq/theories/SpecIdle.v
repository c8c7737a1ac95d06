(** Inputs of a driver run for which no collision tests are done. *)
From Coq Require Import List ZArith.
From Flocq Require Import IEEE754.BinarySingleNaN.
From Verif Require Import Base Num ModelTerm ModelCollide ModelSet SpecSet SpecNan.
From Coq Require Import List.

Definition is_zero (x : binary64) : Prop := exists s, x = B754_zero s.
(** Time step, volume, largest sigma v or a weight is NaN, or one of the weights is zero
    while the other is not negative. *)
Definition spoiled (dt vol msv wA wB : binary64) : Prop :=
  nan dt \/ nan vol \/ nan msv \/ nan wA \/ nan wB \/ (is_zero wA /\ fnonneg wB) \/ (is_zero wB /\ fnonneg wA).
(** The pairs of species of a list of tests. *)
Definition tested_pairs (log : list (nat * nat * (nat * nat) * Z)) : list (nat * nat) :=
  map (fun e => let '(A, B, _, _) := e in (A, B)) log.
