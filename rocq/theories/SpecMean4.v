(** Mean energy that two colliding particles exchange. *)
From Coq Require Import Reals.
From Verif Require Import Num ModelTerm SpecPhys SpecMore.
Local Open Scope R_scope.

(** Reduced mass times the velocity of the centre of mass times the relative velocity:
    what the first particle loses and the second one gains when the relative velocity
    averages out. *)
Definition exchange (m1 : R) (v1 : rvec) (m2 : R) (v2 : rvec) : R :=
  m1 * m2 / (m1 + m2) *
  (cm_velocity m1 v1 m2 v2 0 * (vx v1 - vx v2) + cm_velocity m1 v1 m2 v2 1 * (vy v1 - vy v2) +
   cm_velocity m1 v1 m2 v2 2 * (vz v1 - vz v2)).
