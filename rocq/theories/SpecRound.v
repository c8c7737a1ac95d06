(** Specification of collisions computed in binary64. *)
From Coq Require Import Reals.
From Flocq Require Import Core.Core IEEE754.BinarySingleNaN.
From Verif Require Import Base Num ModelCollide SpecPhys.
Local Open Scope R_scope.

(** The real number a finite binary64 number stands for. *)
Definition real64 (x : binary64) : R := B2R x.
Definition realv {lm} (v : vec (F64 lm)) : rvec := V3 (N:=RNum) (real64 (vx v)) (real64 (vy v)) (real64 (vz v)).
(** All components are finite and at most [V] in size. *)
Definition within {lm} (V : R) (v : vec (F64 lm)) : Prop :=
  (is_finite (vx v) = true /\ Rabs (real64 (vx v)) <= V) /\ (is_finite (vy v) = true /\ Rabs (real64 (vy v)) <= V) /\
  (is_finite (vz v) = true /\ Rabs (real64 (vz v)) <= V).
(** Masses between 2^-300 and 2^300, speeds between 2^-400 and 2^400: everything physical. *)
Definition mass_ok (m : binary64) : Prop := is_finite m = true /\ bpow radix2 (-300) <= real64 m <= bpow radix2 300.
Definition speed_ok (V : R) : Prop := bpow radix2 (-400) <= V <= bpow radix2 400.
(** What is asked of the library: its pi, and its sine and cosine of numbers in [0,8]. *)
Definition trig_ok (lm : libm) (kap : R) : Prop :=
  (is_finite (lm_pi lm) = true /\ 0 <= real64 (lm_pi lm) <= 4) /\
  forall x, is_finite x = true -> 0 <= real64 x <= 8 ->
    (is_finite (lm_sin lm x) = true /\ Rabs (real64 (lm_sin lm x)) <= 1) /\ (is_finite (lm_cos lm x) = true /\ Rabs (real64 (lm_cos lm x)) <= 1) /\
    Rabs (real64 (lm_sin lm x) ^ 2 + real64 (lm_cos lm x) ^ 2 - 1) <= kap.
(** Two triples differ by at most [d] in each component. *)
Definition close3 (d : R) (a b : R * R * R) : Prop :=
  let '(a1, a2, a3) := a in let '(b1, b2, b3) := b in Rabs (a1 - b1) <= d /\ Rabs (a2 - b2) <= d /\ Rabs (a3 - b3) <= d.
(** What is asked of the library's power function: with exponent [a] it maps [0,1] into [0,1]. *)
Definition pow_ok (lm : libm) (a : binary64) : Prop :=
  forall x, is_finite x = true -> 0 <= real64 x <= 1 -> is_finite (lm_pow lm x a) = true /\ 0 <= real64 (lm_pow lm x a) <= 1.
(** The reduced mass of two real masses. *)
Definition rmass (x y : R) : R := x * y / (x + y).
(** An energy change [d] for reactants of reduced mass [m] and squared relative speed [D2]: no larger than 3/2 m V^2,
    and, unless it is zero, leaving at least 2^-47 m V^2 of relative energy. *)
Definition gain_ok (V m D2 d : R) : Prop :=
  Rabs d <= 3 / 2 * m * V ^ 2 /\ (d = 0 \/ bpow radix2 (-47) * (m * V ^ 2) <= m / 2 * D2 + d).
(** Masses balance up to a relative 2^-50 (a few roundings). *)
Definition balanced (before after : R) : Prop := Rabs (after - before) <= bpow radix2 (-50) * before.
