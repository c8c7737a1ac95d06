(** Specification of cross sections and acceptance in double precision: agreement with exact arithmetic up to a number of roundings. *)
From Coq Require Import Reals List ZArith.
From Flocq Require Import Core.Core IEEE754.BinarySingleNaN.
From Verif Require Import Base Num ModelTerm ModelCollide ModelXsec ModelSet SpecPhys SpecSet SpecRound.
From Coq Require Import List.
Import ListNotations.
Local Open Scope R_scope.

(** [x] and [y] agree up to [k] roundings. *)
Definition uq : R := 1 - bpow radix2 (-53).
Definition near (k : nat) (x y : R) : Prop := 0 <= y /\ y * uq ^ k <= x /\ x * uq ^ k <= y.
Definition approx64 (k : nat) (x : binary64) (y : R) : Prop := is_finite x = true /\ near k (real64 x) y.
(** Same outcome, values up to [k] roundings. *)
Definition agree64 {A B} (k : nat) (x : A -> binary64) (y : B -> R) (o : outcome A) (o' : outcome B) : Prop :=
  match o, o' with
  | Ok a, Ok b => approx64 k (x a) (y b)
  | Throw _, Throw _ => True
  | UB, UB => True
  | Diverge, Diverge => True
  | _, _ => False
  end.
(** Zero or between 2^-150 and 2^150 (1e-45 and 1e45): everything physical in SI units. *)
Definition num64 (x : binary64) : Prop :=
  is_finite x = true /\ (real64 x = 0 \/ bpow radix2 (-150) <= real64 x <= bpow radix2 150).
(** A table of such numbers with increasing speeds, and the same table in real numbers. *)
Fixpoint increasing (t : list (binary64 * binary64)) : Prop :=
  match t with
  | x :: (y :: _) as t' => real64 (fst x) < real64 (fst y) /\ increasing t'
  | _ => True
  end.
Definition table64 (t : list (binary64 * binary64)) : Prop :=
  Forall (fun x => num64 (fst x) /\ num64 (snd x)) t /\ increasing t.
Definition rtable (t : list (binary64 * binary64)) : list (R * R) := map (fun x => (real64 (fst x), real64 (snd x))) t.
(** The power function is accurate up to [p] roundings for bases up to 2^800 and exponents
    up to 1/2 in absolute value. *)
Definition pow64 (lm : libm) (p : nat) : Prop := forall x y : binary64, is_finite x = true -> is_finite y = true ->
  bpow radix2 (-800) <= real64 x <= bpow radix2 800 -> -1/2 <= real64 y <= 1/2 ->
  approx64 p (lm_pow lm x y) (Rpower (real64 x) (real64 y)).
Definition pos64 (x : binary64) : Prop := num64 x /\ 0 < real64 x.

Section Double.
(** [K] is Boltzmann's constant, [K'] the same in real numbers. *)
Context {lm : libm}.
Variables (K : F64 lm) (K' : R).
(** A cross section in double precision, the one with the same parameters in real numbers and
    the number of roundings by which their values differ.  The viscosity exponent of VHS is
    0.5 for hard spheres and 1 for Maxwell molecules. *)
Inductive double_simple : nat -> xsec (F64 lm) -> xsec RNum -> Prop :=
| double_constant (s e t : binary64) : num64 s -> num64 t ->
    double_simple 0 (XConstant (N:=F64 lm) s e t) (XConstant (N:=RNum) (real64 s) (real64 e) (real64 t))
| double_inverse (s e t : binary64) : num64 s -> num64 t ->
    double_simple 1 (XInverse (N:=F64 lm) s e t) (XInverse (N:=RNum) (real64 s) (real64 e) (real64 t))
| double_vhs (p : nat) (s Tref w g e t : binary64) (mu : reducedMass (F64 lm)) (mu' : reducedMass RNum) : pow64 lm p ->
    num64 s -> pos64 Tref -> is_finite w = true -> 1/4 <= real64 w <= 1 -> num64 g -> num64 t ->
    pos64 (rm_value mu) -> rm_value mu' = real64 (rm_value mu) -> pos64 K -> K' = real64 K ->
    double_simple (p + 8) (XVHS (N:=F64 lm) (mkVHS (N:=F64 lm) s Tref w g) mu e t)
      (XVHS (N:=RNum) (mkVHS (N:=RNum) (real64 s) (real64 Tref) (real64 w) (real64 g)) mu' (real64 e) (real64 t)).
(** Tables are not extrapolated. *)
Definition double_data (d : data (F64 lm)) (d' : data RNum) : Prop :=
  table64 (d_table d) /\ d_C d = fofZ 0 /\ d_table d' = rtable (d_table d) /\ d_C d' = 0.
(** Up to [m] roundings. *)
Inductive double_xs (m : nat) : xsec (F64 lm) -> xsec RNum -> Prop :=
| double_simple_xs k c c' : double_simple k c c' -> (k <= m)%nat -> double_xs m c c'
| double_table d d' : double_data d d' -> (6 <= m)%nat -> double_xs m (XData d) (XData d')
| double_diameters d d' c0 c1 c0' c1' : double_data d d' -> (6 <= m)%nat -> double_xs m (XAvgDiam d c0 c1) (XAvgDiam d' c0' c1')
| double_easy k0 k1 c0 c1 c0' c1' : double_simple k0 c0 c0' -> double_simple k1 c1 c1' -> (2 * Nat.max k0 k1 + 7 <= m)%nat ->
    double_xs m (XAvgEasy c0 c1) (XAvgEasy c0' c1').
End Double.
