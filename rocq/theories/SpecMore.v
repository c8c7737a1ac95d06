(** Specification vocabulary: averages over two uniform draws, fitted tails, radii. *)
From Coq Require Import Reals List ZArith.
From Coquelicot Require Import Coquelicot.
From Verif Require Import Base Num ModelTerm ModelCollide ModelXsec SpecPhys SpecXsec.
From Coq Require Import List.
Import ListNotations.
Local Open Scope R_scope.

(** [m] is the mean of [f r r'] over independent uniform draws in [0,1]. *)
Definition mean_is (f : R -> R -> R) (m : R) : Prop :=
  exists g : R -> R, (forall r, 0 <= r <= 1 -> is_RInt (f r) 0 1 (g r)) /\ is_RInt g 0 1 m.

(** A generator whose first two draws are the given ones. *)
Definition two_draws (r r' : R) : rng RNum :=
  mkRng (N:=RNum) (fun k => match k with O => r | _ => r' end) (fun _ => 0).

(** Components by number. *)
Definition component (i : nat) (v : rvec) : R := match i with O => vx v | S O => vy v | _ => vz v end.

(** Velocity of the centre of mass. *)
Definition cm_velocity (m1 : R) (v1 : rvec) (m2 : R) (v2 : rvec) (i : nat) : R :=
  (m1 * component i v1 + m2 * component i v2) / (m1 + m2).

(** The velocities of two particles after a collision. *)
Definition after (o : outcome (rpart * rpart * list rpart * nat)) : rvec * rvec :=
  match o with Ok (a, b, _, _) => (p_vel a, p_vel b) | _ => (V3 (N:=RNum) 0 0 0, V3 (N:=RNum) 0 0 0) end.
(** The velocities of two products. *)
Definition after2 (o : outcome (rpart * rpart * list rpart * nat)) : rvec * rvec :=
  match o with Ok (_, _, [a; b], _) => (p_vel a, p_vel b) | _ => (V3 (N:=RNum) 0 0 0, V3 (N:=RNum) 0 0 0) end.

(** The curve through which a table is continued: in x = v^2 - v1^2,
    C b ln(a x + b) / (a x + b), with C and a fitted to the value and the mean slope at
    the last but one entry for b = 30. *)
Definition tail_curve (d0 d1 d2 : R * R) (b x : R) : R :=
  let C := snd d1 / ln 30 in
  let a := 30 * mean_slope d0 d1 d2 / (C * (1 - ln 30)) in
  C * b * ln (a * x + b) / (a * x + b).
(** The values of b that are tried. *)
Definition tried (b : R) : Prop := exists k, b = exp 1 + INR k / 100 /\ b <= 100.
(** Relative mismatch of the curve with the last entry. *)
Definition mismatch (d0 d1 d2 : R * R) (b : R) : R :=
  Rabs (1 - snd d2 / tail_curve d0 d1 d2 b (fst d2 ^ 2 - fst d1 ^ 2)).
(** The largest binary64 number, where the search for b starts. *)
Definition dblmax : R := IZR (2 ^ 1024 - 2 ^ 971).
