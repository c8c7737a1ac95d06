(** Particles with NaN velocities in runs that remove particles. *)
From Coq Require Import List.
From Flocq Require Import IEEE754.BinarySingleNaN.
From Verif Require Import Base Num ModelTerm ModelCollide ModelSet SpecSet.
From Coq Require Import List.

Definition has_nan {lm : libm} (p : particle (F64 lm)) : bool :=
  (is_nan (vx (p_vel p) : binary64) || is_nan (vy (p_vel p) : binary64) || is_nan (vz (p_vel p) : binary64))%bool.
(** The particles of a range that have a NaN in their velocity. *)
Definition nans {lm : libm} (mem : list (particle (F64 lm))) (r : range) : list (option (particle (F64 lm))) :=
  filter (fun o => match o with Some p => has_nan p | None => false end) (live mem r).
