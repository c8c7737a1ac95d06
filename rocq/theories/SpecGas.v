(** Specification of a gas simulated in binary64 over many time steps. *)
From Coq Require Import Reals List ZArith Permutation.
From Flocq Require Import Core.Core IEEE754.BinarySingleNaN.
From Verif Require Import Base Num ModelCollide ModelSet SpecPhys SpecSet SpecMore SpecRound.
From Coq Require Import List.
Import ListNotations.
Local Open Scope R_scope.

Section Gas.
Context {lm : libm}.
Variable mass : Z -> binary64.

(** Kinetic energy and momentum of all particles, exact sums of what the numbers stand for. *)
Definition gas_energy (mem : list (particle (F64 lm))) : R :=
  Rsum (map (fun p => kinetic (real64 (mass (p_species p))) (realv (p_vel p))) mem).
Definition gas_momentum (i : nat) (mem : list (particle (F64 lm))) : R :=
  Rsum (map (fun p => real64 (mass (p_species p)) * component i (realv (p_vel p))) mem).
(** Range A holds particles of species A. *)
Definition sorted_cell (c : cell (F64 lm)) : Prop :=
  forall A r i, nth_error (c_ranges c) A = Some r -> in_range i r -> exists p, nth_error (c_mem c) i = Some p /\ p_species p = Z.of_nat A.
(** Equations of a gas without reactions: elastic and, if [loss] is at least 2e-13, VSS collisions. *)
Definition plain_channel (loss : R) (A B : Z) (q : equation (F64 lm)) : Prop :=
  q_model q = MElastic (ReducedMass (N:=F64 lm) (mass A) (mass B)) \/
  1 / 5000000000000 <= loss /\ exists al, pow_ok lm al /\ q_model q = MVSS (ReducedMass (N:=F64 lm) (mass A) (mass B)) al.
Definition plain_gas (loss : R) (db : nat -> nat -> list (equation (F64 lm))) : Prop :=
  forall A B, (A <= B)%nat -> List.Forall (plain_channel loss (Z.of_nat A) (Z.of_nat B)) (db A B).
(** Number of collisions in a log. *)
Definition collisions (log : list (nat * nat * (nat * nat) * Z)) : nat := length (filter (fun e => (0 <=? snd e)%Z) log).
(** What transport leaves alone: the particles may be moved, reordered and reweighted. *)
Definition carried (mem mem' : list (particle (F64 lm))) : Prop :=
  Permutation (map (fun p => (p_vel p, p_species p)) mem) (map (fun p => (p_vel p, p_species p)) mem').
(** Any number of in-place time steps with transport between them; the number counts collisions.  Every step has
    its own database, cell, time step and random numbers. *)
Inductive history (loss : R) : nat -> list (particle (F64 lm)) -> list (particle (F64 lm)) -> Prop :=
| history_nil mem mem' : carried mem mem' -> history loss 0 mem mem'
| history_step n mem K fuel dt (c : cell (F64 lm)) nprops db res er g k st mem' :
    history loss n mem (c_mem c) -> plain_gas loss db -> sorted_cell c -> bounded (2 ^ 32) (c_ranges c) -> frng_ok g ->
    driver K fuel true dt c nprops db res er g k = Ok st -> carried (s_mem st) mem' ->
    history loss (n + collisions (s_log st)) mem mem'.
End Gas.
