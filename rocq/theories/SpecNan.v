(** Velocities that are not numbers, in binary64. *)
From Coq Require Import List ZArith.
From Flocq Require Import Core.Core IEEE754.BinarySingleNaN.
From Verif Require Import Base Num ModelTerm ModelCollide ModelXsec ModelSet.
From Coq Require Import List.
Import ListNotations.

Section Nan.
Context {lm : libm}.

(** Some component has the property [bad]. *)
Definition some_component (bad : binary64 -> Prop) (v : vec (F64 lm)) : Prop := bad (vx v) \/ bad (vy v) \/ bad (vz v).
Definition nan (x : binary64) : Prop := is_nan x = true.
Definition not_finite (x : binary64) : Prop := is_finite x = false.
(** Cross section classes of the library whose value at a speed that is not a number is
    zero or not a number; for log and VHS this rests on the C library: its logarithm and
    its power with the exponent in question must turn NaN into NaN. *)
Fixpoint quiet (c : xsec (F64 lm)) : Prop :=
  match c with
  | XLog _ _ _ _ => forall x, nan x -> nan (lm_log10 lm x)
  | XVHS i _ _ _ => forall x, nan x -> nan (lm_pow lm x (fsub (vhs_visc i) (fdiv (fofZ 1) (fofZ 2))))
  | XAvgEasy c0 c1 => quiet c0 /\ quiet c1
  | XOther _ _ _ _ => False
  | _ => True
  end.
(** Collisions of the library without 'ops' expressions. *)
Definition without_ops (m : imodel (F64 lm)) : Prop :=
  match m with
  | MElastic _ | MVSS _ _ => True
  | MIn22 m => i2_useX m = false
  | MIn23 m => i3_useX m = false
  | _ => False
  end.
Definition bouncing (m : imodel (F64 lm)) : Prop := match m with MElastic _ | MVSS _ _ => True | _ => False end.
(** Position [i] takes part in a reported collision. *)
Definition collides_in (log : list (nat * nat * (nat * nat) * Z)) (i : nat) : Prop :=
  exists A B ij path, In (A, B, ij, path) log /\ (0 <= path)%Z /\ (i = fst ij \/ i = snd ij).
End Nan.
