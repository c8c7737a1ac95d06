(** Specification vocabulary for property lists, options and the example's cell. *)
From Coq Require Import String List ZArith Bool Reals.
From Verif Require Import Base Num ModelMisc.
From Coq Require Import List.
Import ListNotations.

(** An Aggregate<...> expression: at least one argument, each a property or such an
    expression, followed by any number of Null arguments. *)
Inductive aexpr :=
| AProp (name : string)
| AAgg (first : aexpr) (rest : list aexpr) (nulls : nat).
(** The properties written in it, from left to right. *)
Fixpoint written (e : aexpr) : list string :=
  match e with
  | AProp n => [n]
  | AAgg f r _ => written f ++ flat_map written r
  end.
(** The type it denotes. *)
Fixpoint denote (e : aexpr) : ptype :=
  match e with
  | AProp n => PLeaf n
  | AAgg f r k => aggregate (denote f) (map denote r ++ repeat PNull k)
  end.
(** The type List<p1, List<p2, ... List<pn, Null>>>. *)
Fixpoint plain_list (l : list string) : ptype :=
  match l with [] => PNull | n :: l => PList (PLeaf n) (plain_list l) end.

Section O.
Context {A B C : Type}.
Notation M := (modifier A B C).
(** The last value a chain of modifiers sets for a field, else the initial one;
    [pick] tells which value a modifier sets for the field. *)
Definition in_force {V} (pick : M -> option V) (ms : list M) (init v : V) : Prop :=
  (exists m1 m m2, ms = m1 ++ m :: m2 /\ pick m = Some v /\ forall x, In x m2 -> pick x = None) \/
  ((forall x, In x ms -> pick x = None) /\ v = init).
Definition pickParticle (m : M) : option A := match m with setParticle t => Some t | _ => None end.
Definition pickProperties (m : M) : option B := match m with setProperties t => Some t | _ => None end.
Definition pickRNG (m : M) : option C := match m with setRNG t => Some t | _ => None end.
Definition pickInplace (m : M) : option bool := match m with setInplaceInteractions b => Some b | _ => None end.
Definition pickAuto (m : M) : option bool := match m with setAutoCreateMissingElastic b => Some b | _ => None end.
Definition pickExtra (m : M) : option bool := match m with setCrossSectionExtrapolAllowed b => Some b | _ => None end.
End O.

(** The relative speed of two particles. *)
Definition rel_speed (a b : vec RNum) : R :=
  sqrt ((vx a - vx b) * (vx a - vx b) + (vy a - vy b) * (vy a - vy b) + (vz a - vz b) * (vz a - vz b)).

(** The Maxwell distribution of the relative speed of thermalised particles with reduced
    mass [mu] at K_B T = [kT], and averages over it. *)
From Coquelicot Require Import Coquelicot.
Local Open Scope R_scope.
Definition maxwell (kT mu v : R) : R :=
  4 * PI * (mu / (2 * PI * kT) * sqrt (mu / (2 * PI * kT))) * (v * v) * exp (- (mu * (v * v) / (2 * kT))).
Definition average (p g : R -> R) (m : R) : Prop :=
  is_RInt_gen (fun v => g v * p v) (at_point 0) (Rbar_locally p_infty) m.
