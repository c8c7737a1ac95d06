(** The example program examples/simtest. *)
From Coq Require Import String List ZArith Bool Arith.
From Verif Require Import Base Num ModelTerm ModelCollide ModelXsec ModelSet ModelEq ModelFilter ModelDB ModelMisc.
From Coq Require Import List.
Import ListNotations.


Section Sim.
Context {N : Num}.

(** examples/simtest/Particle.h 100-154: createRandomParticles for [n] species.  The values of
    the inverted distributions are arbitrary: [species i] is drawn by line 137, the others by
    lines 140-149.  Converting one outside the range of int, or using it to index the vector of
    velocity distributions outside its bounds, is undefined.  Particle.h 66-75: the weight is 1. *)
Definition randomParticle (n : nat) (species : nat -> N) (position velocity : nat -> vec N) (i : nat) : outcome (particle N) :=
  do sp <- to_int (species i);
  if ((0 <=? sp)%Z && (sp <? Z.of_nat n)%Z)%bool then Ok (mkParticle (N:=N) (position i) (velocity i) sp n1) else UB.
Definition createRandomParticles (n count : nat) (species : nat -> N) (position velocity : nat -> vec N) : outcome (list (particle N)) :=
  ofold (fun ps i => do p <- randomParticle n species position velocity i; Ok (ps ++ [p])) [] (seq 0 count).

(** examples/simtest/sortSpecies.h 40-59: sortBySpecies.  xylose's NSort is not part of the
    repository; it is read as a sort by species whose begin(i), end(i) delimit species i (which
    order it gives particles of one species does not matter).  A species outside the vector of
    ranges is undefined behaviour, and so is the failing assertion (line 45). *)
Fixpoint ranges_of (start : nat) (groups : list (list (particle N))) : list range :=
  match groups with
  | [] => []
  | g :: groups => (start, (start + length g)%nat) :: ranges_of (start + length g) groups
  end.
Definition groups_of (n : nat) (ps : list (particle N)) : list (list (particle N)) :=
  map (fun i => filter (fun p => Z.eqb (p_species p) (Z.of_nat i)) ps) (seq 0 n).
Definition sortBySpecies (n : nat) (ps : list (particle N)) : outcome (list (particle N) * list range) :=
  if (Nat.ltb 0 n && forallb (fun p => (0 <=? p_species p)%Z && (p_species p <? Z.of_nat n)%Z) ps)%bool
  then Ok (concat (groups_of n ps), ranges_of 0 (groups_of n ps)) else UB.

(** examples/simtest/cellMeasurements.h 38-65 and Cell.h 77-121: the cell after doCellMeasurements. *)
Definition measured (mem : list (particle N)) (rs : list range) (A : nat) : vec N * vec N :=
  match nth_error rs A with
  | Some r => cell_extrema (map (fun p => p_vel p) (firstn (snd r - fst r) (skipn (fst r) mem)))
  | None => (vzero, vzero)
  end.
Definition sim_cell (vol : N) (mem : list (particle N)) (rs : list range) : cell N :=
  mkCell mem rs vol (fun A B => maxRelativeVelocity (measured mem rs A) (measured mem rs B)).

(** examples/simtest/main.cpp 92-110: sort the particles, measure and run the driver once.  The
    volume is 1, the species and sets are those of the database, and the options (53-55) make the
    driver work out of place. *)
Definition sim_run (K : N) (fuel : nat) (dt : N) (nspecies : nat) (db : nat -> nat -> list (equation N))
    (ps : list (particle N)) (g : rng N) (k : nat) : outcome (dstate N) :=
  do (mem, rs) <- sortBySpecies nspecies ps;
  driver K fuel false dt (sim_cell n1 mem rs) nspecies db [] [] g k.

(** main.cpp 71-75 and 77-82: the species and the filter. *)
Definition sim_species : list string := ["87Rb"; "Ar"; "e^-"; "Hg"; "Hg^+"]%string.
Definition sim_filter : filt := FOr FElastic (FLabel "inelastic"%string).
(** main.cpp 70-85: the database. *)
Definition sim_database (reg : registry N) (d : document N) : outcome (list (prop N) * sets N) :=
  do props <- ofold (addParticleNamed d) [] sim_species;
  initBinary reg d sim_filter props.
End Sim.
