(** Specification vocabulary: what an out-of-place run reports. *)
From Coq Require Import Reals List ZArith Bool.
From Verif Require Import Base Num ModelTerm ModelCollide ModelXsec ModelSet SpecTerm SpecPhys SpecXsec SpecSet SpecRun SpecInit.
From Coq Require Import List.
Import ListNotations.
Local Open Scope R_scope.

(** Positions of the partners of the collisions (tests that selected a channel) of a log, in order. *)
Definition partners (log : list (nat * nat * (nat * nat) * Z)) : list nat :=
  flat_map (fun e => if (0 <=? snd e)%Z then [fst (snd (fst e)); snd (snd (fst e))] else []) log.

Section Gas.
Variables (mass charge : Z -> R) (K : R) (db : nat -> nat -> list (equation RNum)) (mem : list (particle RNum)).
(** The particles [l] are what a logged test of the particles [mem] should report: nothing if
    no channel was selected, else products of the channel's species that carry the momentum
    and the energy which the two particles had in [mem]; elastic and VSS collisions report the
    two particles with new velocities. *)
Definition reported (e : nat * nat * (nat * nat) * Z) (l : list (particle RNum)) : Prop :=
  let '(A, B, (i, j), n) := e in
  if (0 <=? n)%Z then
    exists a b q, nth_error mem i = Some a /\ nth_error mem j = Some b /\ i <> j /\
      p_species a = Z.of_nat A /\ p_species b = Z.of_nat B /\ nth_error (db A B) (Z.to_nat n) = Some q /\
      match q_model q with
      | MElastic _ | MVSS _ _ => map p_species l = map p_species [a; b] /\ map p_pos l = map p_pos [a; b] /\ map p_weight l = map p_weight [a; b]
      | _ => map p_species l = expand_species (e_products (q_core q))
      end /\
      (balanced mass (Z.of_nat A) (Z.of_nat B) q -> forall x,
         Rsum (map (momentum_of mass x) l) = momentum_of mass x a + momentum_of mass x b) /\
      (forall dE loss, energy_channel mass charge (Z.of_nat A) (Z.of_nat B) q dE loss -> (is_reaction q = true -> cross_sections_ok K (db A B)) ->
         kinetic_of mass a + kinetic_of mass b + dE - loss <= Rsum (map (kinetic_of mass) l)
           <= kinetic_of mass a + kinetic_of mass b + dE)
  else l = [].
End Gas.

(** Total of [f] over the particles at the positions [xs]. *)
Definition total_at (f : particle RNum -> R) (mem : list (particle RNum)) (xs : list nat) : R :=
  Rsum (map (fun i => held f (nth_error mem i)) xs).
(** Positions of a memory that are not among [xs]. *)
Definition positions_but (mem : list (particle RNum)) (xs : list nat) : list nat :=
  filter (fun i => negb (existsb (Nat.eqb i) xs)) (seq 0 (length mem)).
