(** Specification vocabulary: quantities carried by the particles of a cell. *)
From Coq Require Import Reals List ZArith String.
From Verif Require Import Base Num ModelTerm ModelCollide ModelFactories ModelXsec ModelSet SpecTerm SpecPhys SpecXsec SpecSet SpecMore.
From Coq Require Import List.
Import ListNotations.
Local Open Scope R_scope.

(** Amount of [f] carried by the live particles and by the products. *)
Definition held (f : particle RNum -> R) (o : option (particle RNum)) : R := match o with Some p => f p | None => 0 end.
Definition content (f : particle RNum -> R) (mem : list (particle RNum)) (r : range) : R := Rsum (map (held f) (live mem r)).
Definition amount (f : particle RNum -> R) (mem : list (particle RNum)) (rs : list range) (res : list (particle RNum)) : R :=
  Rsum (map (content f mem) rs) + Rsum (map f res).

(** The particles in range A are of species A. *)
Definition typed (mem : list (particle RNum)) (rs : list range) : Prop :=
  forall A r i, nth_error rs A = Some r -> in_range i r ->
    exists p, nth_error mem i = Some p /\ p_species p = Z.of_nat A.

(** Sum over the collisions (tests that selected a channel) of a log. *)
Definition over_collisions (d : nat -> nat -> nat -> R) (log : list (nat * nat * (nat * nat) * Z)) : R :=
  Rsum (map (fun e => if (0 <=? snd e)%Z then d (fst (fst (fst e))) (snd (fst (fst e))) (Z.to_nat (snd e)) else 0) log).

Section Gas.
Variables (mass charge : Z -> R).
(** Momentum component and kinetic energy of a particle. *)
Definition momentum_of (i : nat) (p : particle RNum) : R := mass (p_species p) * component i (p_vel p).
Definition kinetic_of (p : particle RNum) : R := kinetic (mass (p_species p)) (p_vel p).
Definition species_db (s : Z) : outcome (RNum * RNum) := Ok (mass s, charge s).

(** A reaction of species A and B as the loader makes it: two or three products, no
    'ops' expressions, any energy change. *)
Definition loaded_reaction (A B : Z) (kec : option R) (thrE : R) (q : equation RNum) : Prop :=
  exists inf parse fcm fcq ms, (length ms = 2 \/ length ms = 3)%nat /\
    reaction (N:=RNum) (fun m : R => 0 < m) species_db (q_core q) (mass A) (mass B) ms /\
    hasExpressions (e_products (q_core q)) = false /\
    inelastic_new_load species_db (setParticleFactories (N:=RNum) inf) parse fcm fcq kec thrE (q_core q) = Ok (q_model q).
(** Collisions between species A and B of a gas: elastic, VSS, a reaction with two or three
    products, or one with another number of products, which the loader accepts and which
    throws when it is selected. *)
Definition gas_channel (A B : Z) (q : equation RNum) : Prop :=
  0 < mass A /\ 0 < mass B /\
  (q_model q = MElastic (ReducedMass (N:=RNum) (mass A) (mass B)) \/
   (exists al, q_model q = MVSS (ReducedMass (N:=RNum) (mass A) (mass B)) al) \/
   (exists kec thrE, loaded_reaction A B kec thrE q) \/
   q_model q = MInBare).
(** The quantity [f] of the species is balanced by a channel. *)
Definition balanced (f : Z -> R) (A B : Z) (q : equation RNum) : Prop :=
  match q_model q with
  | MElastic _ | MVSS _ _ => True
  | _ => Rsum (map f (expand_species (e_products (q_core q)))) = f A + f B
  end.
(** By how much one collision of channel [j] changes the quantity [f] of the species:
    products minus reactants for a reaction. *)
Definition species_change (f : Z -> R) (db : nat -> nat -> list (equation RNum)) (A B j : nat) : R :=
  match nth_error (db A B) j with
  | Some q => match q_model q with
              | MElastic _ | MVSS _ _ => 0
              | _ => Rsum (map f (expand_species (e_products (q_core q)))) - (f (Z.of_nat A) + f (Z.of_nat B))
              end
  | None => 0
  end.
(** Channels whose energy change is known: elastic ones none, VSS loses at most [loss] in
    its small cone, a selected reaction changes it by [dE], its loaded energy change
    (no lower than minus the threshold); a reaction with neither two nor three products never
    completes. *)
Definition energy_channel (A B : Z) (q : equation RNum) (dE loss : R) : Prop :=
  0 < mass A /\ 0 < mass B /\
  (q_model q = MElastic (ReducedMass (N:=RNum) (mass A) (mass B)) /\ dE = 0 /\ loss = 0 \/
   (exists al, 0 <= al /\ q_model q = MVSS (ReducedMass (N:=RNum) (mass A) (mass B)) al /\ dE = 0 /\
      loss = mass A * mass B / (mass A + mass B) / 2 / 1000000000000) \/
   (exists kec E fuel allowed inf ninf tol solve doc, loaded_reaction A B kec E q /\
      balanced mass A B q /\
      doc_ok doc /\ 0 <= inf /\ solver_in_bracket solve /\
      xs_load (N:=RNum) fuel allowed inf ninf tol solve (e_mu (q_core q)) doc = Ok (q_cs q) /\
      getThresholdEnergy (q_cs q) = Ok E /\
      dE = (match kec with Some d => d | None => - E end) /\ - E <= dE /\ loss = 0) \/
   q_model q = MInBare).
(** Cross sections are not negative at any speed at which they are all defined. *)
Definition cross_sections_ok (K : R) (rhs : list (equation RNum)) : Prop :=
  forall v cs, 0 <= v -> channels K rhs v cs -> List.Forall (fun x => 0 <= x) cs.
End Gas.

(** An equation whose cross section is defined at every speed and whose model never fails
    in place. *)
Definition total_inplace {N : Num} (K : N) (e : equation N) : Prop :=
  (forall v, exists s, sigma K (q_cs e) v = Ok s) /\
  (forall p q l g k, exists x, model_interact true (q_model e) p q l g k = Ok x).
(** Among any [m] successive draws from what is left of a range, two positions occur as long as
    two are left. *)
Definition fair_prefixes {N : Num} (g : rng N) (r : range) (m : nat) : Prop :=
  forall e, (fst r + 2 <= e <= snd r)%nat -> fair g (fst r, e) m.
