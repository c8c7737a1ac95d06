(** Specification vocabulary: what a document says about the collisions of a run. *)
From Coq Require Import Reals ZArith String List.
From Verif Require Import Base Num ModelTerm ModelCollide ModelXsec ModelSet ModelEq ModelFilter ModelDB SpecPhys SpecXsec SpecSet SpecEq.
From Coq Require Import List.
Import ListNotations.
Local Open Scope R_scope.

(** Mass, charge and name of a species, by its number. *)
Definition mass_of (props : list (prop RNum)) (s : Z) : R :=
  if (s <? 0)%Z then 1 else match nth_error props (Z.to_nat s) with Some p => pr_mass p | None => 1 end.
Definition charge_of (props : list (prop RNum)) (s : Z) : R :=
  if (s <? 0)%Z then 0 else match nth_error props (Z.to_nat s) with Some p => pr_charge p | None => 0 end.
Definition name_of (props : list (prop RNum)) (s : Z) : string :=
  if (s <? 0)%Z then ""%string else match nth_error props (Z.to_nat s) with Some p => pr_name p | None => ""%string end.
(** The mass that a list of species gives to a name. *)
Definition mass_named (props : list (prop RNum)) (n : string) : R :=
  match find (fun p => String.eqb n (pr_name p)) props with Some p => pr_mass p | None => 1 end.

(** Fewer than 2^32 product particles (the loader counts them in an unsigned int), no 'ops'. *)
Definition plain_products {N : Num} (x : xinter N) : Prop :=
  (Z.of_nat (length (expand_names (xi_out x))) < 2 ^ 32)%Z /\ no_ops (xi_out x).
(** Interactions whose species are all in the list: only they can be loaded. *)
Definition among {N : Num} (props : list (prop N)) (x : xinter N) : Prop :=
  List.Forall (known props) (xi_in x) /\ List.Forall (known props) (xi_out x).
Definition plain_among {N : Num} (props : list (prop N)) (doc : list (xinter N)) : Prop :=
  forall x, In x doc -> among props x -> plain_products x.
(** The quantity [h] of named species is the same before and after every such interaction. *)
Definition balances {N : Num} (h : string -> R) (props : list (prop N)) (doc : list (xinter N)) : Prop :=
  forall x, In x doc -> among props x -> Rsum (map h (expand_names (xi_out x))) = Rsum (map h (expand_names (xi_in x))).
(** Total of a quantity of named species, and the difference products minus reactants. *)
Definition total_named (h : string -> R) (xl : list xterm) : R := Rsum (map h (expand_names xl)).
Definition gain {N : Num} (h : string -> R) (x : xinter N) : R := total_named h (xi_out x) - total_named h (xi_in x).

(** The pairs of a database as the driver asks for them. *)
Definition pair_sets {N : Num} (s : sets N) (A B : nat) : list (equation N) :=
  if (B <? A)%nat then [] else match cell_get s A B with Ok q => q | _ => [] end.
(** The interaction of the document behind the j-th equation of a pair. *)
Definition entry {N : Num} (d : document N) (f : filt) (r : list (prop N)) (A B j : nat) : option (xinter N) :=
  match pair_interactions d f r A B with Ok xs => nth_error xs j | _ => None end.

Definition is_reaction {N : Num} (q : equation N) : bool :=
  match q_model q with MElastic _ | MVSS _ _ => false | _ => true end.
(** A quantity per channel: [g] of interaction and equation. *)
Definition per_channel (d : document RNum) (f : filt) (r : list (prop RNum)) (s : sets RNum)
  (g : nat -> nat -> xinter RNum -> equation RNum -> R) (A B j : nat) : R :=
  match nth_error (pair_sets s A B) j, entry d f r A B j with Some q, Some x => g A B x q | _, _ => 0 end.

Definition threshold (q : equation RNum) : R := match getThresholdEnergy (q_cs q) with Ok E => E | _ => 0 end.
(** Energy that the document gives to a reaction: its KineticEnergyChange, else its threshold
    energy is taken away. *)
Definition energy_given (x : xinter RNum) (q : equation RNum) : R :=
  if is_reaction q then match xi_kec x with Some e => e | None => - threshold q end else 0.
(** The VSS cone loss. *)
Definition vss_loss (r : list (prop RNum)) (A B : nat) (q : equation RNum) : R :=
  match q_model q with
  | MVSS _ _ => mass_of r (Z.of_nat A) * mass_of r (Z.of_nat B) / (mass_of r (Z.of_nat A) + mass_of r (Z.of_nat B)) / 2 / 1000000000000
  | _ => 0
  end.
(** Cross section and VSS parameter of an interaction are admissible. *)
Definition data_ok (x : xinter RNum) : Prop :=
  (match xi_cs x with Some (_, c) => doc_ok c | None => True end) /\
  (match xi_vss x with Some al => 0 <= al | None => True end).
