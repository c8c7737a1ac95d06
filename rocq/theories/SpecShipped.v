(** Specification vocabulary: databases built from the shipped data. *)
From Coq Require Import Reals ZArith String List.
From Verif Require Import Base Num ModelTerm ModelCollide ModelXsec ModelSet ModelEq ModelFilter ModelDB ModelShipped SpecPhys SpecXsec SpecSet SpecEq SpecDB SpecRun SpecInit.
From Coq Require Import List.
Import ListNotations.
Local Open Scope R_scope.

(** The particle of a name; its mass and charge for given values of the constants. *)
Definition ship_named (n : string) : option ship_particle :=
  find (fun p => String.eqb n (sp_name p)) shipped_particles.
Definition mass_called (val : string -> R) (n : string) : R :=
  match ship_named n with Some p => linear val (sp_mass p) | None => 0 end.
Definition charge_called (n : string) : R :=
  match ship_named n with Some p => IZR (sp_charge p) | None => 0 end.
(** All species of an interaction are shipped. *)
Definition all_shipped (x : xinter RNum) : Prop :=
  forall t, In t (xi_in x ++ xi_out x) -> exists p, In p shipped_particles /\ sp_name p = x_P t.

(** The species are distinct shipped particles of positive mass, and the interactions of the
    document are the shipped ones. *)
Definition shipped_gas (val : string -> R) (ginv : R -> R) path text (d : document RNum) (ps : list ship_particle) : Prop :=
  NoDup ps /\ incl ps shipped_particles /\ (forall p, In p ps -> 0 < linear val (sp_mass p)) /\
  x_inter d = shipped_doc val ginv path text.

(** How often channel [j] of the pair (A,B) occurs in a log. *)
Definition times (A B j : nat) (log : list (nat * nat * (nat * nat) * Z)) : R :=
  over_collisions (fun A' B' j' => if (Nat.eqb A A' && Nat.eqb B B' && Nat.eqb j j')%bool then 1 else 0) log.

(** Electrons are lighter than every other species but positrons. *)
Definition light_electrons (val : string -> R) (ps : list ship_particle) : Prop :=
  forall p, In p ps -> sp_name p <> "e^-"%string -> sp_name p <> "e^+"%string -> val "m_e"%string < linear val (sp_mass p).

(** A species is in the list. *)
Definition present (ps : list ship_particle) (n : string) : Prop := exists p, In p ps /\ sp_name p = n.
(** Without the pairs Xe/Xe^+ and Cu/Cu^+, whose cross sections (log, Lotz) can be negative. *)
Definition no_log_lotz (ps : list ship_particle) : Prop :=
  ~ (present ps "Xe" /\ present ps "Xe^+") /\ ~ (present ps "Cu" /\ present ps "Cu^+").
