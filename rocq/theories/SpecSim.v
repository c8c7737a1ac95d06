(** Statements about the example program examples/simtest. *)
From Coq Require Import String ZArith Reals List.
From Verif Require Import Base Num ModelTerm ModelCollide ModelSet ModelEq ModelDB ModelShipped SpecShipped.
From Coq Require Import List.
Import ListNotations.
Local Open Scope string_scope.

(** Some particle is of the species with index [A]. *)
Definition occurs {N : Num} (ps : list (particle N)) (A : nat) : Prop := exists p, In p ps /\ p_species p = Z.of_nat A.
(** The species called [name] has an index and no particle. *)
Definition missing {N : Num} (r : list (prop N)) (ps : list (particle N)) (name : string) : Prop :=
  exists A p, nth_error r A = Some p /\ pr_name p = name /\ ~ occurs ps A.

(** The species simtest asks for. *)
Definition sim_particles : list ship_particle := [
  mkSP "87Rb" [(87, "amu")] 0; mkSP "Ar" [(1, "element::Ar::mass")] 0; mkSP "e^-" [(1, "m_e")] (-1);
  mkSP "Hg" [(1, "element::Hg::mass")] 0; mkSP "Hg^+" [(1, "element::Hg::mass"); ((-1), "m_e")] 1]%Z.
(** The pairs of them that collide. *)
Definition sim_pairs : list (string * string) := [("87Rb", "87Rb"); ("Ar", "Ar"); ("e^-", "Ar"); ("e^-", "Hg")].
Definition sim_collide (a b : string) : Prop := In (a, b) sim_pairs \/ In (b, a) sim_pairs.

(** The two sides of an interaction have the same text exactly when they have the same terms
    (a fact about data/standard/particles.xml, whose texts are not part of the model). *)
Definition texts_agree (text : nat -> string * string) : Prop :=
  forall k i, nth_error shipped_interactions k = Some i -> (fst (text k) = snd (text k) <-> si_in i = si_out i).
(** The document is the shipped one, masses are positive and electrons light. *)
Definition sim_data (val : string -> R) (ginv : R -> R) path text (d : document RNum) : Prop :=
  shipped_gas val ginv path text d sim_particles /\ light_electrons val sim_particles /\ (0 < val "eV")%R /\ texts_agree text /\
  forall p, In p sim_particles -> x_particle d (sp_name p) = Ok (shipped_prop val p).

Local Open Scope R_scope.
(** No velocity component exceeds [V], and at the relative speed sqrt 12 V the energy of an
    electron and an argon atom is within their table, which ends at 1000 eV. *)
Definition slow (val : string -> R) (ps : list (particle RNum)) : Prop :=
  exists V : R, (forall p, In p ps -> Rabs (vx (p_vel p)) <= V /\ Rabs (vy (p_vel p)) <= V /\ Rabs (vz (p_vel p)) <= V) /\
    let m1 := val "m_e" in let m2 := val "element::Ar::mass" in m1 * m2 / (m1 + m2) * (12 * V ^ 2) / 2 <= 1000 * val "eV".
