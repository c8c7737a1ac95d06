(** Specification vocabulary for documents with units. *)
From Coq Require Import String List ZArith Reals.
From Verif Require Import Base Num ModelTerm ModelCollide ModelXsec ModelEq ModelUnits.
From Coq Require Import List.
Import ListNotations.
Local Open Scope string_scope.
Local Open Scope list_scope.

(** Units, by how they are built from the base units. *)
Definition dtimes (a b : dims) : dims := mkDims (d_length a + d_length b) (d_mass a + d_mass b) (d_time a + d_time b) (d_charge a + d_charge b) (d_temp a + d_temp b).
Definition dover (a b : dims) : dims := mkDims (d_length a - d_length b) (d_mass a - d_mass b) (d_time a - d_time b) (d_charge a - d_charge b) (d_temp a - d_temp b).
Declare Scope dims_scope.
Delimit Scope dims_scope with dims.
Infix "*" := dtimes : dims_scope.
Infix "/" := dover : dims_scope.
Definition dimensionless := mkDims 0 0 0 0 0.
Definition a_length := mkDims 1 0 0 0 0.
Definition a_mass := mkDims 0 1 0 0 0.
Definition a_time := mkDims 0 0 1 0 0.
Definition a_charge := mkDims 0 0 0 1 0.
Definition a_temperature := mkDims 0 0 0 0 1.
Definition area := (a_length * a_length)%dims.
Definition speed := (a_length / a_time)%dims.
Definition energy := (a_mass * (speed * speed))%dims.

Section SpecUnits.
Context {N : Num}.
(** The child [name] is there and is [c] in the SI unit [u]. *)
Definition child (k : kids N) (name : string) (u : dims) (c : N) : Prop := k name = Some (mkQty c u).
Definition threshold_child (k : kids N) (t : option (quantity N)) : Prop :=
  match t with
  | None => k "threshold" = None
  | Some (QEnergy e) => child k "threshold" energy e
  | Some (QVelocity v) => child k "threshold" speed v
  end.
Definition row_says (r : qty N * qty N) (x : quantity N * N) : Prop :=
  snd r = mkQty (snd x) area /\
  match fst x with QEnergy e => fst r = mkQty e energy | QVelocity v => fst r = mkQty v speed end.
Definition shell_says (m_e : N) (k : kids N) (p : lotzPar N) : Prop :=
  child k "P" energy (lz_P p) /\ child k "q" dimensionless (lz_q p) /\ child k "a" (area * (energy * energy))%dims (lz_a p) /\
  child k "b" dimensionless (lz_b p) /\ child k "c" dimensionless (lz_c p) /\ lz_beta p = ndiv m_e (nmul n2 (lz_P p)).

(** What a cross_section element says, by its @model. *)
Inductive says (tgamma : N -> N) (m_e : N) (x : xs_xml N) : string -> xs_doc N -> Prop :=
| says_constant v t : child (xx_kids x) "value" area v -> threshold_child (xx_kids x) t ->
    says tgamma m_e x "constant" (DConstant v t)
| says_inverse v t : child (xx_kids x) "value_vref" (area * speed)%dims v -> threshold_child (xx_kids x) t ->
    says tgamma m_e x "inverse" (DInverse v t)
| says_log A B t : child (xx_kids x) "A" area A -> child (xx_kids x) "B" area B -> threshold_child (xx_kids x) t ->
    says tgamma m_e x "log" (DLog A B t)
| says_vhs i t : child (xx_kids x) "value" area (vhs_cs i) -> child (xx_kids x) "T_ref" a_temperature (vhs_Tref i) ->
    child (xx_kids x) "visc_T_law" dimensionless (vhs_visc i) -> threshold_child (xx_kids x) t ->
    vhs_ginv i = ndiv n1 (tgamma (nsub (nquot 5 2) (vhs_visc i))) ->
    says tgamma m_e x "vhs" (DVHS i t)
| says_data rows : List.Forall2 row_says (xx_rows x) rows -> says tgamma m_e x "data" (DData rows)
| says_lotz ps : List.Forall2 (shell_says m_e) (xx_shells x) ps -> says tgamma m_e x "lotz" (DLotz ps).

Definition kind_label (d : xs_doc N) : string :=
  match d with
  | DConstant _ _ => "constant" | DInverse _ _ => "inverse" | DLog _ _ _ => "log"
  | DVHS _ _ => "vhs" | DData _ => "data" | DLotz _ => "lotz"
  end.
Definition known_label (l : string) : Prop := In l ["vhs"; "log"; "data"; "lotz"; "inverse"; "constant"].

(** A <Particle> element. *)
Definition or_zero (k : kids N) (name : string) (u : dims) (c : N) : Prop :=
  child k name u c \/ k name = None /\ c = n0.
Definition particle_says (name : option string) (k : kids N) (p : prop N) : Prop :=
  name = Some (pr_name p) /\ or_zero k "mass" a_mass (pr_mass p) /\ or_zero k "charge" a_charge (pr_charge p).
End SpecUnits.

Local Open Scope R_scope.
(** Collision energy at a relative speed. *)
Definition collision_energy (mu : reducedMass RNum) (v : R) : R := rm_value mu * v ^ 2 / 2.
(** A threshold in either form, as an energy. *)
Definition threshold_energy (mu : reducedMass RNum) (t : option (quantity RNum)) : R :=
  match t with None => 0 | Some (QEnergy e) => e | Some (QVelocity v) => collision_energy mu v end.
(** Two ways of writing the same thing. *)
Definition same_point (mu : reducedMass RNum) (q q' : quantity RNum) : Prop :=
  match q, q' with
  | QEnergy e, QVelocity v | QVelocity v, QEnergy e => 0 <= v /\ e = collision_energy mu v
  | QEnergy e, QEnergy e' => e = e'
  | QVelocity v, QVelocity v' => v = v'
  end.

Inductive same_doc (mu : reducedMass RNum) : xs_doc RNum -> xs_doc RNum -> Prop :=
| same_constant v t t' : threshold_energy mu t = threshold_energy mu t' -> same_doc mu (DConstant v t) (DConstant v t')
| same_inverse v t t' : threshold_energy mu t = threshold_energy mu t' -> same_doc mu (DInverse v t) (DInverse v t')
| same_log A B t t' : threshold_energy mu t = threshold_energy mu t' -> same_doc mu (DLog A B t) (DLog A B t')
| same_vhs i t t' : threshold_energy mu t = threshold_energy mu t' -> same_doc mu (DVHS i t) (DVHS i t')
| same_data rows rows' : List.Forall2 (fun r r' => same_point mu (fst r) (fst r') /\ snd r = snd r') rows rows' ->
    same_doc mu (DData rows) (DData rows')
| same_lotz ps : same_doc mu (DLotz ps) (DLotz ps).
