(** Specification vocabulary: documents whose interactions load. *)
From Coq Require Import Reals ZArith String Permutation List.
From Verif Require Import Base Num ModelTerm ModelCollide ModelXsec ModelSet ModelEq ModelFilter ModelDB SpecPhys SpecXsec SpecSet SpecEq SpecInit.
From Coq Require Import List.
Import ListNotations.
Local Open Scope R_scope.

(** The charge that a list of species gives to a name. *)
Definition charge_named (props : list (prop RNum)) (n : string) : R :=
  match find (fun p => String.eqb n (pr_name p)) props with Some p => pr_charge p | None => 0 end.

(** Products, one name per particle. *)
Definition products (x : xinter RNum) : list string := expand_names (xi_out x).
Definition reactants (x : xinter RNum) : list string := expand_names (xi_in x).

(** The total charge vanishes before the reaction iff it vanishes afterwards; otherwise the
    centre of charge of the reactants is not the number that the code uses for 'nowhere'. *)
Definition charges_agree (nowhere : R) (props : list (prop RNum)) (x : xinter RNum) : Prop :=
  forall a b, Permutation [a; b] (reactants x) ->
  let qa := charge_named props a in let qb := charge_named props b in
  (qa + qb = 0 <-> total_named (charge_named props) (xi_out x) = 0) /\
  (qa + qb <> 0 -> Rabs (qb - qa) <> nowhere * Rabs (qa + qb)).
(** With three products: the heaviest one has neither reactant's mass. *)
Definition third_differs (props : list (prop RNum)) (x : xinter RNum) : Prop :=
  length (products x) = 3%nat -> forall n a, In n (products x) -> In a (reactants x) ->
  (forall n', In n' (products x) -> mass_named props n' <= mass_named props n) -> mass_named props n <> mass_named props a.
(** A reaction whose products can be given places. *)
Definition placeable (nowhere : R) (props : list (prop RNum)) (x : xinter RNum) : Prop :=
  (length (products x) = 2 \/ length (products x) = 3)%nat ->
  List.Forall (fun t => (xt_from t < 4)%Z) (xi_out x) /\ charges_agree nowhere props x /\ third_differs props x.
(** A known model label, with its parameter. *)
Definition model_known (x : xinter RNum) : Prop :=
  match xi_model x with
  | None => True
  | Some l => l = "elastic"%string \/ l = "inelastic"%string \/ (l = "vss_elastic"%string /\ xi_vss x <> None)
  end.
(** A cross section of a known class that loads for every pair of particles. *)
Definition label_of (d : xs_doc RNum) : string :=
  match d with
  | DConstant _ _ => "constant" | DInverse _ _ => "inverse" | DLog _ _ _ => "log" | DVHS _ _ => "vhs"
  | DData _ => "data" | DLotz _ => "lotz"
  end.
Definition cs_loads (load : reducedMass RNum -> xs_doc RNum -> outcome (xsec RNum)) (x : xinter RNum) : Prop :=
  exists d, xi_cs x = Some (Some (label_of d), d) /\
  forall m1 m2, 0 < m1 -> 0 < m2 -> exists c, load (ReducedMass (N:=RNum) m1 m2) d = Ok c.
(** No negative multiplicities. *)
Definition loadable (nowhere : R) load (props : list (prop RNum)) (x : xinter RNum) : Prop :=
  nonneg (xi_out x) /\ plain_products x /\ model_known x /\ cs_loads load x /\ placeable nowhere props x.
