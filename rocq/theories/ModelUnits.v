(** Reading dimensioned quantities from XML elements: cross sections, energy changes, VSS
    parameters and particle properties. *)
From Coq Require Import String List ZArith Bool.
From Verif Require Import Base Num ModelTerm ModelCollide ModelXsec ModelEq ModelMisc.
From Coq Require Import List.
Import ListNotations.
Local Open Scope string_scope.
Local Open Scope list_scope.
Local Open Scope outcome_scope.

(** The units of a runtime::physical::Quantity (external): exponents of length, mass, time,
    charge and temperature; coefficients are SI. *)
Record dims := mkDims { d_length : Z; d_mass : Z; d_time : Z; d_charge : Z; d_temp : Z }.
Definition dims_eqb (a b : dims) : bool :=
  (d_length a =? d_length b)%Z && (d_mass a =? d_mass b)%Z && (d_time a =? d_time b)%Z &&
  (d_charge a =? d_charge b)%Z && (d_temp a =? d_temp b)%Z.
Definition u_none := mkDims 0 0 0 0 0.
Definition u_kg := mkDims 0 1 0 0 0.
Definition u_C := mkDims 0 0 0 1 0.
Definition u_K := mkDims 0 0 0 0 1.
Definition u_m2 := mkDims 2 0 0 0 0.
Definition u_m_s := mkDims 1 0 (-1) 0 0.
Definition u_m3_s := mkDims 3 0 (-1) 0 0.
Definition u_J := mkDims 2 1 (-2) 0 0.
Definition u_m2J2 := mkDims 6 2 (-4) 0 0.

Section Units.
Context {N : Num}.
Local Open Scope num_scope.
Record qty := mkQty { q_c : N; q_u : dims }.
(** The child elements of a node, evaluated by the calculator: None when there is no such
    child (several of one name are not modelled). *)
Definition kids := string -> option qty.
(** x.query<Quantity>(name).assertMatch(u).getCoeff(...) and assertUnitless(). *)
Definition getCoeff (u : dims) (q : qty) : outcome N :=
  if dims_eqb (q_u q) u then Ok (q_c q) else Throw ExnRuntime.
Definition query (k : kids) (name : string) (u : dims) : outcome N :=
  match k name with None => Throw ExnNotFound | Some q => getCoeff u q end.

(** cross_section/detail/generic.cpp 45-55: loadThreshold, the units part. *)
Definition read_threshold (k : kids) : outcome (option (quantity N)) :=
  match k "threshold" with
  | None => Ok None
  | Some q =>
      if dims_eqb (q_u q) u_m_s then Ok (Some (QVelocity (q_c q)))
      else do e <- getCoeff u_J q; Ok (Some (QEnergy e))
  end.
(** The contents of a cross_section element: child elements, data rows in the order of the
    external data_set, and the children of a Lotz parameter vector. *)
Record xs_xml := mkXX { xx_kids : kids; xx_rows : list (qty * qty); xx_shells : list kids }.

(** Constant.cpp 44-47; Constant.h 89-92. *)
Definition parse_constant (x : xs_xml) : outcome (xs_doc N) :=
  do v <- query (xx_kids x) "value" u_m2; do t <- read_threshold (xx_kids x); Ok (DConstant v t).
(** detail/InverseInfo.cpp 33-40; Inverse.h 90-95. *)
Definition parse_inverse (x : xs_xml) : outcome (xs_doc N) :=
  do v <- query (xx_kids x) "value_vref" u_m3_s; do t <- read_threshold (xx_kids x); Ok (DInverse v t).
(** detail/LogInfo.cpp 32-37; Log.h 91-96. *)
Definition parse_log (x : xs_xml) : outcome (xs_doc N) :=
  do A <- query (xx_kids x) "A" u_m2; do B <- query (xx_kids x) "B" u_m2;
  do t <- read_threshold (xx_kids x); Ok (DLog A B t).
(** detail/VHSInfo.cpp 32-40, VHSInfo.h 74-76; VHS.h 91-97.  [tgamma] is the C function. *)
Definition parse_vhs (tgamma : N -> N) (x : xs_xml) : outcome (xs_doc N) :=
  do cs <- query (xx_kids x) "value" u_m2; do T <- query (xx_kids x) "T_ref" u_K;
  do w <- query (xx_kids x) "visc_T_law" u_none;
  do t <- read_threshold (xx_kids x);
  Ok (DVHS (mkVHS cs T w (n1 / tgamma (nquot 5 2 - w))) t).
(** DATA.cpp 46-68: the units of one row. *)
Definition parse_row (r : qty * qty) : outcome (quantity N * N) :=
  do v <- (if dims_eqb (q_u (fst r)) u_J then Ok (QEnergy (q_c (fst r)))
           else do v <- getCoeff u_m_s (fst r); Ok (QVelocity v));
  do s <- getCoeff u_m2 (snd r); Ok (v, s).
Definition parse_data (x : xs_xml) : outcome (xs_doc N) :=
  do rows <- omap parse_row (xx_rows x); Ok (DData rows).
(** detail/LotzDetails.cpp 36-55. *)
Definition parse_shell (m_e : N) (k : kids) : outcome (lotzPar N) :=
  do P <- query k "P" u_J; do q <- query k "q" u_none; do a <- query k "a" u_m2J2;
  do b <- query k "b" u_none; do c <- query k "c" u_none; Ok (lotz_parse m_e P q a b c).
Definition parse_lotz (m_e : N) (x : xs_xml) : outcome (xs_doc N) :=
  do ps <- omap (parse_shell m_e) (xx_shells x); Ok (DLotz ps).

(** RuntimeDB.cpp 70-82: the registry; Equation.cpp 120-129: an unknown label throws. *)
Definition parse_xs (tgamma : N -> N) (m_e : N) (label : string) (x : xs_xml) : outcome (xs_doc N) :=
  if String.eqb label "vhs" then parse_vhs tgamma x
  else if String.eqb label "log" then parse_log x
  else if String.eqb label "data" then parse_data x
  else if String.eqb label "lotz" then parse_lotz m_e x
  else if String.eqb label "inverse" then parse_inverse x
  else if String.eqb label "constant" then parse_constant x
  else Throw ExnXml.

(** model/detail/inelastic_helpers.cpp 44-57: loadKineticEnergyChange; only a missing (or
    repeated) element counts as absent. *)
Definition read_kec (k : kids) : outcome (option N) :=
  match k "KineticEnergyChange" with None => Ok None | Some q => do e <- getCoeff u_J q; Ok (Some e) end.
(** model/detail/vss_helpers.cpp 40-44: loadVSSParamInv. *)
Definition read_vss (k : kids) : outcome N := query k "vss_param_inv" u_none.

(** property/detail/check.h 57-70, define.h 69-79, name.h 38-40, mass.h 36, charge.h 36: a
    <Particle> element; [name] is its attribute, if present. *)
Definition read_particle (name : option string) (k : kids) : outcome (prop N) :=
  do n <- prop_load true "" (option_map (fun s => Ok s) name);
  do m <- prop_load false n0 (option_map (getCoeff u_kg) (k "mass"));
  do q <- prop_load false n0 (option_map (getCoeff u_C) (k "charge"));
  Ok (mkProp n m q).
End Units.
Arguments qty N : clear implicits.
Arguments kids N : clear implicits.
Arguments xs_xml N : clear implicits.
