(** The data shipped with the library: data/standard/particles.xml (all <Particle> elements)
    and data/standard/interactions.xml (all <Interaction> elements), as the loaders see them.
    Generated from the files.

    Not fixed here: the values of the physical constants ([val], by name), the reciprocal of
    the gamma function ([ginv]), the ancestors of the elements ([path]) and their text
    ([text]), which only filters look at.  The expressions of the files (2*element::F::mass +
    m_e, 0.2910*eV, 540*nm^2, ...) are read as real arithmetic in SI units. *)
From Coq Require Import Reals Qreals ZArith QArith String List.
From Verif Require Import Base Num ModelTerm ModelCollide ModelXsec ModelSet ModelEq ModelFilter ModelShippedTables.
From Coq Require Import List.
Import ListNotations.
Local Open Scope string_scope.
Local Open Scope list_scope.
Local Open Scope Z_scope.

(** A <Particle>: mass as a sum of integer multiples of named constants, charge as a multiple
    of e.  No <mass> means 0 (property/mass.h 37). *)
Record ship_particle := mkSP { sp_name : string; sp_mass : list (Z * string); sp_charge : Z }.
(** A <cross_section>. *)
Inductive ship_cs :=
| SNone                                         (* no <cross_section> child *)
| SData (rows : list (Q * Q))                   (* energies in eV, values in m^2 *)
| SVHS (value : (string -> R) -> R) (T_ref visc : Q)
| SConstant (value : Q)
| SInverse (value : Q)
| SLog (A B : Q)
| SLotz (pars : list (Q * Q * Q * Q * Q)).      (* P in eV, q, a in m^2 eV^2, b, c *)
(** An <Interaction>: <Eq>, <cross_section>, <KineticEnergyChange> in eV.  No element has a
    'model' attribute or 'ops'. *)
Record ship_inter := mkSI { si_in : list xterm; si_out : list xterm; si_cs : ship_cs; si_kec : option Q }.

Definition t1 (name : string) : xterm := mkXT name None None None.
Definition t2 (name : string) : xterm := mkXT name (Some 2) None None.
Definition tf (name : string) (from : Z) : xterm := mkXT name None (Some from) None.

(** data/standard/particles.xml 13-566. *)
Definition shipped_particles : list ship_particle := [
  mkSP "87Rb" [(87, "amu")] 0;
  mkSP "85Rb" [(85, "amu")] 0;
  mkSP "Ar" [(1, "element::Ar::mass")] 0;
  mkSP "e^-" [(1, "m_e")] (-1);
  mkSP "e^+" [(1, "m_e")] 1;
  mkSP "Ar*" [(1, "element::Ar::mass")] 0;
  mkSP "Ar^+" [(1, "element::Ar::mass"); ((-1), "m_e")] 1;
  mkSP "CF2" [(1, "element::C::mass"); (2, "element::F::mass")] 0;
  mkSP "CF2^-" [(1, "element::C::mass"); (2, "element::F::mass"); (1, "m_e")] (-1);
  mkSP "CF4" [(1, "element::C::mass"); (4, "element::F::mass")] 0;
  mkSP "CF4^+" [(1, "element::C::mass"); (4, "element::F::mass"); ((-1), "m_e")] 1;
  mkSP "CF4(0.08eV)" [(1, "element::C::mass"); (4, "element::F::mass")] 0;
  mkSP "CF4(0.166eV)" [(1, "element::C::mass"); (4, "element::F::mass")] 0;
  mkSP "CF4(7.57eV)" [(1, "element::C::mass"); (4, "element::F::mass")] 0;
  mkSP "Cl" [(1, "element::Cl::mass")] 0;
  mkSP "Cl^-" [(1, "element::Cl::mass"); (1, "m_e")] (-1);
  mkSP "Cl2" [(2, "element::Cl::mass")] 0;
  mkSP "Cl2^+" [(2, "element::Cl::mass"); ((-1), "m_e")] 1;
  mkSP "Cl2(b1-c2)" [(2, "element::Cl::mass")] 0;
  mkSP "Cl2(B3)" [(2, "element::Cl::mass")] 0;
  mkSP "Cl2(C1)" [(2, "element::Cl::mass")] 0;
  mkSP "Cl2(vib)" [(2, "element::Cl::mass")] 0;
  mkSP "CO" [(1, "element::C::mass"); (1, "element::O::mass")] 0;
  mkSP "CO2" [(1, "element::C::mass"); (2, "element::O::mass")] 0;
  mkSP "CO2^+" [(1, "element::C::mass"); (2, "element::O::mass"); ((-1), "m_e")] 1;
  mkSP "CO2(0.083eV)" [(1, "element::C::mass"); (2, "element::O::mass")] 0;
  mkSP "CO2(0.167eV)" [(1, "element::C::mass"); (2, "element::O::mass")] 0;
  mkSP "CO2(0.252eV)" [(1, "element::C::mass"); (2, "element::O::mass")] 0;
  mkSP "CO2(0.291eV)" [(1, "element::C::mass"); (2, "element::O::mass")] 0;
  mkSP "CO2(0.339eV)" [(1, "element::C::mass"); (2, "element::O::mass")] 0;
  mkSP "CO2(0.422eV)" [(1, "element::C::mass"); (2, "element::O::mass")] 0;
  mkSP "CO2(0.505eV)" [(1, "element::C::mass"); (2, "element::O::mass")] 0;
  mkSP "CO2(10.5eV)" [(1, "element::C::mass"); (2, "element::O::mass")] 0;
  mkSP "CO2(2.5eV)" [(1, "element::C::mass"); (2, "element::O::mass")] 0;
  mkSP "CO2(7.0eV)" [(1, "element::C::mass"); (2, "element::O::mass")] 0;
  mkSP "Cu" [(1, "element::Cu::mass")] 0;
  mkSP "Cu^+" [(1, "element::Cu::mass"); ((-1), "m_e")] 1;
  mkSP "F" [(1, "element::F::mass")] 0;
  mkSP "F^-" [(1, "element::F::mass"); (1, "m_e")] (-1);
  mkSP "F2" [(2, "element::F::mass")] 0;
  mkSP "F2^+" [(2, "element::F::mass"); ((-1), "m_e")] 1;
  mkSP "F2(A1)" [(2, "element::F::mass")] 0;
  mkSP "F2(a3)" [(2, "element::F::mass")] 0;
  mkSP "F2(C1)" [(2, "element::F::mass")] 0;
  mkSP "F2(H1)" [(2, "element::F::mass")] 0;
  mkSP "F2(v1)" [(2, "element::F::mass")] 0;
  mkSP "F2(v2)" [(2, "element::F::mass")] 0;
  mkSP "F2(v3)" [(2, "element::F::mass")] 0;
  mkSP "F2(v4)" [(2, "element::F::mass")] 0;
  mkSP "H" [(1, "element::H::mass")] 0;
  mkSP "H^-" [(1, "element::H::mass"); (1, "m_e")] (-1);
  mkSP "H(n=2)" [(1, "element::H::mass")] 0;
  mkSP "H(n=3)" [(1, "element::H::mass")] 0;
  mkSP "H2" [(2, "element::H::mass")] 0;
  mkSP "H2^+" [(2, "element::H::mass"); ((-1), "m_e")] 1;
  mkSP "H2(a3)" [(2, "element::H::mass")] 0;
  mkSP "H2(B1)" [(2, "element::H::mass")] 0;
  mkSP "H2(b3)" [(2, "element::H::mass")] 0;
  mkSP "H2(C1)" [(2, "element::H::mass")] 0;
  mkSP "H2(c3)" [(2, "element::H::mass")] 0;
  mkSP "H2(d3)" [(2, "element::H::mass")] 0;
  mkSP "H2(j0-2)" [(2, "element::H::mass")] 0;
  mkSP "H2(j1-3)" [(2, "element::H::mass")] 0;
  mkSP "H2(SUM_OF_RYDBERG_STATES)" [(2, "element::H::mass")] 0;
  mkSP "H2(v1)" [(2, "element::H::mass")] 0;
  mkSP "H2(v2)" [(2, "element::H::mass")] 0;
  mkSP "H2(v3)" [(2, "element::H::mass")] 0;
  mkSP "HCl" [(1, "element::H::mass"); (1, "element::Cl::mass")] 0;
  mkSP "HCl^+" [(1, "element::H::mass"); (1, "element::Cl::mass"); ((-1), "m_e")] 1;
  mkSP "HCl(A1)" [(1, "element::H::mass"); (1, "element::Cl::mass")] 0;
  mkSP "HCl(B1-C1)" [(1, "element::H::mass"); (1, "element::Cl::mass")] 0;
  mkSP "HCl(v1)" [(1, "element::H::mass"); (1, "element::Cl::mass")] 0;
  mkSP "HCl(v2)" [(1, "element::H::mass"); (1, "element::Cl::mass")] 0;
  mkSP "He" [(1, "element::He::mass")] 0;
  mkSP "He^+" [(1, "element::He::mass"); ((-1), "m_e")] 1;
  mkSP "He(19.82eV)" [(1, "element::He::mass")] 0;
  mkSP "Hg" [(1, "element::Hg::mass")] 0;
  mkSP "Hg^+" [(1, "element::Hg::mass"); ((-1), "m_e")] 1;
  mkSP "Hg(6-3P0)" [(1, "element::Hg::mass")] 0;
  mkSP "Hg(6-3P1)" [(1, "element::Hg::mass")] 0;
  mkSP "Hg(6-3P2)" [(1, "element::Hg::mass")] 0;
  mkSP "Hg(7-3S1)" [(1, "element::Hg::mass")] 0;
  mkSP "Kr" [(1, "element::Kr::mass")] 0;
  mkSP "Kr^+" [(1, "element::Kr::mass"); ((-1), "m_e")] 1;
  mkSP "Kr(11.0eV)" [(1, "element::Kr::mass")] 0;
  mkSP "Kr(9.5eV)" [(1, "element::Kr::mass")] 0;
  mkSP "Kr(a10.0eV)" [(1, "element::Kr::mass")] 0;
  mkSP "Kr(b10.0eV)" [(1, "element::Kr::mass")] 0;
  mkSP "Kr(c10.0eV)" [(1, "element::Kr::mass")] 0;
  mkSP "N2" [(2, "element::N::mass")] 0;
  mkSP "N2^+" [(2, "element::N::mass"); ((-1), "m_e")] 1;
  mkSP "N2(a--1)" [(2, "element::N::mass")] 0;
  mkSP "N2(a-1)" [(2, "element::N::mass")] 0;
  mkSP "N2(a1)" [(2, "element::N::mass")] 0;
  mkSP "N2(A3,v0-4)" [(2, "element::N::mass")] 0;
  mkSP "N2(A3,v10-)" [(2, "element::N::mass")] 0;
  mkSP "N2(A3,v5-9)" [(2, "element::N::mass")] 0;
  mkSP "N2(B-3)" [(2, "element::N::mass")] 0;
  mkSP "N2(B3)" [(2, "element::N::mass")] 0;
  mkSP "N2(C3)" [(2, "element::N::mass")] 0;
  mkSP "N2(E3)" [(2, "element::N::mass")] 0;
  mkSP "N2(rot)" [(2, "element::N::mass")] 0;
  mkSP "N2(SUM_OF_SINGLET_STATES)" [(2, "element::N::mass")] 0;
  mkSP "N2(v1)" [(2, "element::N::mass")] 0;
  mkSP "N2(v1res)" [(2, "element::N::mass")] 0;
  mkSP "N2(v2)" [(2, "element::N::mass")] 0;
  mkSP "N2(v3)" [(2, "element::N::mass")] 0;
  mkSP "N2(v4)" [(2, "element::N::mass")] 0;
  mkSP "N2(v5)" [(2, "element::N::mass")] 0;
  mkSP "N2(v6)" [(2, "element::N::mass")] 0;
  mkSP "N2(v7)" [(2, "element::N::mass")] 0;
  mkSP "N2(v8)" [(2, "element::N::mass")] 0;
  mkSP "N2(w1)" [(2, "element::N::mass")] 0;
  mkSP "N2(w3)" [(2, "element::N::mass")] 0;
  mkSP "Ne" [(1, "element::Ne::mass")] 0;
  mkSP "Ne^+" [(1, "element::Ne::mass"); ((-1), "m_e")] 1;
  mkSP "Ne(1P1)" [(1, "element::Ne::mass")] 0;
  mkSP "Ne(2P)" [(1, "element::Ne::mass")] 0;
  mkSP "Ne(2S+3D)" [(1, "element::Ne::mass")] 0;
  mkSP "Ne(3P)" [(1, "element::Ne::mass")] 0;
  mkSP "Ne(3P1)" [(1, "element::Ne::mass")] 0;
  mkSP "Ne(3P2)" [(1, "element::Ne::mass")] 0;
  mkSP "O" [(1, "element::O::mass")] 0;
  mkSP "O^-" [(1, "element::O::mass"); (1, "m_e")] (-1);
  mkSP "O2" [(2, "element::O::mass")] 0;
  mkSP "O2^-" [(2, "element::O::mass"); (1, "m_e")] (-1);
  mkSP "O2^+" [(2, "element::O::mass"); ((-1), "m_e")] 1;
  mkSP "O2(4.5eV)" [(2, "element::O::mass")] 0;
  mkSP "O2(6.0eV)" [(2, "element::O::mass")] 0;
  mkSP "O2(8.4eV)" [(2, "element::O::mass")] 0;
  mkSP "O2(9.97eV)" [(2, "element::O::mass")] 0;
  mkSP "O2(a1)" [(2, "element::O::mass")] 0;
  mkSP "O2(b1)" [(2, "element::O::mass")] 0;
  mkSP "O2(rot)" [(2, "element::O::mass")] 0;
  mkSP "O2(v1)" [(2, "element::O::mass")] 0;
  mkSP "O2(v1res)" [(2, "element::O::mass")] 0;
  mkSP "O2(v2)" [(2, "element::O::mass")] 0;
  mkSP "O2(v2res)" [(2, "element::O::mass")] 0;
  mkSP "O2(v3)" [(2, "element::O::mass")] 0;
  mkSP "O2(v4)" [(2, "element::O::mass")] 0;
  mkSP "O3P" [(3, "element::O::mass"); (1, "element::P::mass")] 0;
  mkSP "O3P^+" [(3, "element::O::mass"); (1, "element::P::mass"); ((-1), "m_e")] 1;
  mkSP "photon+" [] 0;
  mkSP "SF4^-" [(1, "element::S::mass"); (4, "element::F::mass"); (1, "m_e")] (-1);
  mkSP "SF5^-" [(1, "element::S::mass"); (5, "element::F::mass"); (1, "m_e")] (-1);
  mkSP "SF6" [(1, "element::S::mass"); (6, "element::F::mass")] 0;
  mkSP "SF6^-" [(1, "element::S::mass"); (6, "element::F::mass"); (1, "m_e")] (-1);
  mkSP "SF6^+" [(1, "element::S::mass"); (6, "element::F::mass"); ((-1), "m_e")] 1;
  mkSP "SF6(0.095eV)" [(1, "element::S::mass"); (6, "element::F::mass")] 0;
  mkSP "SF6(10.0eV)" [(1, "element::S::mass"); (6, "element::F::mass")] 0;
  mkSP "SF6(11.7eV)" [(1, "element::S::mass"); (6, "element::F::mass")] 0;
  mkSP "SF6(15.0eV)" [(1, "element::S::mass"); (6, "element::F::mass")] 0;
  mkSP "SiH2^-" [(1, "element::Si::mass"); (2, "element::H::mass"); (1, "m_e")] (-1);
  mkSP "SiH4" [(1, "element::Si::mass"); (4, "element::H::mass")] 0;
  mkSP "SiH4^+" [(1, "element::Si::mass"); (4, "element::H::mass"); ((-1), "m_e")] 1;
  mkSP "SiH4(0.113eV)" [(1, "element::Si::mass"); (4, "element::H::mass")] 0;
  mkSP "SiH4(0.27eV)" [(1, "element::Si::mass"); (4, "element::H::mass")] 0;
  mkSP "SiH4(7.8eV)" [(1, "element::Si::mass"); (4, "element::H::mass")] 0;
  mkSP "SiH4(8.4eV)" [(1, "element::Si::mass"); (4, "element::H::mass")] 0;
  mkSP "Xe" [(1, "element::Xe::mass")] 0;
  mkSP "Xe^+" [(1, "element::Xe::mass"); ((-1), "m_e")] 1;
  mkSP "Xe(11.7eV)" [(1, "element::Xe::mass")] 0;
  mkSP "Xe(1s3-1s2-2p)" [(1, "element::Xe::mass")] 0;
  mkSP "Xe(1s4)" [(1, "element::Xe::mass")] 0;
  mkSP "Xe(1s5)" [(1, "element::Xe::mass")] 0;
  mkSP "Xe(2p-)" [(1, "element::Xe::mass")] 0;
  mkSP "Xe(2s-3d)" [(1, "element::Xe::mass")] 0].

(** data/standard/interactions.xml 81-5429. *)
Definition shipped_interactions : list ship_inter := [
  mkSI [t2 "87Rb"] [t2 "87Rb"] (SVHS (fun _ => 540 * / 10 ^ 18)%R (dec 25 (-6)) (dec 75 (-2))) None;
  mkSI [t2 "85Rb"] [t2 "85Rb"] (SVHS (fun val => 8 * PI * (100 * val "a_0") ^ 2)%R (dec 18 (-6)) (dec 75 (-2))) None;
  mkSI [t2 "Ar"] [t2 "Ar"] (SVHS (fun _ => PI * (417 * / 10 ^ 12) ^ 2)%R (dec 273 0) (dec 81 (-2))) None;
  mkSI [t1 "photon"; t1 "87Rb |1,m>"] [t1 "photon"; t1 "87Rb |2,m>"] SNone None;
  mkSI [t1 "photon"; t1 "85Rb |2,m>"] [t1 "photon"; t1 "85Rb |3,m>"] SNone None;
  mkSI [t1 "e^-"; t1 "O3P"] [t2 "e^-"; t1 "O3P^+"] (SData tab5) None;
  mkSI [t1 "e^-"; t1 "O3P"] [t1 "e^-"; t1 "O3P"] (SData tab6) None;
  mkSI [t1 "e^-"; t1 "N2"] [t1 "e^-"; t1 "N2"] (SData tab7) None;
  mkSI [t1 "e^-"; t1 "N2"] [t1 "e^-"; t1 "N2(rot)"] (SData tab8) None;
  mkSI [t1 "e^-"; t1 "N2"] [t1 "e^-"; t1 "N2(v1res)"] (SData tab9) None;
  mkSI [t1 "e^-"; t1 "N2"] [t1 "e^-"; t1 "N2(v1)"] (SData tab10) (Some (dec 291 (-3)));
  mkSI [t1 "e^-"; t1 "N2"] [t1 "e^-"; t1 "N2(v2)"] (SData tab11) (Some (dec 59 (-2)));
  mkSI [t1 "e^-"; t1 "N2"] [t1 "e^-"; t1 "N2(v3)"] (SData tab12) (Some (dec 88 (-2)));
  mkSI [t1 "e^-"; t1 "N2"] [t1 "e^-"; t1 "N2(v4)"] (SData tab13) (Some (dec 117 (-2)));
  mkSI [t1 "e^-"; t1 "N2"] [t1 "e^-"; t1 "N2(v5)"] (SData tab14) (Some (dec 147 (-2)));
  mkSI [t1 "e^-"; t1 "N2"] [t1 "e^-"; t1 "N2(v6)"] (SData tab15) (Some (dec 176 (-2)));
  mkSI [t1 "e^-"; t1 "N2"] [t1 "e^-"; t1 "N2(v7)"] (SData tab16) (Some (dec 206 (-2)));
  mkSI [t1 "e^-"; t1 "N2"] [t1 "e^-"; t1 "N2(v8)"] (SData tab17) (Some (dec 235 (-2)));
  mkSI [t1 "e^-"; t1 "N2"] [t1 "e^-"; t1 "N2(A3,v0-4)"] (SData tab18) None;
  mkSI [t1 "e^-"; t1 "N2"] [t1 "e^-"; t1 "N2(A3,v5-9)"] (SData tab19) None;
  mkSI [t1 "e^-"; t1 "N2"] [t1 "e^-"; t1 "N2(B3)"] (SData tab20) None;
  mkSI [t1 "e^-"; t1 "N2"] [t1 "e^-"; t1 "N2(w3)"] (SData tab21) None;
  mkSI [t1 "e^-"; t1 "N2"] [t1 "e^-"; t1 "N2(A3,v10-)"] (SData tab22) None;
  mkSI [t1 "e^-"; t1 "N2"] [t1 "e^-"; t1 "N2(B-3)"] (SData tab23) None;
  mkSI [t1 "e^-"; t1 "N2"] [t1 "e^-"; t1 "N2(a-1)"] (SData tab24) None;
  mkSI [t1 "e^-"; t1 "N2"] [t1 "e^-"; t1 "N2(a1)"] (SData tab25) None;
  mkSI [t1 "e^-"; t1 "N2"] [t1 "e^-"; t1 "N2(w1)"] (SData tab26) None;
  mkSI [t1 "e^-"; t1 "N2"] [t1 "e^-"; t1 "N2(C3)"] (SData tab27) None;
  mkSI [t1 "e^-"; t1 "N2"] [t1 "e^-"; t1 "N2(E3)"] (SData tab28) None;
  mkSI [t1 "e^-"; t1 "N2"] [t1 "e^-"; t1 "N2(a--1)"] (SData tab29) None;
  mkSI [t1 "e^-"; t1 "N2"] [t1 "e^-"; t1 "N2(SUM_OF_SINGLET_STATES)"] (SData tab30) None;
  mkSI [t1 "e^-"; t1 "N2"] [t2 "e^-"; t1 "N2^+"] (SData tab31) None;
  mkSI [t1 "e^-"; t1 "O2"] [t1 "e^-"; t1 "O2"] SNone None;
  mkSI [t1 "e^-"; t2 "O2"] [t1 "O2"; t1 "O2^-"] (SData tab33) None;
  mkSI [t1 "e^-"; t1 "O2"] [t1 "O"; t1 "O^-"] (SData tab34) None;
  mkSI [t1 "e^-"; t1 "O2"] [t1 "e^-"; t1 "O2(rot)"] (SData tab35) (Some (dec 2 (-2)));
  mkSI [t1 "e^-"; t1 "O2"] [t1 "e^-"; t1 "O2(v1res)"] (SData tab36) (Some (dec 19 (-2)));
  mkSI [t1 "e^-"; t1 "O2"] [t1 "e^-"; t1 "O2(v1)"] (SData tab37) (Some (dec 19 (-2)));
  mkSI [t1 "e^-"; t1 "O2"] [t1 "e^-"; t1 "O2(v2)"] (SData tab38) (Some (dec 38 (-2)));
  mkSI [t1 "e^-"; t1 "O2"] [t1 "e^-"; t1 "O2(v2res)"] (SData tab39) (Some (dec 38 (-2)));
  mkSI [t1 "e^-"; t1 "O2"] [t1 "e^-"; t1 "O2(v3)"] (SData tab40) (Some (dec 57 (-2)));
  mkSI [t1 "e^-"; t1 "O2"] [t1 "e^-"; t1 "O2(v4)"] (SData tab41) (Some (dec 75 (-2)));
  mkSI [t1 "e^-"; t1 "O2"] [t1 "e^-"; t1 "O2(a1)"] (SData tab42) None;
  mkSI [t1 "e^-"; t1 "O2"] [t1 "e^-"; t1 "O2(b1)"] (SData tab43) None;
  mkSI [t1 "e^-"; t1 "O2"] [t1 "e^-"; t1 "O2(4.5eV)"] (SData tab44) None;
  mkSI [t1 "e^-"; t1 "O2"] [t1 "e^-"; t1 "O2(6.0eV)"] (SData tab45) None;
  mkSI [t1 "e^-"; t1 "O2"] [t1 "e^-"; t1 "O2(8.4eV)"] (SData tab46) None;
  mkSI [t1 "e^-"; t1 "O2"] [t1 "e^-"; t1 "O2(9.97eV)"] (SData tab47) None;
  mkSI [t1 "e^-"; t1 "O2"] [t2 "e^-"; t1 "O2^+"] (SData tab48) None;
  mkSI [t1 "e^-"; t1 "H2"] [t1 "e^-"; t1 "H2"] SNone None;
  mkSI [t1 "e^-"; t1 "H2"] [t1 "e^-"; t1 "H2(j0-2)"] (SData tab50) None;
  mkSI [t1 "e^-"; t1 "H2"] [t1 "e^-"; t1 "H2(j1-3)"] (SData tab51) None;
  mkSI [t1 "e^-"; t1 "H2"] [t1 "e^-"; t1 "H2(v1)"] (SData tab52) None;
  mkSI [t1 "e^-"; t1 "H2"] [t1 "e^-"; t1 "H2(v2)"] (SData tab53) (Some (dec 1 0));
  mkSI [t1 "e^-"; t1 "H2"] [t1 "e^-"; t1 "H2(v3)"] (SData tab54) None;
  mkSI [t1 "e^-"; t1 "H2"] [t1 "e^-"; t1 "H2(b3)"] (SData tab55) None;
  mkSI [t1 "e^-"; t1 "H2"] [t1 "e^-"; t1 "H2(B1)"] (SData tab56) None;
  mkSI [t1 "e^-"; t1 "H2"] [t1 "e^-"; t1 "H2(c3)"] (SData tab57) None;
  mkSI [t1 "e^-"; t1 "H2"] [t1 "e^-"; t1 "H2(a3)"] (SData tab58) None;
  mkSI [t1 "e^-"; t1 "H2"] [t1 "e^-"; t1 "H2(C1)"] (SData tab59) None;
  mkSI [t1 "e^-"; t1 "H2"] [t1 "e^-"; t1 "H2(d3)"] (SData tab60) None;
  mkSI [t1 "e^-"; t1 "H2"] [t1 "e^-"; t1 "H"; t1 "H(n=2)"] (SData tab61) (Some (dec 15 0));
  mkSI [t1 "e^-"; t1 "H2"] [t1 "e^-"; t1 "H2(SUM_OF_RYDBERG_STATES)"] (SData tab62) (Some (dec 152 (-1)));
  mkSI [t1 "e^-"; t1 "H2"] [t2 "e^-"; t1 "H2^+"] (SData tab63) None;
  mkSI [t1 "e^-"; t1 "H2"] [t1 "e^-"; t1 "H"; t1 "H(n=3)"] (SData tab64) None;
  mkSI [t1 "e^-"; t1 "Cl2"] [t1 "e^-"; t1 "Cl2"] SNone None;
  mkSI [t1 "e^-"; t1 "Cl2"] [t1 "e^-"; t1 "Cl2(vib)"] (SData tab66) None;
  mkSI [t1 "e^-"; t1 "Cl2"] [t1 "e^-"; t1 "Cl2(B3)"] (SData tab67) None;
  mkSI [t1 "e^-"; t1 "Cl2"] [t1 "e^-"; t1 "Cl2(C1)"] (SData tab68) None;
  mkSI [t1 "e^-"; t1 "Cl2"] [t1 "e^-"; t1 "Cl2(b1-c1)"] (SData tab69) None;
  mkSI [t1 "e^-"; t1 "Cl2"] [t1 "Cl"; t1 "Cl^-"] (SData tab70) None;
  mkSI [t1 "e^-"; t1 "Cl2"] [t2 "e^-"; t1 "Cl2^+"] (SData tab71) (Some (dec 1148 (-2)));
  mkSI [t1 "e^-"; t1 "F2"] [t1 "e^-"; t1 "F2"] SNone None;
  mkSI [t1 "e^-"; t1 "F2"] [t1 "e^-"; t1 "F2(v1)"] (SData tab73) None;
  mkSI [t1 "e^-"; t1 "F2"] [t1 "e^-"; t1 "F2(v2)"] (SData tab74) None;
  mkSI [t1 "e^-"; t1 "F2"] [t1 "e^-"; t1 "F2(v3)"] (SData tab75) (Some (dec 324 (-3)));
  mkSI [t1 "e^-"; t1 "F2"] [t1 "e^-"; t1 "F2(v4)"] (SData tab76) None;
  mkSI [t1 "e^-"; t1 "F2"] [t1 "e^-"; t1 "F2(a3)"] (SData tab77) None;
  mkSI [t1 "e^-"; t1 "F2"] [t1 "e^-"; t1 "F2(A1)"] (SData tab78) None;
  mkSI [t1 "e^-"; t1 "F2"] [t1 "e^-"; t1 "F2(C1)"] (SData tab79) None;
  mkSI [t1 "e^-"; t1 "F2"] [t1 "e^-"; t1 "F2(H1)"] (SData tab80) None;
  mkSI [t1 "e^-"; t1 "F2"] [t2 "e^-"; t1 "F2^+"] (SData tab81) None;
  mkSI [t1 "e^-"; t1 "F2"] [t1 "F"; t1 "F^-"] (SData tab82) None;
  mkSI [t1 "e^-"; t1 "HCl"] [t1 "e^-"; t1 "HCl"] SNone None;
  mkSI [t1 "e^-"; t1 "HCl"] [t1 "e^-"; t1 "HCl(v1)"] (SData tab84) None;
  mkSI [t1 "e^-"; t1 "HCl"] [t1 "e^-"; t1 "HCl(v2)"] (SData tab85) None;
  mkSI [t1 "e^-"; t1 "HCl"] [t1 "e^-"; t1 "HCl(A1)"] (SData tab86) None;
  mkSI [t1 "e^-"; t1 "HCl"] [t1 "e^-"; t1 "HCl(B1-C1)"] (SData tab87) None;
  mkSI [t1 "e^-"; t1 "HCl"] [t1 "H"; t1 "Cl^-"] (SData tab88) (Some (dec 201 (-3)));
  mkSI [t1 "e^-"; t1 "HCl"] [t1 "H^-"; t1 "Cl"] (SData tab89) None;
  mkSI [t1 "e^-"; t1 "HCl"] [t2 "e^-"; t1 "HCl^+"] (SData tab90) None;
  mkSI [t1 "e^-"; t1 "CF4"] [t1 "e^-"; t1 "CF4"] (SData tab91) None;
  mkSI [t1 "e^-"; t1 "CF4"] [t1 "e^-"; t1 "CF4(0.08eV)"] (SData tab92) None;
  mkSI [t1 "e^-"; t1 "CF4"] [t1 "e^-"; t1 "CF4(0.166eV)"] (SData tab93) None;
  mkSI [t1 "e^-"; t1 "CF4"] [t1 "F2"; t1 "CF2^-"] (SData tab94) None;
  mkSI [t1 "e^-"; t1 "CF4"] [t1 "e^-"; t1 "CF4(7.57eV)"] (SData tab95) None;
  mkSI [t1 "e^-"; t1 "CF4"] [t1 "e^-"; t1 "F2"; t1 "CF2"] (SData tab96) None;
  mkSI [t1 "e^-"; t1 "CF4"] [t2 "e^-"; t1 "CF4^+"] (SData tab97) None;
  mkSI [t1 "e^-"; t1 "SiH4"] [t1 "e^-"; t1 "SiH4"] (SData tab98) None;
  mkSI [t1 "e^-"; t1 "SiH4"] [t1 "e^-"; t1 "SiH4(0.113eV)"] (SData tab99) None;
  mkSI [t1 "e^-"; t1 "SiH4"] [t1 "e^-"; t1 "SiH4(0.27eV)"] (SData tab100) None;
  mkSI [t1 "e^-"; t1 "SiH4"] [t1 "e^-"; t1 "SiH4(7.8eV)"] (SData tab101) None;
  mkSI [t1 "e^-"; t1 "SiH4"] [t1 "e^-"; t1 "SiH4(8.4eV)"] (SData tab102) None;
  mkSI [t1 "e^-"; t1 "SiH4"] [t1 "H2"; t1 "SiH2^-"] (SData tab103) None;
  mkSI [t1 "e^-"; t1 "SiH4"] [t2 "e^-"; t1 "SiH4^+"] (SData tab104) None;
  mkSI [t1 "e^-"; t1 "SF6"] [t1 "e^-"; t1 "SF6"] SNone None;
  mkSI [t1 "e^-"; t1 "SF6"] [t1 "e^-"; t1 "SF6(0.095eV)"] (SData tab106) None;
  mkSI [t1 "e^-"; t1 "SF6"] [t1 "e^-"; t1 "SF6(10.0eV)"] (SData tab107) None;
  mkSI [t1 "e^-"; t1 "SF6"] [t1 "e^-"; t1 "SF6(11.7eV)"] (SData tab108) None;
  mkSI [t1 "e^-"; t1 "SF6"] [t1 "e^-"; t1 "SF6(15.0eV)"] (SData tab109) None;
  mkSI [t1 "e^-"; t1 "SF6"] [t2 "e^-"; t1 "SF6^+"] (SData tab110) None;
  mkSI [t1 "e^-"; t1 "SF6"] [t1 "SF6^-"] (SData tab111) None;
  mkSI [t1 "e^-"; t1 "SF6"] [t1 "F"; t1 "SF5^-"] (SData tab112) None;
  mkSI [t1 "e^-"; t1 "SF6"] [t1 "F2"; t1 "SF4^-"] (SData tab113) None;
  mkSI [t1 "e^-"; t1 "He"] [t1 "e^-"; t1 "He"] SNone None;
  mkSI [t1 "e^-"; t1 "He"] [t1 "e^-"; t1 "He(19.82eV)"] (SData tab115) None;
  mkSI [t1 "e^-"; t1 "He"] [t2 "e^-"; t1 "He^+"] (SData tab116) None;
  mkSI [t1 "e^-"; t1 "Ne"] [t1 "e^-"; t1 "Ne"] (SData tab117) None;
  mkSI [t1 "e^-"; t1 "Ne"] [t1 "e^-"; t1 "Ne(3P2)"] (SData tab118) None;
  mkSI [t1 "e^-"; t1 "Ne"] [t1 "e^-"; t1 "Ne(3P1)"] (SData tab119) None;
  mkSI [t1 "e^-"; t1 "Ne"] [t1 "e^-"; t1 "Ne(1P1)"] (SData tab120) None;
  mkSI [t1 "e^-"; t1 "Ne"] [t1 "e^-"; t1 "Ne(2P)"] (SData tab121) None;
  mkSI [t1 "e^-"; t1 "Ne"] [t1 "e^-"; t1 "Ne(2S+3D)"] (SData tab122) None;
  mkSI [t1 "e^-"; t1 "Ne"] [t1 "e^-"; t1 "Ne(3P)"] (SData tab123) None;
  mkSI [t1 "e^-"; t1 "Ne(3P2)"] [t2 "e^-"; t1 "Ne^+"] (SData tab124) None;
  mkSI [t1 "e^-"; t1 "Ne"] [t2 "e^-"; t1 "Ne^+"] (SData tab125) None;
  mkSI [t1 "e^-"; t1 "Ar"] [t1 "e^-"; t1 "Ar"] (SData tab126) None;
  mkSI [t1 "e^-"; t1 "Ar"] [t1 "e^-"; t1 "Ar*"] (SData tab127) None;
  mkSI [t1 "e^-"; t1 "Ar"] [t2 "e^-"; t1 "Ar^+"] (SData tab128) None;
  mkSI [t1 "e^-"; t1 "Kr"] [t1 "e^-"; t1 "Kr"] (SData tab129) None;
  mkSI [t1 "e^-"; t1 "Kr"] [t1 "e^-"; t1 "Kr(9.5eV)"] (SData tab130) None;
  mkSI [t1 "e^-"; t1 "Kr"] [t1 "e^-"; t1 "Kr(a10.0eV)"] (SData tab131) None;
  mkSI [t1 "e^-"; t1 "Kr"] [t1 "e^-"; t1 "Kr(b10.0eV)"] (SData tab132) None;
  mkSI [t1 "e^-"; t1 "Kr"] [t1 "e^-"; t1 "Kr(c10.0eV)"] (SData tab133) None;
  mkSI [t1 "e^-"; t1 "Kr"] [t1 "e^-"; t1 "Kr(11.0eV)"] (SData tab134) None;
  mkSI [t1 "e^-"; t1 "Kr"] [t2 "e^-"; t1 "Kr^+"] (SData tab135) None;
  mkSI [t1 "e^-"; t1 "Xe"] [t1 "e^-"; t1 "Xe"] (SData tab136) None;
  mkSI [t1 "e^-"; t1 "Xe"] [t1 "e^-"; t1 "Xe(1s5)"] (SData tab137) None;
  mkSI [t1 "e^-"; t1 "Xe"] [t1 "e^-"; t1 "Xe(1s4)"] (SData tab138) None;
  mkSI [t1 "e^-"; t1 "Xe"] [t1 "e^-"; t1 "Xe(1s3-1s2-2p)"] (SData tab139) None;
  mkSI [t1 "e^-"; t1 "Xe"] [t1 "e^-"; t1 "Xe(2s-3d)"] (SData tab140) None;
  mkSI [t1 "e^-"; t1 "Xe"] [t1 "e^-"; t1 "Xe(2p-)"] (SData tab141) None;
  mkSI [t1 "e^-"; t1 "Xe"] [t1 "e^-"; t1 "Xe(11.7eV)"] (SData tab142) None;
  mkSI [t1 "e^-"; t1 "Xe(1s5)"] [t2 "e^-"; t1 "Xe^+"] (SData tab143) None;
  mkSI [t1 "e^-"; t1 "Xe"] [t2 "e^-"; t1 "Xe^+"] (SData tab144) None;
  mkSI [t1 "e^-"; t1 "CO2"] [t1 "e^-"; t1 "CO2"] (SData tab145) None;
  mkSI [t1 "e^-"; t1 "CO2"] [t1 "e^-"; t1 "CO2(0.083eV)"] (SData tab146) None;
  mkSI [t1 "e^-"; t1 "CO2"] [t1 "e^-"; t1 "CO2(0.167eV)"] (SData tab147) None;
  mkSI [t1 "e^-"; t1 "CO2"] [t1 "e^-"; t1 "CO2(0.291eV)"] (SData tab148) None;
  mkSI [t1 "e^-"; t1 "CO2"] [t1 "e^-"; t1 "CO2(0.339eV)"] (SData tab149) (Some (dec 339 (-3)));
  mkSI [t1 "e^-"; t1 "CO2"] [t1 "e^-"; t1 "CO2(0.252eV)"] (SData tab150) (Some (dec 252 (-3)));
  mkSI [t1 "e^-"; t1 "CO2"] [t1 "e^-"; t1 "CO2(0.422eV)"] (SData tab151) (Some (dec 422 (-3)));
  mkSI [t1 "e^-"; t1 "CO2"] [t1 "e^-"; t1 "CO2(0.505eV)"] (SData tab152) (Some (dec 505 (-3)));
  mkSI [t1 "e^-"; t1 "CO2"] [t1 "e^-"; t1 "CO2(2.5eV)"] (SData tab153) None;
  mkSI [t1 "e^-"; t1 "CO2"] [t1 "e^-"; t1 "CO2(7.0eV)"] (SData tab154) None;
  mkSI [t1 "e^-"; t1 "CO2"] [t1 "e^-"; t1 "CO2(10.5eV)"] (SData tab155) None;
  mkSI [t1 "e^-"; t1 "CO2"] [t2 "e^-"; t1 "CO2^+"] (SData tab156) None;
  mkSI [t1 "e^-"; t1 "CO2"] [t1 "O^-"; t1 "CO"] (SData tab157) None;
  mkSI [t1 "e^-"; t1 "Hg"] [t1 "e^-"; t1 "Hg"] (SConstant (dec 6 (-20))) None;
  mkSI [t1 "e^-"; t1 "Hg"] [t1 "e^-"; t1 "Hg(6-3P0)"] (SData tab159) None;
  mkSI [t1 "e^-"; t1 "Hg"] [t1 "e^-"; t1 "Hg(6-3P1)"] (SData tab160) None;
  mkSI [t1 "e^-"; t1 "Hg"] [t1 "e^-"; t1 "Hg(6-3P2)"] (SData tab161) None;
  mkSI [t1 "e^-"; t1 "Hg"] [t1 "e^-"; t1 "Hg(7-3S1)"] (SData tab162) None;
  mkSI [t1 "e^-"; t1 "Hg"] [t2 "e^-"; t1 "Hg^+"] (SData tab163) None;
  mkSI [t1 "e^-"; t1 "Cu"] [t2 "e^-"; t1 "Cu^+"] (SLotz [(dec 773 (-2), dec 1 0, dec 4 (-18), dec 0 0, dec 0 0); (dec 104 (-1), dec 1 1, dec 22 (-19), dec 95 (-2), dec 16 (-2)); (dec 8 1, dec 6 0, dec 4 (-18), dec 6 (-1), dec 4 (-1))]) None;
  mkSI [t1 "Xe^+"; t1 "Xe"] [tf "Xe^+" 1; tf "Xe" 0] (SLog (dec 17123 (-22)) (dec 272 (-21))) None;
  mkSI [t1 "Xe^+"; t1 "Xe"] [t1 "Xe^+"; t1 "Xe"] (SInverse (dec 212 (-20))) None].

(** ** What the loaders make of it *)
Section Loaded.
Local Open Scope R_scope.
Variables (val : string -> R) (ginv : R -> R).
Definition linear (l : list (Z * string)) : R := fold_right (fun t s => IZR (fst t) * val (snd t) + s) 0 l.
Definition shipped_prop (p : ship_particle) : prop RNum :=
  mkProp (N:=RNum) (sp_name p) (linear (sp_mass p)) (IZR (sp_charge p) * val "e")%R.
(** RuntimeDB.cpp 61-95: the label and the contents of a cross section. *)
Definition shipped_cs (c : ship_cs) : option (option string * xs_doc RNum) :=
  match c with
  | SNone => None
  | SData rows => Some (Some "data", DData (N:=RNum) (map (fun r => (QEnergy (N:=RNum) (Q2R (fst r) * val "eV")%R, Q2R (snd r))) rows))
  | SVHS v T w => Some (Some "vhs", DVHS (N:=RNum) (mkVHS (N:=RNum) (v val) (Q2R T) (Q2R w) (ginv (5 / 2 - Q2R w)%R)) None)
  | SConstant v => Some (Some "constant", DConstant (N:=RNum) (Q2R v) None)
  | SInverse v => Some (Some "inverse", DInverse (N:=RNum) (Q2R v) None)
  | SLog A B => Some (Some "log", DLog (N:=RNum) (Q2R A) (Q2R B) None)
  | SLotz ps => Some (Some "lotz", DLotz (N:=RNum) (map (fun r => let '(P, q, a, b, c) := r in
      lotz_parse (N:=RNum) (val "m_e") (Q2R P * val "eV")%R (Q2R q) (Q2R a * val "eV" ^ 2)%R (Q2R b) (Q2R c)) ps))
  end.
Variables (path : nat -> list string) (text : nat -> string * string).
Definition shipped_x (k : nat) (i : ship_inter) : xinter RNum :=
  mkXI (N:=RNum) k (path k) (si_in i) (si_out i) (fst (text k)) (snd (text k)) (shipped_cs (si_cs i)) None
    (match si_kec i with Some q => Some (Q2R q * val "eV")%R | None => None end) None.
Definition shipped_doc : list (xinter RNum) :=
  map (fun ki => shipped_x (fst ki) (snd ki)) (combine (seq 0 (length shipped_interactions)) shipped_interactions).
End Loaded.
