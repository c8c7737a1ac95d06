(** Specification vocabulary for the runtime database. *)
From Coq Require Import String Ascii List ZArith Bool Sorted Permutation.
From Verif Require Import Base Num ModelTerm ModelCollide ModelXsec ModelSet ModelEq ModelFilter ModelDB
  SpecEq SpecFilter.
From Coq Require Import List.
Import ListNotations.

(** [r] is [l] with some elements left out. *)
Inductive subseq {A} : list A -> list A -> Prop :=
| sub_nil : subseq [] []
| sub_skip x r l : subseq r l -> subseq r (x :: l)
| sub_keep x r l : subseq r l -> subseq (x :: r) (x :: l).

Section S.
Context {N : Num}.
Notation P := (prop N).

Definition unique_names (props : list P) : Prop := NoDup (map (pr_name (N:=N)) props).
(** The first definition of a name in a list of species. *)
Definition first_def (l : list P) (p : P) : Prop :=
  exists l1 l2, l = l1 ++ p :: l2 /\ forall q, In q l1 -> pr_name q <> pr_name p.

(** Names that the textual queries handle. *)
Definition plain_name (s : string) : Prop := s <> ""%string /\ ~ has_char ":" s.
Definition plain_names (props : list P) (doc : list (xinter N)) : Prop :=
  (forall p, In p props -> plain_name (pr_name p)) /\
  (forall x t, In x doc -> In t (xi_out x) -> plain_name (x_P t)).

(** A single particle of a species: no multiplicity or 1. *)
Definition single (name : string) (t : xterm) : Prop :=
  x_P t = name /\ (x_n t = None \/ x_n t = Some 1%Z).
(** The reactants are written as the pair: one term with n = 2, or two single terms. *)
Definition written_as (A B : nat) (nA nB : string) (xin : list xterm) : Prop :=
  (A = B -> exists t, xin = [t] /\ x_P t = nA /\ x_n t = Some 2%Z) /\
  (A <> B -> exists t u, Permutation xin [t; u] /\ single nA t /\ single nB u).
(** The interactions of the document that belong to a pair. *)
Definition belongs (props : list P) (A B : nat) (x : xinter N) : Prop :=
  xi_cs x <> None /\
  (exists pA pB, nth_error props A = Some pA /\ nth_error props B = Some pB /\
     written_as A B (pr_name pA) (pr_name pB) (xi_in x)) /\
  xi_out x <> [] /\ List.Forall (known props) (xi_out x).

(** ** Missing elastic cross sections *)
Definition first_elastic (l : list (equation N)) (q : equation N) : Prop :=
  exists l1 l2, l = l1 ++ q :: l2 /\ eq_isElastic q = true /\ forall u, In u l1 -> eq_isElastic u = false.
(** Every pair of species has its set. *)
Definition complete (n : nat) (s : sets N) : Prop :=
  forall i j, i < n -> j < n -> exists l, cell_get s i j = Ok l.
(** The elastic equations of like pairs are written in single terms of the species. *)
Definition like_plain (n : nat) (s : sets N) : Prop :=
  forall i l q, i < n -> cell_get s i i = Ok l -> In q l -> eq_isElastic q = true ->
    e_A (q_core q) = term_sp (Z.of_nat i) /\ e_B (q_core q) = term_sp (Z.of_nat i).
(** The speeds with which a table can be built. *)
Definition speeds_set (vmax dv : N) : Prop := nltb n0 vmax = true /\ nltb n0 dv = true.
(** The speeds in force: given ones, else the database's defaults, else 1% steps. *)
Definition speeds (dvmax ddv vmax dv v d : N) : Prop :=
  (nleb vmax n0 = false -> v = vmax) /\ (nleb vmax n0 = true -> v = dvmax) /\
  (nltb n0 v = true -> nleb dv n0 = false -> d = dv) /\
  (nltb n0 v = true -> nleb dv n0 = true -> nleb ddv n0 = false -> d = ddv) /\
  (nltb n0 v = true -> nleb dv n0 = true -> nleb ddv n0 = true -> d = ndiv v (ofZ 100)) /\
  (nltb n0 v = false -> d = dv).
Definition both_easy (qi qj : equation N) : Prop :=
  easy_label (xs_label (q_cs qi)) = true /\ easy_label (xs_label (q_cs qj)) = true.
(** A pair that lacks an elastic equation which can be made from its like pairs. *)
Definition missing (vmax dv : N) (s : sets N) (a b : nat) : Prop :=
  exists l la lb qa qb, cell_get s a b = Ok l /\ cell_get s a a = Ok la /\ cell_get s b b = Ok lb /\
    (forall q, In q l -> eq_isElastic q = false) /\ first_elastic la qa /\ first_elastic lb qb /\
    (both_easy qa qb \/ speeds_set vmax dv).
(** A pair is requested by the arguments [i], [j], where negative means all. *)
Definition covers (i : Z) (a : nat) : Prop := (i < 0)%Z \/ i = Z.of_nat a.
Definition asked (i j : Z) (a b : nat) : Prop := (covers i a /\ covers j b) \/ (covers i b /\ covers j a).
(** The average of two cross sections. *)
Definition average_of (K_B : N) (fuel : nat) (allowed : bool) (vmax dv : N) (c0 c1 : xsec N) (mu : reducedMass N) (c : xsec N) : Prop :=
  (easy_label (xs_label c0) = true /\ easy_label (xs_label c1) = true /\ c = XAvgEasy c0 c1) \/
  (speeds_set vmax dv /\ avg_diameters K_B fuel allowed c0 c1 vmax dv mu = Ok c).
(** The equation made for the pair: x + y -> x + y, the lighter first. *)
Definition made (K_B : N) (fuel : nat) (allowed : bool) (vmax dv : N) (props : list P) (s : sets N) (a b : nat) (q : equation N) : Prop :=
  exists x y px py mu ca cb la lb qa qb,
    ((x = a /\ y = b) \/ (x = b /\ y = a)) /\
    nth_error props x = Some px /\ nth_error props y = Some py /\
    (nleb (pr_mass px) (pr_mass py) = true \/ nleb (pr_mass py) (pr_mass px) = false) /\
    mu = ReducedMass (pr_mass px) (pr_mass py) /\
    q_core q = mkEq (mkInput (term_sp (Z.of_nat x)) (term_sp (Z.of_nat y)))
                    [term_sp (Z.of_nat x); term_sp (Z.of_nat y)] mu /\
    q_model q = MElastic mu /\
    cell_get s a a = Ok la /\ cell_get s b b = Ok lb /\ first_elastic la qa /\ first_elastic lb qb /\
    ((ca = q_cs qa /\ cb = q_cs qb) \/ (ca = q_cs qb /\ cb = q_cs qa)) /\
    average_of K_B fuel allowed vmax dv ca cb mu (q_cs q).
End S.
