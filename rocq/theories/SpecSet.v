(** Specifications for interaction sets, pair selection and the driver. *)
From Coq Require Import Reals List ZArith.
From Flocq Require Import IEEE754.BinarySingleNaN.
From Verif Require Import Base Num ModelTerm ModelCollide ModelXsec ModelSet SpecXsec.
Import ListNotations.
Local Open Scope R_scope.

Fixpoint Rsum (l : list R) : R := match l with [] => 0 | x :: l => x + Rsum l end.

(** [cs] are the cross sections of the channels at speed [v]. *)
Definition channels (K : R) (rhs : list (equation RNum)) (v : R) (cs : list R) : Prop :=
  Forall2 (fun e s => sigma_is K (q_cs e) v s) rhs cs.

(** Sum of the first [j] cross sections relative to the total: the end points of the
    channels' selection intervals. *)
Definition frac (cs : list R) (j : nat) : R := Rsum (firstn j cs) / Rsum cs.

(** Non-negative (possibly infinite) binary64 numbers. *)
Definition fnonneg (x : binary64) : Prop := Bleb (fofZ 0) x = true.
(** A binary64 generator as documented: rand() in [0,1], randExc() in [0,1). *)
Definition frng_ok {lm} (g : rng (F64 lm)) : Prop :=
  forall k, fnonneg (g_rand g k) /\ Bleb (g_rand g k) (fofZ 1) = true /\
            fnonneg (g_exc g k) /\ Bltb (g_exc g k) (fofZ 1) = true.

(** Smallest positive normal binary64 number. *)
Definition fmin_normal : binary64 := binary_normalize fprec femax fprec_gt_0 fprec_lt_emax mode_NE 1 (-1022) false.

(** Positions of a range. *)
Definition in_range (i : nat) (r : range) : Prop := (fst r <= i < snd r)%nat.

(** Documents for which a threshold is meaningful: speeds are not negative, Lotz shells
    have positive beta (there is at least one). *)
Definition doc_ok (d : xs_doc RNum) : Prop :=
  match d with
  | DData rows => Forall (fun r => match fst r with QVelocity v => 0 <= v | QEnergy _ => True end) rows
  | DLotz ps => ps <> [] /\ Forall (fun p => 0 < lz_beta p) ps
  | _ => True
  end.
(** What is assumed of the bracketing root finder: the end points stay in the bracket. *)
Definition solver_in_bracket (solve : (R -> R) -> R -> R -> R * R) : Prop :=
  forall f a b, a <= b -> a <= snd (solve f a b) <= b.

(** The two particles in species order. *)
Definition low (pA pB : particle RNum) := if (p_species pB <? p_species pA)%Z then pB else pA.
Definition high (pA pB : particle RNum) := if (p_species pB <? p_species pA)%Z then pA else pB.

(** ** Driver *)
(** Particles suffice for another test of species A and B. *)
Definition enough (A B : nat) (rs : list range) : Prop :=
  exists ra rb, nth_error rs A = Some ra /\ nth_error rs B = Some rb /\
    (if Nat.eqb A B then 2 <= rsize ra else 1 <= rsize ra /\ 1 <= rsize rb)%nat.

(** The no-time-counter estimate. *)
Definition ntc (same : bool) (wA wB : R) (nA nB : nat) (dt msv vol : R) : R :=
  Rmax wA wB * INR nA * INR nB * dt * msv / vol / (if same then 2 else 1).

(** Number of tests recorded for the pair (A,B). *)
Definition tested {N : Num} (A B : nat) (s : dstate N) : nat :=
  length (filter (fun e => Nat.eqb (fst (fst (fst e))) A && Nat.eqb (snd (fst (fst e))) B)%bool (s_log s)).

(** Particles at the positions of a range other than the positions [xs]. *)
Definition others {N : Num} (mem : list (particle N)) (r : range) (xs : list nat) : list (option (particle N)) :=
  map (nth_error mem) (filter (fun p => negb (existsb (Nat.eqb p) xs)) (seq (fst r) (rsize r))).
Definition live {N : Num} (mem : list (particle N)) (r : range) := others mem r [].

Definition disjoint (rs : list range) : Prop :=
  forall A B ra rb p, A <> B -> nth_error rs A = Some ra -> nth_error rs B = Some rb ->
    in_range p ra -> ~ in_range p rb.

(** User models that only append to the product list (what Base.h 75-82 asks for). *)
Definition appends {N : Num} (m : imodel N) : Prop :=
  match m with
  | MUser f => forall ip p q l g k a b l' k', f ip p q l g k = Ok (a, b, l', k') -> exists new, l' = l ++ new
  | _ => True
  end.

(** Random positions are sound for ranges of fewer than [bnd] particles. *)
Definition pos_ok {N : Num} (g : rng N) (bnd : Z) : Prop :=
  forall r k i, (0 < Z.of_nat (rsize r) < bnd)%Z -> rand_pos r g k = Ok i -> in_range i r.
Definition bounded (bnd : Z) (rs : list range) : Prop := List.Forall (fun r => (Z.of_nat (rsize r) < bnd)%Z) rs.

(** Pairs for which the database has equations. *)
Definition has_eqs {N : Num} (db : nat -> nat -> list (equation N)) (p : nat * nat) : bool :=
  match db (fst p) (snd p) with [] => false | _ => true end.

(** A recorded test concerns two different particles of the two species and one of the
    channels (or none). *)
Definition entry_ok {N : Num} (rs : list range) (rhs : list (equation N)) (A B : nat) (e : nat * nat * (nat * nat) * Z) : Prop :=
  exists i j path ra rb, e = (A, B, (i, j), path) /\
    nth_error rs A = Some ra /\ nth_error rs B = Some rb /\ in_range i ra /\ in_range j rb /\ i <> j /\
    (path = (-1)%Z \/ (0 <= path < Z.of_nat (length rhs))%Z).

(** The live ranges [rs] and the queued slots [q] tile the original ranges [rs0]. *)
Definition tiles (rs0 rs : list range) (q : list nat) : Prop :=
  Forall2 (fun r0 r => fst r = fst r0 /\ (fst r <= snd r <= snd r0)%nat) rs0 rs /\ NoDup q /\
  forall p, In p q <-> exists A r0 r, nth_error rs0 A = Some r0 /\ nth_error rs A = Some r /\ in_range p r0 /\ ~ in_range p r.
Definition wf_ranges (rs : list range) : Prop := List.Forall (fun r => (fst r <= snd r)%nat) rs.
Definition slots (rs : list range) : nat := list_sum (map rsize rs).

(** Channels loaded from Constant, Inverse or VHS (exponent at most 1) cross sections with
    physical parameters. *)
Definition simple_doc (mu : reducedMass RNum) (d : xs_doc RNum) : Prop :=
  match d with
  | DConstant v t => 0 <= v /\ 0 <= declared_threshold mu t
  | DInverse v t => 0 <= v /\ 0 <= declared_threshold mu t
  | DVHS i t => 0 < vhs_Tref i /\ 0 < vhs_cs i /\ 0 < vhs_ginv i /\ vhs_visc i <= 1 /\ 0 <= declared_threshold mu t
  | _ => False
  end.
Definition simple_channel (e : equation RNum) : Prop :=
  exists fuel allowed inf ninf tol solve mu d, 0 < rm_value mu /\ simple_doc mu d /\
    xs_load (N:=RNum) fuel allowed inf ninf tol solve mu d = Ok (q_cs e).

(** Draws do not stick to one position for more than [m] draws. *)
Definition fair {N : Num} (g : rng N) (r : range) (m : nat) : Prop :=
  forall k i, exists n j, (n < m)%nat /\ rand_pos r g (k + n) = Ok j /\ j <> i.

(** An equation whose cross section is defined at every speed and whose model never fails
    out of place. *)
Definition total_eq {N : Num} (K : N) (e : equation N) : Prop :=
  (forall v, exists s, sigma K (q_cs e) v = Ok s) /\
  (forall p q l g k, exists x, model_interact false (q_model e) p q l g k = Ok x).

(** Random positions exist for every non-empty range of fewer than [bnd] particles. *)
Definition pos_total {N : Num} (g : rng N) (bnd : Z) : Prop :=
  forall r k, (0 < Z.of_nat (rsize r) < bnd)%Z -> exists i, rand_pos r g k = Ok i /\ in_range i r.
(** An equation whose cross section and model have no undefined behaviour. *)
Definition safe_eq {N : Num} (K : N) (inplace : bool) (e : equation N) : Prop :=
  (forall v, sigma K (q_cs e) v <> UB) /\
  (forall p q l g k, model_interact inplace (q_model e) p q l g k <> UB).
(** Some species range the driver looks at before testing for emptiness is empty. *)
Definition empty_needed {N : Num} (db : nat -> nat -> list (equation N)) (n : nat) (rs : list range) : Prop :=
  exists A B r, (A <= B < n)%nat /\ db A B <> [] /\ (nth_error rs A = Some r \/ nth_error rs B = Some r) /\ rsize r = 0%nat.
