(** Physical quantities, defined directly on real components (independent of the
    model's vector helpers), and membership predicates used in statements. *)
From Coq Require Import Reals List ZArith.
From Verif Require Import Base Num ModelTerm ModelCollide SpecTerm.
Import ListNotations.
Local Open Scope R_scope.

Definition rvec := vec RNum.
Definition rpart := particle RNum.

(** m1*v1 + m2*v2, componentwise. *)
Definition momentum2 (m1 : R) (v1 : rvec) (m2 : R) (v2 : rvec) : R * R * R :=
  (m1 * vx v1 + m2 * vx v2, m1 * vy v1 + m2 * vy v2, m1 * vz v1 + m2 * vz v2).
Definition momentum3 (m1 : R) (v1 : rvec) (m2 : R) (v2 : rvec) (m3 : R) (v3 : rvec) : R * R * R :=
  (m1 * vx v1 + m2 * vx v2 + m3 * vx v3, m1 * vy v1 + m2 * vy v2 + m3 * vy v3,
   m1 * vz v1 + m2 * vz v2 + m3 * vz v3).
Definition scale3 (c : R) (p : R * R * R) : R * R * R :=
  let '(x, y, z) := p in (c * x, c * y, c * z).

Definition norm2 (v : rvec) : R := vx v ^ 2 + vy v ^ 2 + vz v ^ 2.
Definition dist2 (v w : rvec) : R := (vx v - vx w) ^ 2 + (vy v - vy w) ^ 2 + (vz v - vz w) ^ 2.
Definition dot3 (v w : rvec) : R := vx v * vx w + vy v * vy w + vz v * vz w.
Definition kinetic (m : R) (v : rvec) : R := m / 2 * norm2 v.
(** Relative speed. *)
Definition relspeed (v w : rvec) : R := R_sqrt.sqrt (dist2 v w).

(** Relative velocity of two particles. *)
Definition relvel (p q : rpart) : rvec :=
  V3 (N:=RNum) (vx (p_vel p) - vx (p_vel q))%R (vy (p_vel p) - vy (p_vel q))%R (vz (p_vel p) - vz (p_vel q))%R.

(** Two particles agree in everything but velocity. *)
Definition same_but_velocity (p q : rpart) : Prop :=
  p_pos p = p_pos q /\ p_species p = p_species q /\ p_weight p = p_weight q.

(** A real generator: rand() in [0,1], randExc() in [0,1). *)
Definition rng_ok (g : rng RNum) : Prop :=
  forall k, 0 <= g_rand g k <= 1 /\ 0 <= g_exc g k < 1.

(** Species of the products, one entry per copy, in declared order. *)
Definition expand_species (l : list term) : list Z :=
  concat (map (fun t => repeat (t_species t) (Z.to_nat (t_n t))) l).

(** [e] is an equation A + B -> products whose species have the given positive
    masses in the database, with the reduced mass the loader computes. *)
Definition reaction {N : Num} (pos : N -> Prop) (db : Z -> outcome (N * N)) (e : eqcore N)
  (mA mB : N) (ms : list N) : Prop :=
  (exists qA, db (t_species (e_A e)) = Ok (mA, qA)) /\
  (exists qB, db (t_species (e_B e)) = Ok (mB, qB)) /\
  e_mu e = ReducedMass mA mB /\
  terms_ok (e_products e) /\
  Forall2 (fun s m => exists q, db s = Ok (m, q)) (expand_species (e_products e)) ms /\
  pos mA /\ pos mB /\ Forall pos ms.
