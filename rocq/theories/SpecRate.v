(** Specification vocabulary: averages over the random draws of a run. *)
From Coq Require Import Reals List ZArith.
From Coquelicot Require Import Coquelicot.
From Verif Require Import Base Num ModelTerm ModelCollide ModelXsec ModelSet SpecPhys SpecXsec SpecSet.
From Coq Require Import List.
Import ListNotations.
Local Open Scope R_scope.

(** [a] is the average of [F] over independent uniform values of the [m] draws number k, k+1,
    ...; the other draws are those of [u]. *)
Definition redraw (u : nat -> R) (k : nat) (x : R) : nat -> R := fun i => if Nat.eqb i k then x else u i.
Fixpoint average_is (m k : nat) (F : (nat -> R) -> R) (u : nat -> R) (a : R) : Prop :=
  match m with
  | O => F u = a
  | S m => exists f : R -> R, (forall x, 0 < x < 1 -> average_is m (S k) F (redraw u k x) (f x)) /\ is_RInt f 0 1 a
  end.

(** Draws strictly between 0 and 1; the generator that gives them. *)
Definition inner (u : nat -> R) : Prop := forall i, 0 < u i < 1.
Definition drawn (u : nat -> R) : rng RNum := mkRng (N:=RNum) u u.

(** How often an entry occurs in the log of a run; how many tests of a pair there are. *)
Definition entry_dec : forall a b : nat * nat * (nat * nat) * Z, {a = b} + {a <> b}.
Proof. repeat decide equality. Defined.
Definition occurrences (e : nat * nat * (nat * nat) * Z) (o : outcome (dstate RNum)) : R :=
  match o with Ok s => INR (count_occ entry_dec (s_log s) e) | _ => 0 end.
Definition tests_of (A B : nat) (o : outcome (dstate RNum)) : R :=
  match o with Ok s => INR (tested A B s) | _ => 0 end.

(** A model that never fails out of place and always uses [d] draws. *)
Definition uses (d : nat) (m : imodel RNum) : Prop :=
  forall p q l g k, exists a b l', model_interact false m p q l g k = Ok (a, b, l', (k + d)%nat).

(** A cell and database in which every test is defined: ranges lie in the storage and do not
    overlap; species with equations have particles, channels have non-negative cross sections
    at the speeds that occur and models that do not fail; weights, volume and time step are
    positive. *)
Definition testable (K dt : R) (c : cell RNum) (nprops : nat) (db : nat -> nat -> list (equation RNum)) : Prop :=
  0 <= dt /\ 0 < c_volume c /\ disjoint (c_ranges c) /\ bounded (2 ^ 31) (c_ranges c) /\
  (forall A r, nth_error (c_ranges c) A = Some r -> (snd r <= length (c_mem c))%nat) /\
  List.Forall (fun p => 0 < p_weight p) (c_mem c) /\
  forall A B, (A <= B < Nat.min (length (c_ranges c)) nprops)%nat -> db A B <> [] ->
    (forall r, nth_error (c_ranges c) A = Some r \/ nth_error (c_ranges c) B = Some r -> (0 < rsize r)%nat) /\
    (exists msv, findMaxSigmaVProduct (N:=RNum) K (db A B) (c_maxv c A B) = Ok msv /\ 0 <= msv) /\
    List.Forall (fun e => exists d, uses d (q_model e)) (db A B) /\
    forall p q, In p (c_mem c) -> In q (c_mem c) -> exists cs,
      channels K (db A B) (relspeed (p_vel p) (p_vel q)) cs /\ List.Forall (fun s => 0 <= s) cs.

(** [e] is the expected value of [F fuel] when all draws are independent and uniform: the
    averages over more and more draws are eventually constant, and that constant tends to [e]
    as the fuel (the number of redraws of a particle that was drawn twice) grows. *)
Definition expected (k : nat) (F : nat -> (nat -> R) -> R) (e : R) : Prop :=
  forall eps, 0 < eps -> exists f0, forall fuel, (f0 <= fuel)%nat -> exists M0 a,
    (forall M u, (M0 <= M)%nat -> inner u -> average_is M k (F fuel) u a) /\ Rabs (a - e) <= eps.
(** The same without limit: the averages are equal to [e] for all sufficient fuel. *)
Definition expected_exactly (k : nat) (F : nat -> (nat -> R) -> R) (e : R) : Prop :=
  exists f0, forall fuel, (f0 <= fuel)%nat -> exists M0,
    forall M u, (M0 <= M)%nat -> inner u -> average_is M k (F fuel) u e.
(** How often positions i and j were tested. *)
Definition pair_tests (A B i j : nat) (o : outcome (dstate RNum)) : R :=
  match o with
  | Ok s => INR (length (filter (fun e => if entry_dec (fst e, 0%Z) (A, B, (i, j), 0%Z) then true else false) (s_log s)))
  | _ => 0
  end.
