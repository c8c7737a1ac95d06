(** C105: runs whose estimate of the number of tests is not a number. *)
From Coq Require Import Reals Lia ZArith Arith Bool List String.
From Flocq Require Import Core.Core IEEE754.BinarySingleNaN.
From Verif Require Import Base Num ModelTerm ModelEq ModelCollide ModelXsec ModelSet SpecPhys SpecSet SpecNan SpecIdle
  ProofIdle Properties1 Properties3.
From Coq Require Import List.
Import ListNotations.

(** [pa] and [pb] are the first particles of the ranges of species [A] and [B]. If one of
    them has weight zero and the other's is not negative, or any factor of the estimate is
    NaN, the two species are not tested, whatever the other particles' weights. *)
Theorem C105_skipped : forall lm (K : F64 lm) fuel inplace dt (c : cell (F64 lm)) nprops db res er g k s A B ra rb pa pb msv,
  driver K fuel inplace dt c nprops db res er g k = Ok s ->
  nth_error (c_ranges c) A = Some ra -> nth_error (c_ranges c) B = Some rb ->
  nth_error (c_mem c) (fst ra) = Some pa -> nth_error (c_mem c) (fst rb) = Some pb ->
  findMaxSigmaVProduct K (db A B) (c_maxv c A B) = Ok msv ->
  spoiled dt (c_volume c) msv (p_weight pa) (p_weight pb) -> ~ In (A, B) (tested_pairs (s_log s)).
Proof. exact @run_skips. Qed.
Print Assumptions C105_skipped.
(** With a NaN time step or volume a run changes nothing. *)
Theorem C105_idle : forall lm (K : F64 lm) fuel inplace dt (c : cell (F64 lm)) nprops db res er g k s, nan dt \/ nan (c_volume c) ->
  driver K fuel inplace dt c nprops db res er g k = Ok s ->
  s_mem s = c_mem c /\ s_ranges s = c_ranges c /\ s_res s = res /\ s_erase s = er /\ s_log s = [].
Proof. exact @run_idle. Qed.
Print Assumptions C105_idle.

(** The cell of C42, where both pairs are tested; then the first particle of species 1 has
    weight zero: only 0 + 0 is tested. If it is the first of species 0, nothing is; if it is
    the second of species 0, everything is. *)
Definition unweighted (p : particle F) : particle F := mkParticle (N:=F) (p_pos p) (p_vel p) (p_species p) (fofZ 0).
Definition wcell (n : nat) : cell F :=
  mkCell (N:=F) (firstn n fmem ++ map unweighted (firstn 1 (skipn n fmem)) ++ skipn (S n) fmem) [(0, 3); (3, 5)]%nat (fofZ 8) (fun _ _ => fofZ 5).
Definition wrun (dt : F) (n : nat) := driver (N:=F) (fofZ 1) 20 false dt (wcell n) 2 fdbe [] [] fG2 0.
Definition pair_dec (x y : nat * nat) : {x = y} + {x <> y}.
Proof. decide equality; apply Nat.eq_dec. Defined.
Definition pairs_of (o : outcome (dstate F)) : list (nat * nat) := nodup pair_dec (tested_pairs (run_log o)).
Definition firstw (n k : nat) : bool := match nth_error (c_mem (wcell n)) k with Some p => match (p_weight p : binary64) with B754_zero _ => true | _ => false end | None => false end.
Example C105_case :
  map (fun n => loads (wrun (fofZ 1) n)) [0; 1; 3; 5]%nat = [true; true; true; true] /\
  map (fun n => pairs_of (wrun (fofZ 1) n)) [0; 1; 3; 5]%nat = [[]; [(0, 0); (0, 1)]; [(0, 0)]; [(0, 0); (0, 1)]]%nat /\
  map (fun n => map (firstw n) [0; 1; 2; 3; 4]%nat) [0; 1; 3; 5]%nat =
    [[true; false; false; false; false]; [false; true; false; false; false]; [false; false; false; true; false]; [false; false; false; false; false]] /\
  loads (wrun (B754_nan : binary64) 5) = true /\ pairs_of (wrun (B754_nan : binary64) 5) = [].
Proof. repeat split; vm_compute; reflexivity. Qed.
(** The hypotheses of [C105_skipped] in that cell, species 0 and 1. *)
Example C105_skipped_case :
  loads (findMaxSigmaVProduct (N:=F) (fofZ 1) (fdbe 0 1) (c_maxv (wcell 3) 0%nat 1%nat)) = true /\ firstw 3 3 = true /\
  forall msv : binary64, spoiled (fofZ 1) (c_volume (wcell 3)) msv (p_weight (fp 0 5 0)) (p_weight (unweighted (fp 3 0 1))).
Proof.
  split; [vm_compute; reflexivity|]. split; [vm_compute; reflexivity|]. intros msv. do 6 right. split; [exists false; reflexivity|]. unfold fnonneg. vm_compute. reflexivity.
Qed.
