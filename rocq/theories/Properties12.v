(** Effective radii (C74) and pair selection from very large ranges (C75). *)
From Coq Require Import Reals Lra Lia ZArith Bool List.
From Flocq Require Import Core.Core IEEE754.BinarySingleNaN.
From Verif Require Import Base Num ModelTerm ModelCollide ModelXsec ModelSet SpecTerm SpecPhys SpecXsec SpecSet
  ProofF64 ProofCollide ProofInelastic ProofXsec ProofFloat ProofSet ProofSelect ProofData ProofBig Properties2.
From Coq Require Import List.
Import ListNotations.
Local Open Scope R_scope.

(** C74.  The effective radius is that of equal hard spheres: the cross section is the area
    of a circle of radius r + r. *)
Theorem C74_radius : forall K (c : xsec RNum) v s, sigma_is K c v s -> 0 <= s ->
  exists r, effectiveRadius (N:=RNum) K c v = Ok r /\ 0 <= r /\ PI * (r + r) ^ 2 = s.
Proof. exact radius_spec. Qed.
Print Assumptions C74_radius.
(** For unlike species the averaged cross section is the area of a circle whose radius is
    the sum of the radii of the two like-species cross sections. *)
Theorem C74_average : forall K (c0 c1 : xsec RNum) v s0 s1 r0 r1,
  sigma_is K c0 v s0 -> sigma_is K c1 v s1 -> 0 <= s0 -> 0 <= s1 ->
  effectiveRadius (N:=RNum) K c0 v = Ok r0 -> effectiveRadius (N:=RNum) K c1 v = Ok r1 ->
  sigma_is K (XAvgEasy c0 c1) v (PI * (r0 + r1) ^ 2) /\ effectiveRadius (N:=RNum) K (XAvgEasy c0 c1) v = Ok ((r0 + r1) / 2).
Proof. exact radius_easy. Qed.
Print Assumptions C74_average.
(** The same at every node of an averaged table. *)
Theorem C74_table : forall K allowed (c0 c1 : xsec RNum) (vmax dv : R) (mu : reducedMass RNum), 0 < vmax -> 0 < dv ->
  exists n, (forall k, (k < n)%nat <-> 0 < grid vmax dv k) /\
  forall s0 s1 : nat -> R,
  (forall k, (k < n)%nat -> sigma_is K c0 (grid vmax dv k) (s0 k) /\ sigma_is K c1 (grid vmax dv k) (s1 k) /\ 0 <= s0 k /\ 0 <= s1 k) ->
  (exists k, (k < n)%nat /\ (0 < s0 k \/ 0 < s1 k)) ->
  forall fuel, (9900 <= Z.of_nat fuel)%Z -> (n < fuel)%nat ->
  exists d, avg_diameters (N:=RNum) K fuel allowed c0 c1 vmax dv mu = Ok (XAvgDiam d c0 c1) /\
    forall k r0 r1, (k < n)%nat ->
      effectiveRadius (N:=RNum) K c0 (grid vmax dv k) = Ok r0 -> effectiveRadius (N:=RNum) K c1 (grid vmax dv k) = Ok r1 ->
      effectiveRadius (N:=RNum) K (XAvgDiam d c0 c1) (grid vmax dv k) = Ok ((r0 + r1) / 2).
Proof. exact radius_table. Qed.
Print Assumptions C74_table.
(** In binary64 a negative cross section (a logarithmic one at high speed) has radius NaN. *)
Theorem C74_negative : forall lm K (c : xsec (F64 lm)) v (s : binary64), 1 <= fB2R (lm_pi lm) <= 4 ->
  sigma (N:=F64 lm) K c v = Ok s -> is_finite s = true -> fB2R s <= - bpow radix2 (-1000) ->
  effectiveRadius (N:=F64 lm) K c v = Ok fnan.
Proof. exact @radius_nan. Qed.
Print Assumptions C74_negative.
(** Two spheres of radii 1/2 and 3/2. *)
Example C74_case : effectiveRadius (N:=RNum) 1 (exc PI) 2 = Ok (1 / 2) /\ effectiveRadius (N:=RNum) 1 (exc (9 * PI)) 2 = Ok (3 / 2) /\
  effectiveRadius (N:=RNum) 1 (XAvgEasy (exc PI) (exc (9 * PI))) 2 = Ok 1 /\ sigma_is 1 (XAvgEasy (exc PI) (exc (9 * PI))) 2 (4 * PI).
Proof.
  pose proof PI_RGT_0. assert (A : effectiveRadius (N:=RNum) 1 (exc PI) 2 = Ok (1 / 2)).
  { apply radius_inj with PI; [apply exc_sigma; lra|lra|field]. }
  assert (B : effectiveRadius (N:=RNum) 1 (exc (9 * PI)) 2 = Ok (3 / 2)).
  { apply radius_inj with (9 * PI); [apply exc_sigma; lra|lra|field]. }
  destruct (C74_average 1 (exc PI) (exc (9 * PI)) 2 PI (9 * PI) _ _ ltac:(apply exc_sigma; lra) ltac:(apply exc_sigma; lra) ltac:(lra) ltac:(lra) A B) as [C D].
  split; [exact A|]. split; [exact B|]. split.
  - replace 1 with ((1 / 2 + 3 / 2) / 2) at 2 by field. exact D.
  - replace (4 * PI) with (PI * (1 / 2 + 3 / 2) ^ 2) by field. exact C.
Qed.
(** A constant cross section of -1. *)
Example C74_negative_case : forall lm, 1 <= fB2R (lm_pi lm) <= 4 ->
  effectiveRadius (N:=F64 lm) (fofZ 1) (XConstant (N:=F64 lm) (fofZ (-1)) (fofZ 0) (fofZ 0)) (fofZ 2) = Ok fnan.
Proof.
  intros lm H. destruct (fofZ_exact (-1)) as [V F]; [cbn; lia|]. apply C74_negative with (fofZ (-1)); [exact H| |exact F|].
  { change (Ok (if Bleb (fofZ 0) (fofZ 2) then fofZ (-1) else fofZ 0) = Ok (fofZ (-1))). reflexivity. }
  rewrite V.
  assert (E : bpow radix2 (-1000) <= 1) by (apply Rle_trans with (bpow radix2 0); [apply bpow_le; lia|apply Rle_refl]).
  revert E. generalize (bpow radix2 (-1000)). intros x E. lra.
Qed.

(** C75.  The number of particles is narrowed to 32 bits.  Every selected position lies in
    the first max(1, size mod 2^32) positions of its range ... *)
Theorem C75_wraps : forall lm fuel (a b : range) (g : rng (F64 lm)) k i j k', frng_ok g ->
  selectRandomPair fuel a b g k = Ok (i, j, k') ->
  (Z.of_nat (fst a) <= Z.of_nat i < Z.of_nat (fst a) + Z.max 1 (Z.of_nat (rsize a) mod 2 ^ 32))%Z /\
  (Z.of_nat (fst b) <= Z.of_nat j < Z.of_nat (fst b) + Z.max 1 (Z.of_nat (rsize b) mod 2 ^ 32))%Z.
Proof. exact @select_wrapped. Qed.
Print Assumptions C75_wraps.
(** ... so "every particle of a range can be selected" fails for every range of 2^32 or
    more particles: its last particle never is. *)
Theorem C75_all_selectable_refuted : forall lm (a : range), (2 ^ 32 <= Z.of_nat (rsize a))%Z ->
  in_range (snd a - 1) a /\ forall fuel (b : range) (g : rng (F64 lm)) k j k', frng_ok g ->
    selectRandomPair fuel a b g k <> Ok (snd a - 1, j, k')%nat /\ selectRandomPair fuel b a g k <> Ok (j, snd a - 1, k')%nat.
Proof.
  intros lm a H. unfold rsize in H. split; [unfold in_range; lia|]. intros fuel b g k j k' Hg.
  pose proof (Z.mod_pos_bound (Z.of_nat (snd a - fst a)) (2 ^ 32) eq_refl) as M.
  split; intros E; apply select_wrapped in E; try assumption; unfold wrapped, rsize in E; change 4294967296%Z with (2 ^ 32)%Z in E; lia.
Qed.
Print Assumptions C75_all_selectable_refuted.
(** Two different particles are never found in a range whose size is a multiple of 2^32:
    every draw gives its first position. *)
Theorem C75_multiple_diverges : forall lm fuel (a : range) (g : rng (F64 lm)) k, frng_ok g ->
  (Z.of_nat (rsize a) mod 2 ^ 32 = 0)%Z -> selectRandomPair fuel a a g k = Diverge.
Proof. exact @select_multiple. Qed.
Print Assumptions C75_multiple_diverges.
(** From 2^31 on the conversion of the product to int can be undefined: exactly when the
    exact product reaches 2^31, and in binary64 for some admissible draws. *)
Theorem C75_undefined : 
  (forall (g : rng RNum) (r : range) k, rng_ok g ->
     (rand_pos r g k = UB <-> 2 ^ 31 <= IZR (Z.of_nat (rsize r) mod 2 ^ 32) * g_exc g k)) /\
  (forall lm (a : range), (2 ^ 31 < Z.of_nat (rsize a) mod 2 ^ 32)%Z ->
     exists g : rng (F64 lm), frng_ok g /\ forall fuel b k, selectRandomPair fuel a b g k = UB).
Proof.
  split.
  - intros g r k Hg. replace (2 ^ 31) with 2147483648 by lra. apply pos_real_ub. exact Hg.
  - intros lm a H. exists big_rng. split; [apply big_rng_ok|]. intros fuel b k. apply select_big. exact H.
Qed.
Print Assumptions C75_undefined.

(** A range of 2^32 + 3 particles: only the first three can be selected. *)
Example C75_case : let a : range := (0%nat, Z.to_nat 4294967299) in
  (2 ^ 32 <= Z.of_nat (rsize a))%Z /\ (Z.of_nat (rsize a) mod 2 ^ 32 = 3)%Z /\
  (2 ^ 31 < Z.of_nat (rsize (0%nat, Z.to_nat 2147483650)) mod 2 ^ 32)%Z /\
  (Z.of_nat (rsize (0%nat, Z.to_nat 8589934592)) mod 2 ^ 32 = 0)%Z.
Proof.
  assert (P : forall z, (0 <= z)%Z -> Z.of_nat (rsize (0%nat, Z.to_nat z)) = z) by (intros z Hz; unfold rsize; cbn [fst snd]; lia).
  cbv zeta. rewrite !P by lia. repeat split; try reflexivity; lia.
Qed.
