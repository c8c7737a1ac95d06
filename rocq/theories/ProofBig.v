(** Pair selection from very large ranges, and effective radii. *)
From Coq Require Import Reals Lra Lia ZArith Bool List.
From Flocq Require Import Core.Core IEEE754.BinarySingleNaN Relative.
From Verif Require Import Base Num ModelTerm ModelCollide ModelXsec ModelSet SpecTerm SpecPhys SpecXsec SpecSet
  ProofF64 ProofCollide ProofInelastic ProofXsec ProofFloat ProofSet ProofSelect ProofData.
From Coq Require Import List.
Import ListNotations.
Local Open Scope R_scope.

(** The part of a range that can be selected: size modulo 2^32, but at least one. *)
Definition wrapped (r : range) : Z := (Z.of_nat (rsize r) mod 4294967296)%Z.
Lemma u32_wrapped r : u32 (Z.of_nat (rsize r)) = wrapped r.
Proof. reflexivity. Qed.
Lemma wrapped_bound r : (0 <= wrapped r < 2 ^ 32)%Z.
Proof. unfold wrapped. apply Z.mod_pos_bound. reflexivity. Qed.

Lemma fzero_mul {lm} (e : F64 lm) : fnonneg e -> Bltb e (fofZ 1) = true -> to_int (N:=F64 lm) (fmul (fofZ 0) e) = Ok 0%Z.
Proof.
  intros H0 H1. assert (Fe : is_finite e = true).
  { destruct e as [s|[]| |s m ex B]; try reflexivity; unfold fnonneg in H0; cbn in *; try discriminate. }
  destruct (fmul_ok (fofZ 0) e eq_refl Fe) as [V F].
  { rewrite fofZ0, Rmult_0_l, round_0 by apply valid_rnd_N. rewrite Rabs_R0. apply bpow_gt_0. }
  rewrite fofZ0, Rmult_0_l, round_0 in V by apply valid_rnd_N.
  destruct (fto_int (lm:=lm) (fmul (fofZ 0) e) 1 F) as [_ G]. { rewrite V. lra. }
  destruct G as (i & E & Hi); [lia|]. rewrite E. f_equal. lia.
Qed.

(** A position that is found lies in the wrapped part. *)
Lemma pos_wrapped {lm} (g : rng (F64 lm)) (r : range) k i : frng_ok g -> rand_pos r g k = Ok i ->
  (Z.of_nat (fst r) <= Z.of_nat i < Z.of_nat (fst r) + Z.max 1 (wrapped r))%Z.
Proof.
  intros Hg H. unfold rand_pos in H. rewrite u32_wrapped in H. destruct (Hg k) as (_ & _ & He0 & He1).
  pose proof (wrapped_bound r) as Hw. apply obind_ok in H as (d & Ed & H). injection H as <-.
  change (to_int (N:=F64 lm) (fmul (fofZ (wrapped r)) (g_exc g k)) = Ok d) in Ed.
  destruct (Z.eq_dec (wrapped r) 0) as [Z0|Z0].
  - rewrite Z0 in *. rewrite fzero_mul in Ed by assumption. injection Ed as <-. lia.
  - destruct (fofZ_exact (wrapped r)) as [V F]; [lia|].
    destruct (fmul_below (fofZ (wrapped r)) (g_exc g k) F) as [_ [Fm Hm]]; [|assumption|assumption|].
    + rewrite V. apply Rlt_le_trans with 1; [change 1 with (bpow radix2 0); apply bpow_lt; reflexivity|]. apply IZR_le. lia.
    + rewrite V in Hm. destruct (fto_int (lm:=lm) _ _ Fm Hm) as [[E|(d' & E & Hd)] _]; rewrite E in Ed; [discriminate|]. injection Ed as <-. lia.
Qed.
Lemma pick_wrapped {lm} (g : rng (F64 lm)) (r : range) pA : frng_ok g -> forall fuel k j k', pick_other fuel pA r g k = Ok (j, k') ->
  (Z.of_nat (fst r) <= Z.of_nat j < Z.of_nat (fst r) + Z.max 1 (wrapped r))%Z.
Proof.
  intros Hg. induction fuel as [|fuel IH]; intros k j k' H; cbn [pick_other] in H; [discriminate|].
  apply obind_ok in H as (p & Ep & H). destruct (Nat.eqb pA p); [eapply IH; exact H|]. injection H as <- _. eapply pos_wrapped; eassumption.
Qed.
Lemma select_wrapped {lm} fuel (a b : range) (g : rng (F64 lm)) k i j k' : frng_ok g ->
  selectRandomPair fuel a b g k = Ok (i, j, k') ->
  (Z.of_nat (fst a) <= Z.of_nat i < Z.of_nat (fst a) + Z.max 1 (wrapped a))%Z /\
  (Z.of_nat (fst b) <= Z.of_nat j < Z.of_nat (fst b) + Z.max 1 (wrapped b))%Z.
Proof.
  intros Hg H. unfold selectRandomPair in H. apply obind_ok in H as (p & Ep & H). apply obind_ok in H as ([q k1] & Eq & H). injection H as <- <- <-.
  split; [eapply pos_wrapped; eassumption|eapply pick_wrapped; eassumption].
Qed.

(** Multiples of 2^32, in particular empty ranges. *)
Lemma pos_multiple {lm} (g : rng (F64 lm)) (r : range) k : frng_ok g -> wrapped r = 0%Z -> rand_pos r g k = Ok (fst r).
Proof.
  intros Hg H. unfold rand_pos. rewrite u32_wrapped, H. destruct (Hg k) as (_ & _ & He0 & He1).
  change (obind (to_int (N:=F64 lm) (fmul (fofZ 0) (g_exc g k))) (fun i => Ok (Z.to_nat (Z.of_nat (fst r) + i))) = Ok (fst r)).
  rewrite fzero_mul by assumption. cbn [obind]. f_equal. lia.
Qed.
Lemma select_multiple {lm} fuel (a : range) (g : rng (F64 lm)) k : frng_ok g -> wrapped a = 0%Z -> selectRandomPair fuel a a g k = Diverge.
Proof.
  intros Hg H. unfold selectRandomPair. rewrite pos_multiple by assumption. cbn [obind]. generalize (k + 1)%nat.
  induction fuel as [|fuel IH]; intros n; cbn [pick_other]; [reflexivity|].
  rewrite pos_multiple by assumption. cbn [obind]. rewrite Nat.eqb_refl. apply IH.
Qed.

(** Between 2^31 and 2^32. *)
Definition big_draw : binary64 := fdiv (fofZ 1099511627775) (fofZ 1099511627776).
Lemma big_draw_ok : fnonneg big_draw /\ Bltb big_draw (fofZ 1) = true.
Proof. split; vm_compute; reflexivity. Qed.
Lemma big_draw_val : is_finite big_draw = true /\ 1 - / 549755813888 <= fB2R big_draw < 1.
Proof.
  assert (E : fB2R big_draw = 1 - / 1099511627776).
  { transitivity (SF2R radix2 (B2SF big_draw)); [symmetry; apply SF2R_B2SF|]. replace (B2SF big_draw) with (SpecFloat.S754_finite false 9007199254732800 (-53)) by (vm_compute; reflexivity).
    unfold SF2R, F2R. cbn. lra. }
  split; [vm_compute; reflexivity|]. rewrite E. lra.
Qed.
Definition big_rng {lm} : rng (F64 lm) := mkRng (N:=F64 lm) (fun _ => big_draw) (fun _ => big_draw).
Lemma big_rng_ok {lm} : frng_ok (lm:=lm) big_rng.
Proof.
  intros k. cbn. destruct big_draw_ok as [A B]. split; [exact A|]. split; [vm_compute; reflexivity|]. split; assumption.
Qed.
Lemma pos_big {lm} (r : range) k : (2 ^ 31 < wrapped r)%Z -> rand_pos r (big_rng (lm:=lm)) k = UB.
Proof.
  intros H. pose proof (wrapped_bound r) as Hw. unfold rand_pos. rewrite u32_wrapped. set (n := wrapped r) in *. clearbody n.
  change (obind (to_int (N:=F64 lm) (fmul (fofZ n) big_draw)) (fun i => Ok (Z.to_nat (Z.of_nat (fst r) + i))) = UB).
  destruct (fofZ_exact n) as [V F]; [lia|]. destruct big_draw_val as [Fb [L U]].
  assert (N1 : 2147483649 <= IZR n) by (apply IZR_le; lia). assert (N2 : IZR n <= 4294967296) by (apply IZR_le; lia).
  assert (P : 2147483648 <= IZR n * fB2R big_draw <= 4294967296) by (split; nra).
  assert (G1 : frnd 2147483648 = 2147483648).
  { apply round_generic; [apply valid_rnd_N|]. apply (generic_format_bpow radix2 _ 31). cbn. lia. }
  assert (G2 : frnd 4294967296 = 4294967296).
  { apply round_generic; [apply valid_rnd_N|]. apply (generic_format_bpow radix2 _ 32). cbn. lia. }
  assert (Q : 2147483648 <= frnd (IZR n * fB2R big_draw) <= 4294967296).
  { split; [rewrite <- G1|rewrite <- G2]; apply round_le; try apply valid_rnd_N; try apply P; apply FLT_exp_valid; reflexivity. }
  destruct (fmul_ok (fofZ n) big_draw F Fb) as [Y1 Y2].
  { rewrite V. rewrite Rabs_pos_eq by lra. apply Rle_lt_trans with (bpow radix2 32); [change (bpow radix2 32) with 4294967296; lra|apply bpow_lt; reflexivity]. }
  rewrite V in Y1. unfold to_int. unF. destruct (fofZ_exact 2147483648) as [B1 B2]; [cbn; lia|].
  replace (Bltb (fmul (fofZ n) big_draw) (fofZ 2147483648)) with false.
  { rewrite andb_false_r. reflexivity. }
  symmetry. destruct (Bltb (fmul (fofZ n) big_draw) (fofZ 2147483648)) eqn:E; [|reflexivity].
  apply (fltb_lt _ _ Y2 B2) in E. rewrite Y1, B1 in E. lra.
Qed.
Lemma select_big {lm} fuel (a b : range) k : (2 ^ 31 < wrapped a)%Z -> selectRandomPair fuel a b (big_rng (lm:=lm)) k = UB.
Proof. intros H. unfold selectRandomPair. rewrite pos_big by assumption. reflexivity. Qed.

(** Real draws: undefined exactly from 2^31 on. *)
Lemma pos_real_ub (g : rng RNum) (r : range) k : rng_ok g ->
  rand_pos r g k = UB <-> 2147483648 <= IZR (wrapped r) * g_exc g k.
Proof.
  intros Hg. destruct (Hg k) as [_ He]. unfold rand_pos. rewrite u32_wrapped. pose proof (wrapped_bound r) as Hw.
  unfold to_int. unR. assert (N0 : 0 <= IZR (wrapped r)) by (apply IZR_le; lia).
  assert (P : 0 <= IZR (wrapped r) * g_exc g k) by (apply Rmult_le_pos; lra).
  set (x := IZR (wrapped r) * g_exc g k) in *. 
  destruct (Rltb_spec (-2147483649) x); [|lra]. destruct (Rltb_spec x 2147483648); cbn [andb obind].
  - split; [discriminate|lra].
  - split; [lra|reflexivity].
Qed.

(** ** Effective radii *)
Lemma radius_val K (c : xsec RNum) v s : sigma_is K c v s -> effectiveRadius (N:=RNum) K c v = Ok (/ 2 * sqrt (s / PI)).
Proof.
  intros H. unfold effectiveRadius. unfold sigma_is in H. rewrite H. cbn [obind]. f_equal. unR. unfold nhalf. cbn. lra.
Qed.
Lemma radius_spec K (c : xsec RNum) v s : sigma_is K c v s -> 0 <= s ->
  exists r, effectiveRadius (N:=RNum) K c v = Ok r /\ 0 <= r /\ PI * (r + r) ^ 2 = s.
Proof.
  intros H Hs. exists (/ 2 * sqrt (s / PI)). split; [apply radius_val; assumption|]. pose proof (sqrt_pos (s / PI)). pose proof PI_RGT_0.
  split; [lra|]. replace (/ 2 * sqrt (s / PI) + / 2 * sqrt (s / PI)) with (sqrt (s / PI)) by lra.
  rewrite pow2_sqrt; [field; lra|]. apply Rmult_le_pos; [lra|]. left. apply Rinv_0_lt_compat. lra.
Qed.
Lemma radius_inj K (c : xsec RNum) v s r : sigma_is K c v s -> 0 <= r -> s = PI * (r + r) ^ 2 -> effectiveRadius (N:=RNum) K c v = Ok r.
Proof.
  intros H Hr ->. pose proof PI_RGT_0. rewrite (radius_val _ _ _ _ H). f_equal. replace (PI * (r + r) ^ 2 / PI) with ((r + r) * (r + r)) by (field; lra).
  rewrite sqrt_square by lra. lra.
Qed.
Lemma radius_sphere (s0 s1 r0 r1 : R) : 0 <= r0 -> 0 <= r1 -> s0 = PI * (r0 + r0) ^ 2 -> s1 = PI * (r1 + r1) ^ 2 ->
  sphere ((diameter s0 + diameter s1) / 2) = PI * (r0 + r1) ^ 2.
Proof.
  intros H0 H1 -> ->. pose proof PI_RGT_0. unfold sphere, diameter.
  replace (PI * (r0 + r0) ^ 2 / PI) with ((r0 + r0) * (r0 + r0)) by (field; lra).
  replace (PI * (r1 + r1) ^ 2 / PI) with ((r1 + r1) * (r1 + r1)) by (field; lra). rewrite !sqrt_square by lra. field.
Qed.
Lemma radius_of K (c : xsec RNum) v s r : sigma_is K c v s -> 0 <= s -> effectiveRadius (N:=RNum) K c v = Ok r -> 0 <= r /\ s = PI * (r + r) ^ 2.
Proof.
  intros H Hs E. destruct (radius_spec _ _ _ _ H Hs) as (r' & E' & H0 & H1). rewrite E in E'. injection E' as <-. auto.
Qed.

(** Averaged cross sections. *)
Lemma radius_mean K (c c0 c1 : xsec RNum) v s0 s1 r0 r1 : sigma_is K c0 v s0 -> sigma_is K c1 v s1 -> 0 <= s0 -> 0 <= s1 ->
  sigma_is K c v (sphere ((diameter s0 + diameter s1) / 2)) ->
  effectiveRadius (N:=RNum) K c0 v = Ok r0 -> effectiveRadius (N:=RNum) K c1 v = Ok r1 ->
  sigma_is K c v (PI * (r0 + r1) ^ 2) /\ effectiveRadius (N:=RNum) K c v = Ok ((r0 + r1) / 2).
Proof.
  intros H0 H1 P0 P1 H E0 E1. destruct (radius_of _ _ _ _ _ H0 P0 E0) as [G0 V0]. destruct (radius_of _ _ _ _ _ H1 P1 E1) as [G1 V1].
  rewrite (radius_sphere _ _ _ _ G0 G1 V0 V1) in H. split; [exact H|]. eapply radius_inj; [exact H|lra|]. field.
Qed.
Lemma radius_easy K (c0 c1 : xsec RNum) v s0 s1 r0 r1 : sigma_is K c0 v s0 -> sigma_is K c1 v s1 -> 0 <= s0 -> 0 <= s1 ->
  effectiveRadius (N:=RNum) K c0 v = Ok r0 -> effectiveRadius (N:=RNum) K c1 v = Ok r1 ->
  sigma_is K (XAvgEasy c0 c1) v (PI * (r0 + r1) ^ 2) /\ effectiveRadius (N:=RNum) K (XAvgEasy c0 c1) v = Ok ((r0 + r1) / 2).
Proof.
  intros H0 H1 P0 P1. destruct (proj1 (avgeasy_spec K c0 c1) v s0 s1 H0 H1 P0 P1) as (s & Hs & -> & _).
  apply radius_mean with s0 s1; assumption.
Qed.

(** A negative cross section has no radius. *)
Lemma radius_nan {lm} K (c : xsec (F64 lm)) v (s : binary64) : 1 <= fB2R (lm_pi lm) <= 4 ->
  sigma (N:=F64 lm) K c v = Ok s -> is_finite s = true -> fB2R s <= - bpow radix2 (-1000) ->
  effectiveRadius (N:=F64 lm) K c v = Ok fnan.
Proof.
  intros Hp H F L. unfold effectiveRadius. rewrite H. cbn [obind]. f_equal.
  change (fmul (@nhalf (F64 lm)) (fsqrt (fdiv s (lm_pi lm))) = fnan).
  assert (Hq : fB2R s <= fB2R s / fB2R (lm_pi lm) <= - bpow radix2 (-1002)).
  { set (p := fB2R (lm_pi lm)) in *. assert (/ 4 <= / p <= 1).
    { split; [apply Rinv_le; lra|]. rewrite <- Rinv_1. apply Rinv_le; lra. }
    pose proof (bpow_gt_0 radix2 (-1000)). assert (E : bpow radix2 (-1002) = bpow radix2 (-1000) * / 4).
    { change (-1002)%Z with (-1000 + -2)%Z. rewrite bpow_plus. cbn [bpow]. f_equal. }
    unfold Rdiv. rewrite E. split; nra. }
  assert (R1 : frnd (fB2R s) = fB2R s) by (apply round_generic; [apply valid_rnd_N|apply generic_format_B2R]).
  assert (R2 : frnd (- bpow radix2 (-1002)) = - bpow radix2 (-1002)).
  { apply round_generic; [apply valid_rnd_N|]. apply generic_format_opp, generic_format_bpow. cbn. lia. }
  assert (Q : fB2R s <= frnd (fB2R s / fB2R (lm_pi lm)) <= - bpow radix2 (-1002)).
  { split; [rewrite <- R1 at 1|rewrite <- R2]; apply round_le; try apply valid_rnd_N; try apply Hq; apply FLT_exp_valid; reflexivity. }
  pose proof (bpow_gt_0 radix2 (-1002)) as P0. pose proof (abs_B2R_lt_emax fprec femax s) as A.
  destruct (fdiv_ok s (lm_pi lm) F) as [V Fd]; [lra| |].
  { rewrite Rabs_left in A by (pose proof (bpow_gt_0 radix2 (-1000)); change (fB2R s < 0); lra). rewrite Rabs_left by lra. change (B2R s) with (fB2R s) in A. lra. }
  rewrite fsqrt_neg. { destruct (@nhalf (F64 lm)) as [? |? | |]; reflexivity. }
  apply fltb_lt; [exact Fd|reflexivity|]. change (fB2R (fdiv s (lm_pi lm)) < fB2R (fofZ 0)). rewrite V, fofZ0. lra.
Qed.

(** Averaged tables at their nodes. *)
Lemma radius_table K allowed (c0 c1 : xsec RNum) (vmax dv : R) (mu : reducedMass RNum) : 0 < vmax -> 0 < dv ->
  exists n, (forall k, (k < n)%nat <-> 0 < grid vmax dv k) /\
  forall s0 s1 : nat -> R,
  (forall k, (k < n)%nat -> sigma_is K c0 (grid vmax dv k) (s0 k) /\ sigma_is K c1 (grid vmax dv k) (s1 k) /\ 0 <= s0 k /\ 0 <= s1 k) ->
  (exists k, (k < n)%nat /\ (0 < s0 k \/ 0 < s1 k)) ->
  forall fuel, (9900 <= Z.of_nat fuel)%Z -> (n < fuel)%nat ->
  exists d, avg_diameters (N:=RNum) K fuel allowed c0 c1 vmax dv mu = Ok (XAvgDiam d c0 c1) /\
    forall k r0 r1, (k < n)%nat ->
      effectiveRadius (N:=RNum) K c0 (grid vmax dv k) = Ok r0 -> effectiveRadius (N:=RNum) K c1 (grid vmax dv k) = Ok r1 ->
      effectiveRadius (N:=RNum) K (XAvgDiam d c0 c1) (grid vmax dv k) = Ok ((r0 + r1) / 2).
Proof.
  intros Hv Hd. destruct (avg_diam_spec K allowed c0 c1 vmax dv mu Hv Hd) as (n & Hn0 & Hn & H). exists n. split; [exact Hn|].
  intros s0 s1 Hs Hp fuel Hf Hnf. destruct (proj2 (H s0 s1 Hs fuel Hf Hnf) Hp) as (zs & d & E & _ & _ & G & _).
  exists d. split; [exact E|]. intros k r0 r1 Hk E0 E1. destruct (Hs k Hk) as (A & B & C & D).
  eapply (radius_mean K _ c0 c1); [exact A|exact B|exact C|exact D|apply G; exact Hk|exact E0|exact E1].
Qed.
