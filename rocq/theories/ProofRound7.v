(** Whole VSS collisions in binary64. *)
From Coq Require Import Reals Lra Lia ZArith Bool List.
From Flocq Require Import Core.Core IEEE754.BinarySingleNaN Relative.
From Verif Require Import Base Num ModelTerm ModelCollide SpecPhys SpecSet SpecRound ProofF64 ProofFloat ProofRound ProofRound2 ProofRound3 ProofRound4 ProofRound5 ProofRound6.
From Coq Require Import List.
Import ListNotations.
Local Open Scope R_scope.

Section Vss.
Variables (lm : libm) (V kap : R) (al : F64 lm) (v1 v2 : vec (F64 lm)) (r r' : F64 lm).
Hypothesis (HV : speed_ok V) (TR : trig_ok lm kap) (PO : pow_ok lm al) (W1 : within V v1) (W2 : within V v2).
Hypothesis (Fr : is_finite r = true) (Hr : 0 <= real64 r <= 1) (Fr' : is_finite r' = true) (Hr' : 0 <= real64 r' <= 1).
Let vr : vec (F64 lm) := vsub v1 v2.
Let x : binary64 := vx vr. Let y : binary64 := vy vr. Let z : binary64 := vz vr.
Let S : binary64 := vabs vr.
Let D : binary64 := fsqrt (fadd (fmul y y) (fmul z z)).
Let u : vec (F64 lm) := vssVel al vr r r'.
Lemma rel_ok (a b : binary64) : is_finite a = true /\ Rabs (real64 a) <= V -> is_finite b = true /\ Rabs (real64 b) <= V ->
  is_finite (fsub a b) = true /\ Rabs (fB2R (fsub a b)) <= 21 / 10 * V /\ Rabs (fB2R (fsub a b) * fB2R (fsub a b) - (real64 a - real64 b) * (real64 a - real64 b)) <= 85 / 10 * (ueps * (V * V)) /\
  Rabs (fB2R (fsub a b) - (real64 a - real64 b)) <= ueps * Rabs (real64 a - real64 b).
Proof.
  intros [Fa La] [Fb Lb]. pose proof (V_pos V HV) as PV. destruct (rel_near V HV a b Fa Fb La Lb) as [H L]. destruct (ee V ltac:(lra)) as (E1 & E2 & E3).
  pose proof (appr_abs _ _ _ _ H L) as L'. split; [apply H|]. assert (L2 : Rabs (fB2R (fsub a b)) <= 21 / 10 * V) by lra. split; [exact L2|]. split.
  - eapply Rle_trans; [apply (sq_diff _ _ _ (21 / 10 * V) (proj2 H) L2)|]; [unfold real64; lra|]. assert (0 <= ueps * (V * V)) by (pose proof ueps_pos; apply Rmult_le_pos; [lra|apply Rmult_le_pos; lra]). lra.
  - apply fsub_err; [exact Fa|exact Fb|]. pose proof (big1 V HV). lra.
Qed.

Lemma vss_parts : exists A B c s : binary64, (is_finite A = true /\ is_finite B = true /\ is_finite c = true /\ is_finite s = true) /\
  (0 <= fB2R A <= 1) /\ (-1 <= fB2R B <= 1) /\ (Rabs (fB2R A * fB2R A + fB2R B * fB2R B - 1) <= 43 / 10 * ueps) /\
  Rabs (fB2R c) <= 1 /\ Rabs (fB2R s) <= 1 /\ Rabs (fB2R s * fB2R s + fB2R c * fB2R c - 1) <= kap /\
  u = if Bltb tol6 D then V3 (N:=F64 lm) (fadd (fmul B x) (fmul (fmul A s) D))
        (fadd (fmul B y) (fmul (fdiv A D) (fsub (fmul (fmul S z) c) (fmul (fmul x y) s))))
        (fsub (fmul B z) (fmul (fdiv A D) (fadd (fmul (fmul S y) c) (fmul (fmul x z) s))))
      else V3 (N:=F64 lm) (fmul B x) (fmul (fmul A c) x) (fmul (fmul A s) x).
Proof.
  destruct TR as [[Fp Hp] Ht]. destruct (angle_ok _ _ Fp Hp Fr' Hr') as [FC HC]. destruct (Ht _ FC HC) as ((Fs & Ls) & (Fc & Lc) & Hk).
  destruct (PO r Fr Hr) as [FP HP]. destruct (cos_B _ FP HP) as [FB HB]. destruct (sin_A _ FB HB) as (FA & HA & EA). cbv zeta in *.
  eexists _, _, _, _. split; [split; [exact FA|split; [exact FB|split; [exact Fc|exact Fs]]]|]. split; [exact HA|]. split; [exact HB|]. split; [exact EA|]. split; [exact Lc|]. split; [exact Ls|].
  split; [|reflexivity]. eapply Rle_trans; [|exact Hk]. right. f_equal. unfold real64. ring.
Qed.
Lemma perp_ok : is_finite D = true /\ (Bltb tol6 D = true -> fB2R tol6 < fB2R D) /\ (fB2R tol6 < fB2R D -> Bltb tol6 D = true).
Proof.
  destruct W1 as (X1 & Y1 & Z1), W2 as (X2 & Y2 & Z2). destruct (rel_ok _ _ Y1 Y2) as (Fy & Ly & _). destruct (rel_ok _ _ Z1 Z2) as (Fz & Lz & _).
  destruct (D_near V y z HV Fy Fz Ly Lz) as (FD & _ & _). destruct tol6_ok as [FT _]. split; [exact FD|]. destruct (fltb_lt tol6 D FT FD) as [A B]. split; assumption.
Qed.

Lemma vss_cases : within (9 * V) u /\
  (Bltb tol6 D = true -> Rabs (norm2 (realv u) - dist2 (realv v1) (realv v2)) <= 3000 * (ueps * (V * V)) + 16 * (kap * (V * V))).
Proof.
  destruct vss_parts as (A & B & c & s & (FA & FB & Fc & Fs) & HA & HB & EA & Lc & Ls & Hk & Eu). destruct perp_ok as (FD & HD & _).
  destruct W1 as (X1 & Y1 & Z1), W2 as (X2 & Y2 & Z2). pose proof (V_pos V HV) as PV.
  destruct (rel_ok _ _ X1 X2) as (Fx & Lx & Ex & _). destruct (rel_ok _ _ Y1 Y2) as (Fy & Ly & Ey & _). destruct (rel_ok _ _ Z1 Z2) as (Fz & Lz & Ez & _).
  destruct (speed_S lm V v1 v2 HV W1 W2) as (FS & HS & ES). fold vr in FS, HS, ES. fold S in FS, HS, ES.
  change (fsub (vx v1) (vx v2)) with x in *. change (fsub (vy v1) (vy v2)) with y in *. change (fsub (vz v1) (vz v2)) with z in *.
  pose proof ueps_pos as HE. assert (VV : 0 < V * V) by (apply Rmult_lt_0_compat; lra). assert (EVV : 0 < ueps * (V * V)) by (apply Rmult_lt_0_compat; lra). destruct (ee V ltac:(lra)) as (E1 & E2 & E3).
  destruct (Bltb tol6 D) eqn:EB.
  - specialize (HD eq_refl). destruct (D_near V y z HV Fy Fz Ly Lz) as (_ & HP & _). destruct (D_rel V y z HV Fy Fz Ly Lz HD) as (HD1 & HR & Ky & Kz). fold D in HP, HD1, HR, Ky, Kz.
    pose proof (conj HD1 (proj2 HP)) as HDD.
    destruct (turn_x V x D A B s HV Fx FD FA FB Fs Lx HDD HA HB Ls) as [Tx Bx].
    destruct (turn_y V x y z S D A B c s HV Fx Fy Fz FS FD FA FB Fc Fs Lx Ly HS HDD Ky Kz HA HB Lc Ls) as [Ty By].
    destruct (turn_z V x y z S D A B c s HV Fx Fy Fz FS FD FA FB Fc Fs Lx Lz HS HDD Ky Kz HA HB Lc Ls) as [Tz Bz].
    unfold dist2, realv in ES. cbn [vx vy vz] in ES.
    assert (HQ : Rabs (fB2R x * fB2R x + (fB2R y * fB2R y + fB2R z * fB2R z) - fB2R S * fB2R S) <= 111 * (ueps * (V * V))).
    { unfold real64 in *. apply Rabs_le_inv in ES, Ex, Ey, Ez. apply Rabs_le. lra. }
    pose proof (turn_len V x y z S D A B c s HV Lx HS HDD HA HB Lc Ls kap HR HQ EA Hk) as N. cbv zeta in N.
    pose proof (appr_abs _ _ _ _ Tx Bx) as Ux. pose proof (appr_abs _ _ _ _ Ty By) as Uy. pose proof (appr_abs _ _ _ _ Tz Bz) as Uz.
    assert (Sm : 45 * (ueps * V) <= V / 2) by lra.
    pose proof (sq_diff _ _ _ (9 * V) (proj2 Tx) ltac:(lra) ltac:(lra)) as Qx. pose proof (sq_diff _ _ _ (9 * V) (proj2 Ty) ltac:(lra) ltac:(lra)) as Qy. pose proof (sq_diff _ _ _ (9 * V) (proj2 Tz) ltac:(lra) ltac:(lra)) as Qz.
    rewrite Eu. split.
    + split; [|split]; cbn [vx vy vz]; (split; [first [apply Tx|apply Ty|apply Tz]|unfold real64; lra]).
    + intros _. unfold norm2, dist2, realv. cbn [vx vy vz]. apply Rabs_le_inv in Qx, Qy, Qz, N, ES. unfold real64 in *. apply Rabs_le. lra.
  - rewrite Eu. split; [|discriminate].
    destruct (fmul_within B x FB Fx ltac:(apply Rabs_le; lra)) as [F1 L1].
    destruct (fmul_within A c FA Fc ltac:(rewrite Rabs_pos_eq; lra)) as [F2 L2]. destruct (fmul_within _ x F2 Fx ltac:(lra)) as [F3 L3].
    destruct (fmul_within A s FA Fs ltac:(rewrite Rabs_pos_eq; lra)) as [F4 L4]. destruct (fmul_within _ x F4 Fx ltac:(lra)) as [F5 L5].
    split; [|split]; cbn [vx vy vz]; unfold real64; (split; [assumption|lra]).
Qed.
(** A perpendicular relative speed of two millionths is seen by the test. *)
Lemma perp_big : 2 / 1000000 <= R_sqrt.sqrt ((real64 (vy v1) - real64 (vy v2)) ^ 2 + (real64 (vz v1) - real64 (vz v2)) ^ 2) -> Bltb tol6 D = true.
Proof.
  intros H. destruct perp_ok as (FD & _ & HD). apply HD. clear HD.
  destruct W1 as (X1 & Y1 & Z1), W2 as (X2 & Y2 & Z2). destruct (rel_ok _ _ Y1 Y2) as (Fy & Ly & _ & Ry). destruct (rel_ok _ _ Z1 Z2) as (Fz & Lz & _ & Rz).
  destruct (D_near V y z HV Fy Fz Ly Lz) as (_ & HP & HD). fold D in HP, HD. destruct tol6_ok as [_ HT]. pose proof eta_tiny. pose proof ueta_pos. pose proof ueps_pos as HE.
  change (fsub (vy v1) (vy v2)) with y in *. change (fsub (vz v1) (vz v2)) with z in *. set (a := real64 (vy v1) - real64 (vy v2)) in *. set (b := real64 (vz v1) - real64 (vz v2)) in *.
  assert (AB : 4 / 1000000000000 <= a * a + b * b).
  { assert (P : 0 <= a ^ 2 + b ^ 2) by nra. pose proof (sqrt_sqrt _ P) as Q. assert (2 / 1000000 * (2 / 1000000) <= R_sqrt.sqrt (a ^ 2 + b ^ 2) * R_sqrt.sqrt (a ^ 2 + b ^ 2)) by (apply Rmult_le_compat; lra). rewrite Q in H2. lra. }
  assert (G : forall w t, Rabs (w - t) <= ueps * Rabs t -> 99 / 100 * (t * t) <= w * w).
  { intros w t Hw. assert (Ht : (1 - ueps) * Rabs t <= Rabs w). { pose proof (Rabs_triang_inv t (t - w)) as T. replace (t - (t - w)) with w in T by ring. rewrite Rabs_minus_sym in Hw. lra. }
    pose proof (Rabs_pos t) as Pt. assert (H9 : 999 / 1000 * Rabs t <= Rabs w) by nra. assert (H8 : 999 / 1000 * Rabs t * (999 / 1000 * Rabs t) <= Rabs w * Rabs w) by (apply Rmult_le_compat; lra).
    assert (E : forall t, Rabs t * Rabs t = t * t) by (intros k; rewrite <- Rabs_mult, Rabs_pos_eq by apply Rle_0_sqr; reflexivity). rewrite E in H8. pose proof (E t) as Et. pose proof (Rle_0_sqr t) as Q. unfold Rsqr in Q. lra. }
  pose proof (G _ _ Ry) as Gy. pose proof (G _ _ Rz) as Gz. set (rho := fB2R y * fB2R y + fB2R z * fB2R z) in *. assert (R0 : 0 <= rho) by (unfold rho; lra). destruct (ee rho R0) as (U1 & U2 & U3).
  apply Rabs_le_inv in HD. assert (RR : 99 / 100 * (a * a + b * b) <= rho) by (unfold rho; lra).  assert (DD : 38 / 10000000000000 <= fB2R D * fB2R D). { lra. }
  destruct (Rlt_dec (fB2R tol6) (fB2R D)) as [|N]; [assumption|]. exfalso. apply Rnot_lt_le in N. assert (fB2R D * fB2R D <= 101 / 100000000 * (101 / 100000000)) by (apply Rmult_le_compat; lra). lra.
Qed.
End Vss.

Lemma vss_round lm kap (al m1 m2 : F64 lm) V (p1 p2 : particle (F64 lm)) (r r' : F64 lm) : speed_ok V -> mass_ok m1 -> mass_ok m2 -> trig_ok lm kap -> pow_ok lm al ->
  within V (p_vel p1) -> within V (p_vel p2) -> is_finite r = true -> 0 <= real64 r <= 1 -> is_finite r' = true -> 0 <= real64 r' <= 1 ->
  let (q1, q2) := vss_collide (ReducedMass m1 m2) al p1 p2 r r' in
  within (11 * V) (p_vel q1) /\ within (11 * V) (p_vel q2) /\
  close3 (bpow radix2 (-46) * (real64 m1 + real64 m2) * V) (momentum2 (real64 m1) (realv (p_vel q1)) (real64 m2) (realv (p_vel q2)))
     (momentum2 (real64 m1) (realv (p_vel p1)) (real64 m2) (realv (p_vel p2))) /\
  (2 / 1000000 <= R_sqrt.sqrt ((real64 (vy (p_vel p1)) - real64 (vy (p_vel p2))) ^ 2 + (real64 (vz (p_vel p1)) - real64 (vz (p_vel p2))) ^ 2) ->
   Rabs (kinetic (real64 m1) (realv (p_vel q1)) + kinetic (real64 m2) (realv (p_vel q2))
        - (kinetic (real64 m1) (realv (p_vel p1)) + kinetic (real64 m2) (realv (p_vel p2))))
    <= (bpow radix2 (-41) + 2 * kap) * ((real64 m1 + real64 m2) * V ^ 2)).
Proof.
  intros HV M1 M2 TR PO W1 W2 Fr Hr Fr' Hr'. unfold vss_collide. cbn [p_vel setVelocity].
  pose proof (V_pos V HV) as PV. destruct (vss_cases lm V kap al _ _ r r' HV TR PO W1 W2 Fr Hr Fr' Hr') as [Wu Eu].
  pose proof (perp_big lm V _ _ HV W1 W2) as PB.
  set (u := vssVel al (vsub (p_vel p1) (p_vel p2)) r r') in *.
  destruct (pair_within lm m1 m2 V (9 * V) _ _ u HV M1 M2 W1 W2 Wu ltac:(lra)) as [Q1 Q2].
  pose proof (pair_momentum lm m1 m2 V (9 * V) _ _ u HV M1 M2 W1 W2 Wu ltac:(lra)) as Mo.
  pose proof (pair_energy lm m1 m2 V (9 * V) _ _ u HV M1 M2 W1 W2 Wu ltac:(lra)) as En.
  pose proof (x1_pos lm m1 M1) as P1. pose proof (x1_pos lm m2 M2) as P2.
  set (x1 := real64 m1) in *. set (x2 := real64 m2) in *. pose proof ueps_pos as HE.
  assert (EV : 0 <= ueps * V) by nra. assert (EVV : 0 <= ueps * (V * V)) by (apply Rmult_le_pos; nra).
  replace (2 * V + 9 * V) with (11 * V) in * by ring. split; [exact Q1|]. split; [exact Q2|]. split.
  - assert (B46 : bpow radix2 (-46) = 128 * ueps) by (unfold ueps; change (-46)%Z with (7 + -53)%Z; rewrite bpow_plus; reflexivity).
    assert (L : (x1 + x2) * (14 * (ueps * V) + 7 * (ueps * (9 * V))) <= bpow radix2 (-46) * (x1 + x2) * V).
    { rewrite B46. assert (0 <= (x1 + x2) * (ueps * V)) by (apply Rmult_le_pos; lra). lra. }
    unfold close3 in *. destruct (momentum2 x1 (realv (vadd _ _)) x2 _) as [[a b] c]. destruct (momentum2 x1 (realv (p_vel p1)) x2 _) as [[a' b'] c']. lra.
  - intros HP. specialize (Eu (PB HP)). assert (B41 : bpow radix2 (-41) = 4096 * ueps) by (unfold ueps; change (-41)%Z with (12 + -53)%Z; rewrite bpow_plus; reflexivity).
    rewrite B41. destruct (mu_le x1 x2 P1 P2) as [Mu0 Mu1]. set (m := x1 * x2 / (x1 + x2)) in *. set (N := norm2 (realv u) - dist2 _ _) in *.
    assert (HN : Rabs (m / 2 * N) <= (x1 + x2) / 8 * (3000 * (ueps * (V * V)) + 16 * (kap * (V * V)))).
    { rewrite Rabs_mult, (Rabs_pos_eq (m / 2)) by lra. apply Rmult_le_compat; [lra|apply Rabs_pos|lra|exact Eu]. }
    assert (0 <= (x1 + x2) * (ueps * (V * V))) by (apply Rmult_le_pos; lra).
    apply Rabs_le_inv in En, HN. apply Rabs_le. simpl pow. rewrite Rmult_1_r. lra.
Qed.
