(** Whole collisions in binary64. *)
From Coq Require Import Reals Lra Lia ZArith Bool List.
From Flocq Require Import Core.Core IEEE754.BinarySingleNaN Relative.
From Verif Require Import Base Num ModelTerm ModelCollide SpecPhys SpecSet SpecRound ProofF64 ProofFloat ProofRound ProofRound2 ProofRound3.
From Coq Require Import List.
Import ListNotations.
Local Open Scope R_scope.

Lemma angle_ok (p r : binary64) : is_finite p = true -> 0 <= fB2R p <= 4 -> is_finite r = true -> 0 <= fB2R r <= 1 ->
  let C := fmul (fmul (fofZ 2) p) r in is_finite C = true /\ 0 <= fB2R C <= 8.
Proof.
  intros Fp Hp Fr Hr C. destruct (fofZ_exact 8 ltac:(cbn; lia)) as [V8 F8].
  assert (H1 : fB2R (fofZ 0) <= fB2R (fofZ 2) * fB2R p <= fB2R (fofZ 8)) by (rewrite fofZ0, fofZ2, V8; lra).
  destruct (fmul_ok (fofZ 2) p fin2 Fp (fin_between _ _ _ H1)) as [E1 F1]. apply rnd_between in H1. rewrite <- E1, fofZ0, V8 in H1.
  assert (H2 : fB2R (fofZ 0) <= fB2R (fmul (fofZ 2) p) * fB2R r <= fB2R (fofZ 8)) by (rewrite fofZ0, V8; nra).
  destruct (fmul_ok _ r F1 Fr (fin_between _ _ _ H2)) as [E2 F2]. apply rnd_between in H2. rewrite <- E2, fofZ0, V8 in H2. split; assumption.
Qed.

(** The shares of the masses. *)
Lemma share_mom m1 m2 v1 v2 u (C := share m1 m2 * v1 + share m2 m1 * v2) : 0 < m1 -> 0 < m2 ->
  m1 * (C + share m2 m1 * u) + m2 * (C - share m1 m2 * u) = m1 * v1 + m2 * v2.
Proof. intros. unfold C, share. field. lra. Qed.
Lemma share_ke m1 m2 v1 v2 u (C := share m1 m2 * v1 + share m2 m1 * v2) : 0 < m1 -> 0 < m2 ->
  m1 * ((C + share m2 m1 * u) * (C + share m2 m1 * u)) + m2 * ((C - share m1 m2 * u) * (C - share m1 m2 * u)) - (m1 * (v1 * v1) + m2 * (v2 * v2))
  = m1 * m2 / (m1 + m2) * (u * u - (v1 - v2) * (v1 - v2)).
Proof. intros. unfold C, share. field. lra. Qed.
Lemma mu_le m1 m2 : 0 < m1 -> 0 < m2 -> 0 <= m1 * m2 / (m1 + m2) <= (m1 + m2) / 4.
Proof.
  intros. split; [left; apply Rdiv_lt_0_compat; nra|]. apply Rmult_le_reg_r with (m1 + m2); [lra|]. replace (m1 * m2 / (m1 + m2) * (m1 + m2)) with (m1 * m2) by (field; lra).
  pose proof (Rle_0_sqr (m1 - m2)) as Q. unfold Rsqr in Q. lra.
Qed.

Section Pair.
Variables (lm : libm) (m1 m2 : F64 lm) (V U : R) (v1 v2 u : vec (F64 lm)).
Hypothesis (HV : speed_ok V) (M1 : mass_ok m1) (M2 : mass_ok m2) (W1 : within V v1) (W2 : within V v2) (Wu : within U u) (HU : U <= 100 * V).
Let mu := ReducedMass m1 m2.
Let q1 : vec (F64 lm) := vadd (VelCM mu v1 v2) (vscale (over_m1 mu) u).
Let q2 : vec (F64 lm) := vsub (VelCM mu v1 v2) (vscale (over_m2 mu) u).
Let x1 := real64 m1. Let x2 := real64 m2.
Let D := 14 * (ueps * V) + 7 * (ueps * U).
Lemma x1_pos : 0 < x1. Proof. destruct M1 as [_ [H _]]. pose proof (bpow_gt_0 radix2 (-300)). unfold x1. lra. Qed.
Lemma x2_pos : 0 < x2. Proof. destruct M2 as [_ [H _]]. pose proof (bpow_gt_0 radix2 (-300)). unfold x2. lra. Qed.
Lemma comp (a b w : binary64) : is_finite a = true /\ Rabs (real64 a) <= V -> is_finite b = true /\ Rabs (real64 b) <= V -> is_finite w = true /\ Rabs (real64 w) <= U ->
  let c := fadd (fmul (over_m2 mu) a) (fmul (over_m1 mu) b) in let C := share x1 x2 * real64 a + share x2 x1 * real64 b in
  appr (fadd c (fmul (over_m1 mu) w)) (C + share x2 x1 * real64 w) D /\ appr (fsub c (fmul (over_m2 mu) w)) (C - share x1 x2 * real64 w) D /\ Rabs C <= V.
Proof.
  intros [Fa La] [Fb Lb] [Fw Lw]. destruct M1 as [F1 H1], M2 as [F2 H2].
  pose proof (over_near m1 m2 F1 F2 H1 H2) as O1. pose proof (over_near m2 m1 F2 F1 H2 H1) as O2. pose proof x1_pos. pose proof x2_pos.
  destruct (share_pos x1 x2 ltac:(assumption) ltac:(assumption)) as [S1 _]. destruct (share_pos x2 x1 ltac:(assumption) ltac:(assumption)) as [S2 _]. pose proof (share_sum x1 x2 ltac:(assumption) ltac:(assumption)) as SS.
  split; [|split].
  - apply (a_near V HV (over_m1 mu) (over_m2 mu) a b w _ _ U O1 O2); assumption.
  - apply (b_near V HV (over_m1 mu) (over_m2 mu) a b w _ _ U O1 O2); assumption.
  - apply (absC V a b); assumption.
Qed.
Lemma comp_bound c u0 s : Rabs c <= V -> Rabs u0 <= U -> 0 <= s <= 1 -> Rabs (c + s * u0) <= V + U /\ Rabs (c - s * u0) <= V + U.
Proof.
  intros H1 H2 Hs. apply Rabs_le_inv in H1. apply Rabs_le_inv in H2. assert (- U <= s * u0 <= U) by (split; nra). split; apply Rabs_le; lra.
Qed.
Lemma U_pos : 0 <= U. Proof. destruct Wu as [[_ H] _]. pose proof (Rabs_pos (real64 (vx u))). lra. Qed.
Lemma D_small : 0 <= D <= V.
Proof. pose proof (V_pos V HV). pose proof U_pos. destruct (ee V ltac:(lra)) as (E1 & E2 & E3). destruct (ee U ltac:(lra)) as (U1 & U2 & U3). pose proof ueps_pos. unfold D. assert (ueps * V <= V / 100000) by nra. assert (ueps * U <= U / 100000) by nra. lra. Qed.

Lemma pair_within : within (2 * V + U) q1 /\ within (2 * V + U) q2.
Proof.
  destruct W1 as (X1 & Y1 & Z1), W2 as (X2 & Y2 & Z2), Wu as (Xu & Yu & Zu). pose proof D_small.
  destruct (share_pos x1 x2 x1_pos x2_pos) as [S1 S1']. destruct (share_pos x2 x1 x2_pos x1_pos) as [S2 S2'].
  destruct (comp _ _ _ X1 X2 Xu) as (Ax & Bx & Cx). destruct (comp _ _ _ Y1 Y2 Yu) as (Ay & By & Cy). destruct (comp _ _ _ Z1 Z2 Zu) as (Az & Bz & Cz).
  assert (G : forall y c s w, appr y (c + s * w) D -> Rabs c <= V -> Rabs w <= U -> 0 <= s <= 1 -> is_finite y = true /\ Rabs (real64 y) <= 2 * V + U).
  { intros y c s w Ha Hc Hw Hs. split; [apply Ha|]. destruct (comp_bound c w s Hc Hw Hs) as [L _]. pose proof (appr_abs _ _ _ _ Ha L). unfold real64. lra. }
  assert (G' : forall y c s w, appr y (c - s * w) D -> Rabs c <= V -> Rabs w <= U -> 0 <= s <= 1 -> is_finite y = true /\ Rabs (real64 y) <= 2 * V + U).
  { intros y c s w Ha Hc Hw Hs. split; [apply Ha|]. destruct (comp_bound c w s Hc Hw Hs) as [_ L]. pose proof (appr_abs _ _ _ _ Ha L). unfold real64. lra. }
  split; (split; [|split]).
  - exact (G _ _ _ _ Ax Cx (proj2 Xu) (conj S2 S2')).
  - exact (G _ _ _ _ Ay Cy (proj2 Yu) (conj S2 S2')).
  - exact (G _ _ _ _ Az Cz (proj2 Zu) (conj S2 S2')).
  - exact (G' _ _ _ _ Bx Cx (proj2 Xu) (conj S1 S1')).
  - exact (G' _ _ _ _ By Cy (proj2 Yu) (conj S1 S1')).
  - exact (G' _ _ _ _ Bz Cz (proj2 Zu) (conj S1 S1')).
Qed.

Lemma mom_comp y z a b w : let C := share x1 x2 * a + share x2 x1 * b in appr y (C + share x2 x1 * w) D -> appr z (C - share x1 x2 * w) D ->
  Rabs (x1 * real64 y + x2 * real64 z - (x1 * a + x2 * b)) <= (x1 + x2) * D.
Proof.
  intros C [_ Hy] [_ Hz]. pose proof x1_pos as P1. pose proof x2_pos as P2. rewrite <- (share_mom x1 x2 a b w P1 P2). fold C. fold (real64 y) in Hy. fold (real64 z) in Hz.
  apply Rabs_le_inv in Hy, Hz. apply Rabs_le. split; nra.
Qed.
Lemma pair_momentum : close3 ((x1 + x2) * D) (momentum2 x1 (realv q1) x2 (realv q2)) (momentum2 x1 (realv v1) x2 (realv v2)).
Proof.
  destruct W1 as (X1 & Y1 & Z1), W2 as (X2 & Y2 & Z2), Wu as (Xu & Yu & Zu).
  destruct (comp _ _ _ X1 X2 Xu) as (Ax & Bx & Cx). destruct (comp _ _ _ Y1 Y2 Yu) as (Ay & By & Cy). destruct (comp _ _ _ Z1 Z2 Zu) as (Az & Bz & Cz).
  cbn [close3 momentum2 realv vx vy vz]. unfold close3, momentum2, realv; cbn [vx vy vz]. split; [|split].
  - exact (mom_comp _ _ _ _ _ Ax Bx).
  - exact (mom_comp _ _ _ _ _ Ay By).
  - exact (mom_comp _ _ _ _ _ Az Bz).
Qed.

Lemma ke_comp y z a b w : let C := share x1 x2 * a + share x2 x1 * b in appr y (C + share x2 x1 * w) D -> appr z (C - share x1 x2 * w) D -> Rabs C <= V -> Rabs w <= U ->
  Rabs (x1 * (real64 y * real64 y) + x2 * (real64 z * real64 z) - (x1 * (a * a) + x2 * (b * b)) - x1 * x2 / (x1 + x2) * (w * w - (a - b) * (a - b))) <= (x1 + x2) * (D * (2 * (2 * V + U))).
Proof.
  intros C Hy Hz HC Hw. pose proof x1_pos as P1. pose proof x2_pos as P2. rewrite <- (share_ke x1 x2 a b w P1 P2). fold C. pose proof D_small.
  destruct (comp_bound C w _ HC Hw (share_pos x2 x1 P2 P1)) as [L1 _]. destruct (comp_bound C w _ HC Hw (share_pos x1 x2 P1 P2)) as [_ L2].
  pose proof (appr_abs _ _ _ _ Hy L1) as L1'. pose proof (appr_abs _ _ _ _ Hz L2) as L2'.
  pose proof (sq_diff _ _ _ (2 * V + U) (proj2 Hy) ltac:(lra) ltac:(lra)) as Q1. pose proof (sq_diff _ _ _ (2 * V + U) (proj2 Hz) ltac:(lra) ltac:(lra)) as Q2.
  fold (real64 y) in Q1. fold (real64 z) in Q2. apply Rabs_le_inv in Q1, Q2. apply Rabs_le. set (E := D * (2 * (2 * V + U))) in *. split; nra.
Qed.
Lemma pair_energy : Rabs (kinetic x1 (realv q1) + kinetic x2 (realv q2) - (kinetic x1 (realv v1) + kinetic x2 (realv v2))
    - x1 * x2 / (x1 + x2) / 2 * (norm2 (realv u) - dist2 (realv v1) (realv v2))) <= 3 / 2 * ((x1 + x2) * (D * (2 * (2 * V + U)))).
Proof.
  destruct W1 as (X1 & Y1 & Z1), W2 as (X2 & Y2 & Z2), Wu as (Xu & Yu & Zu).
  destruct (comp _ _ _ X1 X2 Xu) as (Ax & Bx & Cx). destruct (comp _ _ _ Y1 Y2 Yu) as (Ay & By & Cy). destruct (comp _ _ _ Z1 Z2 Zu) as (Az & Bz & Cz).
  pose proof (ke_comp _ _ _ _ _ Ax Bx Cx (proj2 Xu)) as Ex. pose proof (ke_comp _ _ _ _ _ Ay By Cy (proj2 Yu)) as Ey. pose proof (ke_comp _ _ _ _ _ Az Bz Cz (proj2 Zu)) as Ez.
  change (vx q1) with (fadd (fadd (fmul (over_m2 mu) (vx v1)) (fmul (over_m1 mu) (vx v2))) (fmul (over_m1 mu) (vx u))).
  unfold kinetic, norm2, dist2, realv. cbn [vx vy vz].
  set (E := (x1 + x2) * (D * (2 * (2 * V + U)))) in *. set (m := x1 * x2 / (x1 + x2)) in *.
  change (fadd (fadd (fmul (over_m2 mu) (vx v1)) (fmul (over_m1 mu) (vx v2))) (fmul (over_m1 mu) (vx u))) with (vx q1) in *.
  change (fadd (fadd (fmul (over_m2 mu) (vy v1)) (fmul (over_m1 mu) (vy v2))) (fmul (over_m1 mu) (vy u))) with (vy q1) in *.
  change (fadd (fadd (fmul (over_m2 mu) (vz v1)) (fmul (over_m1 mu) (vz v2))) (fmul (over_m1 mu) (vz u))) with (vz q1) in *.
  change (fsub (fadd (fmul (over_m2 mu) (vx v1)) (fmul (over_m1 mu) (vx v2))) (fmul (over_m2 mu) (vx u))) with (vx q2) in *.
  change (fsub (fadd (fmul (over_m2 mu) (vy v1)) (fmul (over_m1 mu) (vy v2))) (fmul (over_m2 mu) (vy u))) with (vy q2) in *.
  change (fsub (fadd (fmul (over_m2 mu) (vz v1)) (fmul (over_m1 mu) (vz v2))) (fmul (over_m2 mu) (vz u))) with (vz q2) in *.
  apply Rabs_le_inv in Ex, Ey, Ez. apply Rabs_le. lra.
Qed.
End Pair.

(** ** The isotropic model *)
Section Iso.
Variables (lm : libm) (V kap : R) (v1 v2 : vec (F64 lm)) (r r' : F64 lm).
Hypothesis (HV : speed_ok V) (TR : trig_ok lm kap) (W1 : within V v1) (W2 : within V v2).
Hypothesis (Fr : is_finite r = true) (Hr : 0 <= real64 r <= 1) (Fr' : is_finite r' = true) (Hr' : 0 <= real64 r' <= 1).
Let S : binary64 := vabs (vsub v1 v2).
Lemma speed_S : is_finite S = true /\ 0 <= real64 S <= 4 * V /\ Rabs (real64 S * real64 S - dist2 (realv v1) (realv v2)) <= 85 * (ueps * (V * V)).
Proof.
  destruct W1 as ((Fx1 & X1) & (Fy1 & Y1) & (Fz1 & Z1)), W2 as ((Fx2 & X2) & (Fy2 & Y2) & (Fz2 & Z2)). pose proof (V_pos V HV) as PV.
  destruct (rel_near V HV _ _ Fx1 Fx2 X1 X2) as [Ax Lx]. destruct (rel_near V HV _ _ Fy1 Fy2 Y1 Y2) as [Ay Ly]. destruct (rel_near V HV _ _ Fz1 Fz2 Z1 Z2) as [Az Lz].
  pose proof (len2_near V HV _ _ _ _ _ _ Ax Ay Az Lx Ly Lz) as N. pose proof (len2_pos V HV _ _ _ _ _ _ Ax Ay Az Lx Ly Lz) as P.
  assert (Q : forall a, Rabs a <= 2 * V -> 0 <= a * a <= 4 * (V * V)). { intros w Hw. apply Rabs_le_inv in Hw. nra. }
  pose proof (Q _ Lx). pose proof (Q _ Ly). pose proof (Q _ Lz).
  destruct (speed_near V HV _ _ N P ltac:(lra)) as (F & B & E). split; [exact F|]. split; [exact B|].
  unfold dist2, realv. cbn [vx vy vz]. unfold real64 in *. eapply Rle_trans; [|exact E]. right. f_equal. unfold S, vabs, vsqr, sqr, vsub. cbn [vx vy vz nsqrt nadd nmul nsub F64]. ring.
Qed.
Let u : vec (F64 lm) := isoVel r r' S.
Lemma iso_within : within (4 * V) u /\ Rabs (norm2 (realv u) - dist2 (realv v1) (realv v2)) <= 320 * (ueps * (V * V)) + 16 * (kap * (V * V)).
Proof.
  destruct speed_S as (FS & HS & ES). destruct TR as [[Fp Hp] Ht]. destruct (angle_ok _ _ Fp Hp Fr' Hr') as [FC HC].
  destruct (Ht _ FC HC) as ((Fs & Ls) & (Fc & Lc) & Hk). destruct (cos_B r Fr Hr) as [FB HB]. destruct (sin_A _ FB HB) as (FA & HA & EA).
  set (B := fsub (fmul (fofZ 2) r) (fofZ 1)) in *. set (A := fsqrt (fsub (fofZ 1) (fmul B B))) in *. set (C := fmul (fmul (fofZ 2) (lm_pi lm)) r') in *.
  assert (Hk' : Rabs (real64 (lm_sin lm C) * real64 (lm_sin lm C) + real64 (lm_cos lm C) * real64 (lm_cos lm C) - 1) <= kap).
  { eapply Rle_trans; [|exact Hk]. right. f_equal. ring. }
  destruct (dir1 V S HV FS HS B FB ltac:(apply Rabs_le; lra)) as (F1 & L1 & _).
  destruct (dir2 V A S HV FA FS HA HS (lm_cos lm C) Fc Lc) as (F2 & L2 & _). destruct (dir2 V A S HV FA FS HA HS (lm_sin lm C) Fs Ls) as (F3 & L3 & _).
  pose proof (dir_len V A B (lm_cos lm C) (lm_sin lm C) S kap HV FA FB Fc Fs FS HA HB EA Lc Ls HS Hk') as N. cbv zeta in N.
  split; [split; [split; assumption|split; split; assumption]|].
  apply Rabs_le_inv in N, ES. unfold norm2, realv in *. cbn [vx vy vz] in *.
  change (vx u) with (fmul B S). change (vy u) with (fmul (fmul A (lm_cos lm C)) S). change (vz u) with (fmul (fmul A (lm_sin lm C)) S). unfold real64 in *. apply Rabs_le. lra.
Qed.
End Iso.

Lemma elastic_round lm kap (m1 m2 : F64 lm) V (p1 p2 : particle (F64 lm)) (r r' : F64 lm) : speed_ok V -> mass_ok m1 -> mass_ok m2 -> trig_ok lm kap ->
  within V (p_vel p1) -> within V (p_vel p2) -> is_finite r = true -> 0 <= real64 r <= 1 -> is_finite r' = true -> 0 <= real64 r' <= 1 ->
  let (q1, q2) := elastic_collide (ReducedMass m1 m2) p1 p2 r r' in
  within (6 * V) (p_vel q1) /\ within (6 * V) (p_vel q2) /\
  close3 (bpow radix2 (-47) * (real64 m1 + real64 m2) * V) (momentum2 (real64 m1) (realv (p_vel q1)) (real64 m2) (realv (p_vel q2)))
     (momentum2 (real64 m1) (realv (p_vel p1)) (real64 m2) (realv (p_vel p2))) /\
  Rabs (kinetic (real64 m1) (realv (p_vel q1)) + kinetic (real64 m2) (realv (p_vel q2))
        - (kinetic (real64 m1) (realv (p_vel p1)) + kinetic (real64 m2) (realv (p_vel p2))))
    <= (bpow radix2 (-43) + 2 * kap) * ((real64 m1 + real64 m2) * V ^ 2).
Proof.
  intros HV M1 M2 TR W1 W2 Fr Hr Fr' Hr'. unfold elastic_collide. cbn [p_vel setVelocity].
  pose proof (V_pos V HV) as PV. destruct (iso_within lm V kap _ _ r r' HV TR W1 W2 Fr Hr Fr' Hr') as [Wu Eu].
  set (u := isoVel r r' (vabs (vsub (p_vel p1) (p_vel p2)))) in *.
  destruct (pair_within lm m1 m2 V (4 * V) _ _ u HV M1 M2 W1 W2 Wu ltac:(lra)) as [Q1 Q2].
  pose proof (pair_momentum lm m1 m2 V (4 * V) _ _ u HV M1 M2 W1 W2 Wu ltac:(lra)) as Mo.
  pose proof (pair_energy lm m1 m2 V (4 * V) _ _ u HV M1 M2 W1 W2 Wu ltac:(lra)) as En.
  pose proof (x1_pos lm m1 M1) as P1. pose proof (x1_pos lm m2 M2) as P2.
  set (x1 := real64 m1) in *. set (x2 := real64 m2) in *. pose proof ueps_pos as HE.
  assert (EV : 0 <= ueps * V) by nra. assert (EVV : 0 <= ueps * (V * V)) by (apply Rmult_le_pos; nra).
  replace (2 * V + 4 * V) with (6 * V) in * by ring. split; [exact Q1|]. split; [exact Q2|]. split.
  - assert (B47 : bpow radix2 (-47) = 64 * ueps) by (unfold ueps; change (-47)%Z with (6 + -53)%Z; rewrite bpow_plus; reflexivity).
    assert (L : (x1 + x2) * (14 * (ueps * V) + 7 * (ueps * (4 * V))) <= bpow radix2 (-47) * (x1 + x2) * V).
    { rewrite B47. assert (0 <= (x1 + x2) * (ueps * V)) by (apply Rmult_le_pos; lra). lra. }
    unfold close3 in *. destruct (momentum2 x1 (realv (vadd _ _)) x2 _) as [[a b] c]. destruct (momentum2 x1 (realv (p_vel p1)) x2 _) as [[a' b'] c']. lra.
  - assert (B43 : bpow radix2 (-43) = 1024 * ueps) by (unfold ueps; change (-43)%Z with (10 + -53)%Z; rewrite bpow_plus; reflexivity).
    rewrite B43. destruct (mu_le x1 x2 P1 P2) as [Mu0 Mu1]. set (m := x1 * x2 / (x1 + x2)) in *. set (N := norm2 (realv u) - dist2 _ _) in *.
    assert (HN : Rabs (m / 2 * N) <= (x1 + x2) / 8 * (320 * (ueps * (V * V)) + 16 * (kap * (V * V)))).
    { rewrite Rabs_mult, (Rabs_pos_eq (m / 2)) by lra. apply Rmult_le_compat; [lra|apply Rabs_pos|lra|exact Eu]. }
    assert (0 <= (x1 + x2) * (ueps * (V * V))) by (apply Rmult_le_pos; lra).
    apply Rabs_le_inv in En, HN. apply Rabs_le. simpl pow. rewrite Rmult_1_r. lra.
Qed.
