(** Inelastic collisions with two products in binary64. *)
From Coq Require Import Reals Lra Lia ZArith Bool List.
From Flocq Require Import Core.Core IEEE754.BinarySingleNaN Relative.
From Verif Require Import Base Num ModelTerm ModelCollide SpecPhys SpecSet SpecRound ProofF64 ProofFloat ProofRound ProofRound2 ProofRound3 ProofRound4 ProofRound8 ProofRound9.
From Coq Require Import List.
Import ListNotations.
Local Open Scope R_scope.

(** The isotropic velocity for a given speed. *)
Lemma iso_of lm V kap (r r' S : F64 lm) : speed_ok V -> trig_ok lm kap -> is_finite r = true -> 0 <= real64 r <= 1 -> is_finite r' = true -> 0 <= real64 r' <= 1 ->
  is_finite S = true -> 0 <= real64 S <= 4 * V ->
  within (4 * V) (isoVel r r' S) /\ Rabs (norm2 (realv (isoVel r r' S)) - real64 S * real64 S) <= 235 * (ueps * (V * V)) + 16 * (kap * (V * V)).
Proof.
  intros HV TR Fr Hr Fr' Hr' FS HS. destruct TR as [[Fp Hp] Ht]. destruct (angle_ok _ _ Fp Hp Fr' Hr') as [FC HC].
  destruct (Ht _ FC HC) as ((Fs & Ls) & (Fc & Lc) & Hk). destruct (cos_B r Fr Hr) as [FB HB]. destruct (sin_A _ FB HB) as (FA & HA & EA).
  set (B := fsub (fmul (fofZ 2) r) (fofZ 1)) in *. set (A := fsqrt (fsub (fofZ 1) (fmul B B))) in *. set (C := fmul (fmul (fofZ 2) (lm_pi lm)) r') in *.
  assert (Hk' : Rabs (real64 (lm_sin lm C) * real64 (lm_sin lm C) + real64 (lm_cos lm C) * real64 (lm_cos lm C) - 1) <= kap).
  { eapply Rle_trans; [|exact Hk]. right. f_equal. ring. }
  destruct (dir1 V S HV FS HS B FB ltac:(apply Rabs_le; lra)) as (F1 & L1 & _).
  destruct (dir2 V A S HV FA FS HA HS (lm_cos lm C) Fc Lc) as (F2 & L2 & _). destruct (dir2 V A S HV FA FS HA HS (lm_sin lm C) Fs Ls) as (F3 & L3 & _).
  pose proof (dir_len V A B (lm_cos lm C) (lm_sin lm C) S kap HV FA FB Fc Fs FS HA HB EA Lc Ls HS Hk') as N. cbv zeta in N.
  split; [split; [split; assumption|split; split; assumption]|].
  apply Rabs_le_inv in N. unfold norm2, realv in *. cbn [vx vy vz] in *.
  change (vx (isoVel r r' S)) with (fmul B S). change (vy (isoVel r r' S)) with (fmul (fmul A (lm_cos lm C)) S). change (vz (isoVel r r' S)) with (fmul (fmul A (lm_sin lm C)) S). unfold real64 in *. apply Rabs_le. lra.
Qed.

(** The relative speed after the collision. *)
Lemma b46 : bpow radix2 (-46) = 128 * ueps. Proof. unfold ueps. change (-46)%Z with (7 + -53)%Z. rewrite bpow_plus. reflexivity. Qed.
Lemma vrel_near lm V (v1 v2 : vec (F64 lm)) (dE mu : F64 lm) (m : R) : speed_ok V -> within V v1 -> within V v2 ->
  is_finite dE = true -> rel mu m (33 / 10) -> bpow radix2 (-301) <= m <= bpow radix2 300 -> Rabs (fB2R dE) <= 3 / 2 * m * (V * V) ->
  (fB2R dE = 0 \/ bpow radix2 (-46) * (V * V) <= dist2 (realv v1) (realv v2) + 2 * fB2R dE / m) ->
  let S : binary64 := CalculateVRel (N:=F64 lm) (negb (Beqb dE (fofZ 0))) v1 v2 (fdiv (if negb (Beqb dE (fofZ 0)) then dE else fofZ 0) (fmul fhalf mu)) in
  is_finite S = true /\ 0 <= real64 S <= 4 * V /\ Rabs (real64 S * real64 S - (dist2 (realv v1) (realv v2) + 2 * fB2R dE / m)) <= 135 * (ueps * (V * V)).
Proof.
  intros HV W1 W2 Fd Hmu Hm Hd Hmar. pose proof (V_pos V HV) as PV. destruct (ee (V * V) ltac:(nra)) as (X1 & X2 & X3). pose proof (bpow_gt_0 radix2 (-301)).
  assert (BE : Beqb dE (fofZ 0) = true <-> fB2R dE = 0).
  { rewrite Beqb_correct by (try assumption; apply fofZ_exact; cbn; lia). change (B2R (fofZ 0)) with (fB2R (fofZ 0)). rewrite fofZ0. destruct (Req_bool_spec (B2R dE) 0) as [h|h]; split; intros h1; try reflexivity; try assumption; try discriminate. contradiction. }
  destruct (Beqb dE (fofZ 0)) eqn:EB.
  - destruct BE as [BE _]. specialize (BE eq_refl). cbn [negb]. unfold CalculateVRel. destruct (speed_S lm V v1 v2 HV W1 W2) as (F & B & E).
    split; [exact F|]. split; [exact B|]. rewrite BE. replace (2 * 0 / m) with 0 by (field; lra). rewrite Rplus_0_r. eapply Rle_trans; [exact E|]. lra.
  - cbn [negb]. unfold CalculateVRel. assert (Mar : bpow radix2 (-46) * (V * V) <= dist2 (realv v1) (realv v2) + 2 * fB2R dE / m).
    { destruct Hmar as [Hz|Hmar]; [|exact Hmar]. destruct BE as [_ BE]. specialize (BE Hz). discriminate. }
    destruct (gain_near V dE mu m HV Fd Hmu Hm Hd) as [Gn Gl].
    destruct W1 as ((Fx1 & Lx1) & (Fy1 & Ly1) & (Fz1 & Lz1)), W2 as ((Fx2 & Lx2) & (Fy2 & Ly2) & (Fz2 & Lz2)).
    destruct (rel_near V HV _ _ Fx1 Fx2 Lx1 Lx2) as [Ax Lx]. destruct (rel_near V HV _ _ Fy1 Fy2 Ly1 Ly2) as [Ay Ly]. destruct (rel_near V HV _ _ Fz1 Fz2 Lz1 Lz2) as [Az Lz].
    pose proof (len2_near V HV _ _ _ _ _ _ Ax Ay Az Lx Ly Lz) as N.
    assert (Q : forall a, Rabs a <= 2 * V -> 0 <= a * a <= 4 * (V * V)). { intros w Hw. apply Rabs_le_inv in Hw. nra. }
    pose proof (Q _ Lx). pose proof (Q _ Ly). pose proof (Q _ Lz).
    set (q := fadd (fadd _ _) _) in N. set (g := fdiv dE (fmul fhalf mu)) in *. set (G := 2 * fB2R dE / m) in *.
    assert (ED : dist2 (realv v1) (realv v2) = (fB2R (vx v1) - fB2R (vx v2)) * (fB2R (vx v1) - fB2R (vx v2)) + (fB2R (vy v1) - fB2R (vy v2)) * (fB2R (vy v1) - fB2R (vy v2)) + (fB2R (vz v1) - fB2R (vz v2)) * (fB2R (vz v1) - fB2R (vz v2))).
    { unfold dist2, realv, real64. cbn [vx vy vz]. ring. }
    rewrite <- ED in N. clear Hmar. set (L2 := dist2 (realv v1) (realv v2)) in *. assert (HL2 : 0 <= L2 <= 12 * (V * V)) by (rewrite ED; lra).
    assert (A : appr (fadd q g) (L2 + G) (100 * (ueps * (V * V)))).
    { apply Rabs_le_inv in Gl. pose proof (big2 V HV). apply (appr_add _ _ _ _ _ _ (15 * (V * V)) _ N Gn); [apply Rabs_le; lra|lra|lra]. }
    assert (P : 0 <= fB2R (fadd q g)).
    { destruct N as [Fq Nq], Gn as [Fg Ng]. apply Rabs_le_inv in Nq, Ng, Gl. rewrite b46 in Mar. assert (P0 : 0 <= fB2R q + fB2R g) by lra. pose proof (big2 V HV).
      destruct (fadd_ok q g Fq Fg) as [-> _]; [apply rnd_fits; rewrite Rabs_pos_eq; lra|]. apply rnd_ge0, P0. }
    apply Rabs_le_inv in Gl. destruct (speed_near2 V _ _ HV A P ltac:(lra)) as (F & B & E). split; [exact F|]. split; [exact B|]. exact E.
Qed.

(** ** Two products *)
Lemma share_mom2 M0 M1 C w : 0 < M0 -> 0 < M1 -> M0 * (C + share M1 M0 * w) + M1 * (C - share M0 M1 * w) = (M0 + M1) * C.
Proof. intros. unfold share. field. lra. Qed.
Lemma share_ke2 M0 M1 C w : 0 < M0 -> 0 < M1 ->
  M0 * ((C + share M1 M0 * w) * (C + share M1 M0 * w)) + M1 * ((C - share M0 M1 * w) * (C - share M0 M1 * w)) = (M0 + M1) * (C * C) + rmass M0 M1 * (w * w).
Proof. intros. unfold share, rmass. field. lra. Qed.
Lemma cm_mom m1 m2 a b : 0 < m1 -> 0 < m2 -> (m1 + m2) * (share m1 m2 * a + share m2 m1 * b) = m1 * a + m2 * b.
Proof. intros. unfold share. field. lra. Qed.
Lemma cm_ke m1 m2 a b (C := share m1 m2 * a + share m2 m1 * b) : 0 < m1 -> 0 < m2 -> (m1 + m2) * (C * C) = m1 * (a * a) + m2 * (b * b) - rmass m1 m2 * ((a - b) * (a - b)).
Proof. intros. unfold C, share, rmass. field. lra. Qed.
Lemma rmass_pos x y : 0 < x -> 0 < y -> 0 < rmass x y <= (x + y) / 4.
Proof. intros. split; [apply Rdiv_lt_0_compat; nra|apply mu_le; assumption]. Qed.
Lemma mass_pos (m : binary64) : mass_ok m -> 0 < real64 m. Proof. intros [_ H]. exact (massR_pos _ H). Qed.

(** The scale is at most 1.001 K when the reduced mass grows at most by K^2. *)
Lemma scale_le K s q : 1 <= K -> 0 <= s -> 0 <= q -> Rabs (s * s - q) <= 11 * ueps * q -> q <= K * K -> s <= 1001 / 1000 * K.
Proof.
  intros HK Hs Hq H L. pose proof ueps_pos. apply Rabs_le_inv in H. destruct (Rle_dec s (1001 / 1000 * K)) as [|h]; [assumption|]. exfalso. apply Rnot_le_lt in h.
  assert ((1001 / 1000 * K) * (1001 / 1000 * K) <= s * s) by (apply Rmult_le_compat; lra). assert (0 < K * K) by nra. assert (11 * ueps * q <= / 1000000 * q) by (apply Rmult_le_compat_r; lra). lra.
Qed.

(** One component, in reals: what rounding errors [D] of the final velocities do to momentum and energy. *)
Section Real22.
Variables m1 m2 M0 M1 a b w s y z D V L : R.
Let C := share m1 m2 * a + share m2 m1 * b.
Hypothesis (P1 : 0 < m1) (P2 : 0 < m2) (Q0 : 0 < M0) (Q1 : 0 < M1) (Hb : Rabs (M0 + M1 - (m1 + m2)) <= 8 * ueps * (m1 + m2)) (LC : Rabs C <= V).
Hypothesis (Hy : Rabs (y - (C + share M1 M0 * s * w)) <= D) (Hz : Rabs (z - (C - share M0 M1 * s * w)) <= D).
Lemma mom22_real : Rabs (M0 * y + M1 * z - (m1 * a + m2 * b)) <= (M0 + M1) * D + 8 * ueps * ((m1 + m2) * V).
Proof using P1 P2 Q0 Q1 Hb LC Hy Hz.
  rewrite <- (cm_mom m1 m2 a b P1 P2). fold C.
  replace (M0 * y + M1 * z - (m1 + m2) * C) with (M0 * (y - (C + share M1 M0 * s * w)) + M1 * (z - (C - share M0 M1 * s * w)) + ((M0 + M1) - (m1 + m2)) * C
    + (M0 * (C + share M1 M0 * (s * w)) + M1 * (C - share M0 M1 * (s * w)) - (M0 + M1) * C)) by ring.
  rewrite (share_mom2 M0 M1 C (s * w) Q0 Q1).
  assert (H3 : Rabs ((M0 + M1 - (m1 + m2)) * C) <= 8 * ueps * (m1 + m2) * V) by (rewrite Rabs_mult; apply Rmult_le_compat; try apply Rabs_pos; assumption).
  assert (H1 : Rabs (M0 * (y - (C + share M1 M0 * s * w))) <= M0 * D) by (rewrite Rabs_mult, (Rabs_pos_eq M0) by lra; apply Rmult_le_compat_l; lra).
  assert (H2 : Rabs (M1 * (z - (C - share M0 M1 * s * w))) <= M1 * D) by (rewrite Rabs_mult, (Rabs_pos_eq M1) by lra; apply Rmult_le_compat_l; lra).
  apply Rabs_le_inv in H1, H2, H3. apply Rabs_le. lra.
Qed.
Hypothesis (Ly : Rabs (C + share M1 M0 * s * w) <= L) (Lz : Rabs (C - share M0 M1 * s * w) <= L) (Ly' : Rabs y <= L) (Lz' : Rabs z <= L).
Lemma ke22_real : Rabs (M0 * (y * y) + M1 * (z * z) - (m1 * (a * a) + m2 * (b * b)) - (rmass M0 M1 * (s * s) * (w * w) - rmass m1 m2 * ((a - b) * (a - b))))
  <= (M0 + M1) * (D * (2 * L)) + 8 * ueps * ((m1 + m2) * (V * V)).
Proof using All.
  pose proof (cm_ke m1 m2 a b P1 P2) as E1. cbv zeta in E1. fold C in E1. pose proof (share_ke2 M0 M1 C (s * w) Q0 Q1) as E2.
  pose proof (sq_diff _ _ _ L Hy Ly' Ly) as H1. pose proof (sq_diff _ _ _ L Hz Lz' Lz) as H2.
  set (y0 := C + share M1 M0 * s * w) in *. set (z0 := C - share M0 M1 * s * w) in *.
  replace (C + share M1 M0 * (s * w)) with y0 in E2 by (unfold y0; ring). replace (C - share M0 M1 * (s * w)) with z0 in E2 by (unfold z0; ring).
  assert (H3 : Rabs ((M0 + M1 - (m1 + m2)) * (C * C)) <= 8 * ueps * (m1 + m2) * (V * V)).
  { rewrite Rabs_mult; apply Rmult_le_compat; try apply Rabs_pos; [assumption|]. rewrite Rabs_mult. apply Rmult_le_compat; try apply Rabs_pos; assumption. }
  assert (H1' : Rabs (M0 * (y * y - y0 * y0)) <= M0 * (D * (2 * L))) by (rewrite Rabs_mult, (Rabs_pos_eq M0) by lra; apply Rmult_le_compat_l; lra).
  assert (H2' : Rabs (M1 * (z * z - z0 * z0)) <= M1 * (D * (2 * L))) by (rewrite Rabs_mult, (Rabs_pos_eq M1) by lra; apply Rmult_le_compat_l; lra).
  apply Rabs_le_inv in H1', H2', H3. apply Rabs_le. set (E := D * (2 * L)) in *. set (r0 := rmass M0 M1) in *. set (r1 := rmass m1 m2) in *. lra.
Qed.
End Real22.

(** Reading a bound on one float component. *)
Lemma appr_within x a k L V : appr x a (k * (ueps * V)) -> Rabs a <= L * V -> 0 <= V -> 0 <= k <= 100 -> is_finite x = true /\ Rabs (real64 x) <= (L + / 1000) * V.
Proof.
  intros H HL PV Hk. split; [apply H|]. pose proof (appr_abs _ _ _ _ H HL) as B. unfold real64. pose proof ueps_pos. assert (0 <= ueps * V) by nra. assert (ueps * V <= / 1000000 * V) by (apply Rmult_le_compat_r; lra).
  assert (k * (ueps * V) <= 100 * (ueps * V)) by (apply Rmult_le_compat_r; lra). lra.
Qed.

Section Two.
Variables (lm : libm) (m1 m2 M0 M1 sc : F64 lm) (V K : R).
Hypothesis (HV : speed_ok V) (HK : 1 <= K <= bpow radix2 100) (A1 : mass_ok m1) (A2 : mass_ok m2) (B0 : mass_ok M0) (B1 : mass_ok M1).
Hypothesis (Fs : is_finite sc = true) (Hs : 0 <= real64 sc <= 1001 / 1000 * K).
Let mu := ReducedMass m1 m2. Let nu := ReducedMass M0 M1.
Let x1 := real64 m1. Let x2 := real64 m2. Let y0 := real64 M0. Let y1 := real64 M1.
Lemma cm_step (a b : binary64) : is_finite a = true /\ Rabs (real64 a) <= V -> is_finite b = true /\ Rabs (real64 b) <= V ->
  let c := fadd (fmul (over_m2 mu) a) (fmul (over_m1 mu) b) in let C := share x1 x2 * real64 a + share x2 x1 * real64 b in
  appr c C (12 * (ueps * (K * V))) /\ Rabs C <= V /\ Rabs C <= 1 * (K * V).
Proof using HV HK A1 A2.
  intros [Fa La] [Fb Lb] c C. destruct A1 as [F1 H1], A2 as [F2 H2]. pose proof (mass_pos _ A1) as P1. pose proof (mass_pos _ A2) as P2.
  pose proof (over_near m1 m2 F1 F2 H1 H2) as O1. pose proof (over_near m2 m1 F2 F1 H2 H1) as O2.
  destruct (share_pos x1 x2 P1 P2) as [S1 _]. destruct (share_pos x2 x1 P2 P1) as [S2 _]. pose proof (share_sum x1 x2 P1 P2) as SS.
  pose proof (cm_near V HV (over_m1 mu) (over_m2 mu) a b _ _ O1 O2 S1 S2 SS Fa Fb La Lb) as N. pose proof (absC V a b _ _ S1 S2 SS La Lb) as LC.
  destruct (KV_pos V K HV HK) as (PV & LK & PK). split; [|split; [exact LC|]].
  - eapply appr_weak; [exact N|]. apply Rmult_le_compat_l; [lra|]. apply Rmult_le_compat_l; [pose proof ueps_pos; lra|exact LK].
  - eapply Rle_trans; [exact LC|lra].
Qed.
Lemma factors : appr (fmul (over_m1 nu) sc) (share y1 y0 * real64 sc) (52 / 10 * (ueps * K)) /\ Rabs (share y1 y0 * real64 sc) <= 1001 / 1000 * K /\
  appr (fmul (over_m2 nu) sc) (share y0 y1 * real64 sc) (52 / 10 * (ueps * K)) /\ Rabs (share y0 y1 * real64 sc) <= 1001 / 1000 * K.
Proof using HV HK B0 B1 Fs Hs.
  destruct B0 as [F1 H1], B1 as [F2 H2]. pose proof (mass_pos _ B0) as P1. pose proof (mass_pos _ B1) as P2.
  pose proof (over_near M0 M1 F1 F2 H1 H2) as O1. pose proof (over_near M1 M0 F2 F1 H2 H1) as O2.
  destruct (factor_near V K HV HK _ sc _ O1 (share_pos _ _ P2 P1) Fs Hs) as [N1 L1]. destruct (factor_near V K HV HK _ sc _ O2 (share_pos _ _ P1 P2) Fs Hs) as [N2 L2].
  split; [exact N1|]. split; [exact L1|]. split; [exact N2|exact L2].
Qed.
Lemma comp22 (a b w : binary64) : is_finite a = true /\ Rabs (real64 a) <= V -> is_finite b = true /\ Rabs (real64 b) <= V -> is_finite w = true /\ Rabs (real64 w) <= 4 * V ->
  let c := fadd (fmul (over_m2 mu) a) (fmul (over_m1 mu) b) in let C := share x1 x2 * real64 a + share x2 x1 * real64 b in
  let y := fadd c (fmul (fmul (over_m1 nu) sc) w) in let z := fsub c (fmul (fmul (over_m2 nu) sc) w) in
  (appr y (C + share y1 y0 * real64 sc * real64 w) (43 * (ueps * (K * V))) /\ Rabs (C + share y1 y0 * real64 sc * real64 w) <= 6 * (K * V)) /\
  (appr z (C - share y0 y1 * real64 sc * real64 w) (43 * (ueps * (K * V))) /\ Rabs (C - share y0 y1 * real64 sc * real64 w) <= (1 + 4004 / 1000) * (K * V)) /\
  (is_finite y = true /\ Rabs (real64 y) <= 6 * (K * V)) /\ (is_finite z = true /\ Rabs (real64 z) <= 6 * (K * V)) /\ Rabs C <= V.
Proof using HV HK A1 A2 B0 B1 Fs Hs.
  intros Ha Hb [Fw Lw] c C y z. destruct (cm_step a b Ha Hb) as (N & LC & LC1). fold c C in N, LC, LC1. destruct factors as (N1 & L1 & N2 & L2). destruct (KV_pos V K HV HK) as (PV & LK & PK).
  destruct (step_add V K HV HK c (fmul (over_m1 nu) sc) w C _ 12 1 43 N LC1 ltac:(lra) ltac:(lra) N1 L1 Fw Lw ltac:(lra)) as [Ny Ly].
  destruct (step_sub V K HV HK c (fmul (over_m2 nu) sc) w C _ 12 1 43 N LC1 ltac:(lra) ltac:(lra) N2 L2 Fw Lw ltac:(lra)) as [Nz Lz].
  destruct (appr_within _ _ _ _ _ Ny Ly ltac:(lra) ltac:(lra)) as [Fy Ly']. destruct (appr_within _ _ _ _ _ Nz Lz ltac:(lra) ltac:(lra)) as [Fz Lz'].
  split; [split; [exact Ny|eapply Rle_trans; [exact Ly|lra]]|]. split; [split; [exact Nz|eapply Rle_trans; [exact Lz|lra]]|].
  split; [split; [exact Fy|eapply Rle_trans; [exact Ly'|lra]]|]. split; [split; [exact Fz|eapply Rle_trans; [exact Lz'|lra]]|exact LC].
Qed.
End Two.
