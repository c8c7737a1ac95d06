(** Rounding errors of the VSS model in binary64: the turned relative velocity. *)
From Coq Require Import Reals Lra Lia ZArith Bool List.
From Flocq Require Import Core.Core IEEE754.BinarySingleNaN Relative.
From Verif Require Import Base Num ModelTerm ModelCollide SpecPhys SpecSet SpecRound ProofF64 ProofFloat ProofRound ProofRound2 ProofRound3 ProofRound4 ProofRound5.
From Coq Require Import List.
Import ListNotations.
Local Open Scope R_scope.
Notation big := (bpow radix2 1000).

Lemma shrink X : 0 <= X -> 0 <= ueps * X <= X.
Proof. intros H. pose proof ueps_pos. split; [apply Rmult_le_pos; lra|]. rewrite <- (Rmult_1_l X) at 2. apply Rmult_le_compat_r; lra. Qed.

Section Turn.
Variables (V : R) (x y z S D A B c s : binary64).
Hypothesis HV : bpow radix2 (-400) <= V <= bpow radix2 400.
Hypothesis (Fx : is_finite x = true) (Fy : is_finite y = true) (Fz : is_finite z = true) (FS : is_finite S = true) (FD : is_finite D = true).
Hypothesis (FA : is_finite A = true) (FB : is_finite B = true) (Fc : is_finite c = true) (Fs : is_finite s = true).
Hypothesis (Lx : Rabs (fB2R x) <= 21 / 10 * V) (Ly : Rabs (fB2R y) <= 21 / 10 * V) (Lz : Rabs (fB2R z) <= 21 / 10 * V).
Hypothesis (HS : 0 <= fB2R S <= 4 * V) (HD : 99 / 100000000 < fB2R D <= 4 * V).
Hypothesis (Ky : Rabs (fB2R y) <= 1001 / 1000 * fB2R D) (Kz : Rabs (fB2R z) <= 1001 / 1000 * fB2R D).
Hypothesis (HA : 0 <= fB2R A <= 1) (HB : -1 <= fB2R B <= 1) (Hc : Rabs (fB2R c) <= 1) (Hs : Rabs (fB2R s) <= 1).
Let d := fB2R D.
Let i := / d.
Lemma di : d * i = 1. Proof. unfold i, d. apply Rinv_r. lra. Qed.
Lemma i_pos : 0 < i <= 2000000.
Proof. unfold i, d. split; [apply Rinv_0_lt_compat; lra|]. replace 2000000 with (/ (1 / 2000000)) by field. apply Rinv_le_contravar; lra. Qed.
Lemma eta_i : 1000 * (i * ueta) <= ueps * V.
Proof.
  assert (H : ueta * bpow radix2 80 <= ueps * V).
  { apply Rle_trans with (ueps * bpow radix2 (-400)); [unfold ueta, ueps; rewrite <- !bpow_plus; apply bpow_le; lia|]. apply Rmult_le_compat_l; [pose proof ueps_pos; lra|lra]. }
  assert (1000 * 2000000 <= bpow radix2 80) by (cbn; lra). pose proof i_pos. pose proof ueta_pos. assert (i * ueta <= 2000000 * ueta) by (apply Rmult_le_compat_r; lra). nra.
Qed.
Lemma eta_d : 1000 * (ueta * (V * d)) <= ueps * V.
Proof.
  assert (H : ueta * bpow radix2 20 * bpow radix2 400 <= ueps).
  { unfold ueta, ueps. rewrite <- !bpow_plus. apply bpow_le. lia. }
  pose proof (V_pos V HV). pose proof ueta_pos. pose proof (bpow_gt_0 radix2 400). assert (4000 <= bpow radix2 20) by (cbn; lra).
  assert (1000 * (ueta * d) <= ueps). { apply Rle_trans with (2 := H). unfold d. apply Rle_trans with (4000 * ueta * bpow radix2 400); [|apply Rmult_le_compat_r; nra].
    replace (1000 * (ueta * fB2R D)) with (1000 * ueta * fB2R D) by ring. replace (4000 * ueta * bpow radix2 400) with (1000 * ueta * (4 * bpow radix2 400)) by ring. apply Rmult_le_compat_l; lra. }
  replace (1000 * (ueta * (V * d))) with (1000 * (ueta * d) * V) by ring. apply Rmult_le_compat_r; lra.
Qed.

Lemma triple (p w t : binary64) P : is_finite p = true -> is_finite w = true -> is_finite t = true -> Rabs (fB2R p) <= P -> P <= 4 * V ->
  Rabs (fB2R w) <= 1001 / 1000 * d -> Rabs (fB2R t) <= 1 ->
  appr (fmul (fmul p w) t) (fB2R p * fB2R w * fB2R t) (22 / 10 * (ueps * (P * d)) + 3 * ueta) /\ Rabs (fB2R p * fB2R w * fB2R t) <= 1001 / 1000 * (P * d).
Proof.
  intros Fp Fw Ft Lp HP Lw Lt. assert (P0 : 0 <= P) by (pose proof (Rabs_pos (fB2R p)); lra). assert (Pd : 0 < d) by (unfold d; lra). pose proof (big2 V HV). pose proof (V_pos V HV). pose proof ueps_pos. pose proof ueta_pos. pose proof (eta2 V HV).
  assert (PD0 : 0 <= P * d) by nra. destruct (ee (P * d) PD0) as (E1 & E2 & E3). assert (PD : P * d <= 16 * (V * V)). { apply Rle_trans with (4 * V * (4 * V)); [apply Rmult_le_compat; unfold d in *; lra|lra]. }
  destruct (ee (V * V) ltac:(nra)) as (W1 & W2 & W3). assert (M : ueps * ueta <= ueta / 4) by nra.
  assert (A1 : appr (fmul p w) (fB2R p * fB2R w) (1002 / 1000 * (ueps * (P * d)) + ueta)).
  { apply (appr_mul p _ 0 w _ 0 P (1001 / 1000 * d) _ (appr_self _ Fp) (appr_self _ Fw) Lp Lw); lra. }
  assert (L1 : Rabs (fB2R p * fB2R w) <= 1001 / 1000 * (P * d)). { rewrite Rabs_mult. replace (1001 / 1000 * (P * d)) with (P * (1001 / 1000 * d)) by ring. apply Rmult_le_compat; try apply Rabs_pos; assumption. }
  split.
  - apply (appr_mul _ _ _ t _ 0 (1001 / 1000 * (P * d)) 1 _ A1 (appr_self _ Ft) L1 Lt); lra.
  - rewrite Rabs_mult. pose proof (Rabs_pos (fB2R t)). pose proof (Rabs_pos (fB2R p * fB2R w)). nra.
Qed.
Lemma AD_near : appr (fdiv A D) (fB2R A * i) (ueps * i + ueta) /\ Rabs (fB2R A * i) <= i.
Proof.
  pose proof i_pos. assert (L : Rabs (fB2R A * i) <= i) by (rewrite Rabs_mult, (Rabs_pos_eq (fB2R A)), (Rabs_pos_eq i) by lra; nra). split; [|exact L].
  assert (N : fB2R D <> 0) by lra. destruct (fdiv_ok A D FA N) as [E F].
  - apply rnd_fits. change (fB2R A / fB2R D) with (fB2R A * i). apply Rle_trans with (1 := L). apply Rle_trans with (bpow radix2 30); [cbn; lra|apply bpow_le; lia].
  - split; [exact F|]. rewrite E. change (fB2R A / fB2R D) with (fB2R A * i). eapply Rle_trans; [apply rnd_err|]. pose proof ueps_pos. nra.
Qed.
(** A_D times the bracket. *)
Lemma bracket (W : binary64) (w : R) : appr W w (20 * (ueps * (V * d)) + 8 * ueta) -> Rabs w <= 62 / 10 * (V * d) ->
  appr (fmul (fdiv A D) W) (fB2R A * i * w) (33 * (ueps * V)) /\ Rabs (fB2R A * i * w) <= 62 / 10 * V.
Proof.
  intros HW Lw. destruct AD_near as [AD LA]. pose proof di as DI. pose proof i_pos as PI0. pose proof (V_pos V HV) as PV. assert (Pd : 0 < d) by (unfold d; lra).
  assert (I1 : i * (V * d) = V) by (replace (i * (V * d)) with (V * (d * i)) by ring; rewrite DI; ring).
  assert (I2 : i * (ueps * (V * d)) = ueps * V) by (rewrite <- I1 at 2; ring).
  assert (I3 : ueps * (i * (ueps * (V * d))) = ueps * (ueps * V)) by (rewrite I2; ring).
  assert (I4 : ueps * (i * (V * d)) = ueps * V) by (rewrite I1; ring).
  destruct (ee V ltac:(lra)) as (E1 & E2 & E3). pose proof eta_i as T1. pose proof eta_d as T2. pose proof (big1 V HV) as B1. pose proof (eta1 V HV) as T3. pose proof ueps_pos as HE. pose proof ueta_pos as HT.
  assert (X5 : 0 <= i * ueta) by (apply Rmult_le_pos; lra). assert (X6 : 0 <= ueta * (V * d)) by (apply Rmult_le_pos; [lra|apply Rmult_le_pos; lra]).
  assert (X0 : ueta <= 1) by (pose proof eta0; lra). assert (X3 : 0 <= ueta * ueta <= ueta) by nra.
  pose proof (shrink _ X5) as X1. pose proof (shrink _ (proj1 X1)) as X8. pose proof (shrink _ X6) as X2. pose proof (shrink _ (proj1 X2)) as X9. pose proof (shrink _ (proj1 X3)) as X4. pose proof (shrink ueta ltac:(lra)) as X10.
  pose proof (shrink (ueps * (ueps * V)) ltac:(apply Rmult_le_pos; lra)) as X7.
  assert (I5 : ueps * (ueps * (i * (ueps * (V * d)))) = ueps * (ueps * (ueps * V))) by (rewrite I2; ring).
  split.
  - apply (appr_mul _ _ _ _ _ _ i (62 / 10 * (V * d)) _ AD HW LA Lw); lra.
  - rewrite Rabs_mult. apply Rle_trans with (i * (62 / 10 * (V * d))); [apply Rmult_le_compat; try apply Rabs_pos; assumption|lra].
Qed.
Lemma times_B (w : binary64) : is_finite w = true -> Rabs (fB2R w) <= 21 / 10 * V -> appr (fmul B w) (fB2R B * fB2R w) (22 / 10 * (ueps * V)) /\ Rabs (fB2R B * fB2R w) <= 21 / 10 * V.
Proof.
  intros Fw Lw. assert (LB : Rabs (fB2R B) <= 1) by (apply Rabs_le; lra). pose proof (V_pos V HV). destruct (ee V ltac:(lra)) as (E1 & E2 & E3). pose proof (big1 V HV). pose proof (eta1 V HV).
  split; [apply (appr_mul _ _ _ _ _ _ 1 (21 / 10 * V) _ (appr_self _ FB) (appr_self _ Fw) LB Lw); lra|]. rewrite Rabs_mult. pose proof (Rabs_pos (fB2R w)). nra.
Qed.

Let X := fB2R B * fB2R x + fB2R A * fB2R s * d.
Let Y := fB2R B * fB2R y + fB2R A * i * (fB2R S * fB2R z * fB2R c - fB2R x * fB2R y * fB2R s).
Let Z := fB2R B * fB2R z - fB2R A * i * (fB2R S * fB2R y * fB2R c + fB2R x * fB2R z * fB2R s).
Let E := 45 * (ueps * V).
Lemma turn_x : appr (fadd (fmul B x) (fmul (fmul A s) D)) X E /\ Rabs X <= 85 / 10 * V.
Proof.
  destruct (times_B x Fx Lx) as [B1 B2]. pose proof (V_pos V HV) as PV. destruct (ee V ltac:(lra)) as (E1 & E2 & E3). pose proof (big1 V HV). pose proof (eta1 V HV). pose proof ueps_pos. pose proof eta0. pose proof ueta_pos.
  assert (A1 : appr (fmul A s) (fB2R A * fB2R s) (1001 / 1000 * ueps)).
  { apply (appr_mul A (fB2R A) 0 s (fB2R s) 0 1 1 _ (appr_self _ FA) (appr_self _ Fs)); [rewrite Rabs_pos_eq; lra|exact Hs|pose proof big0; lra|lra]. }
  assert (L1 : Rabs (fB2R A * fB2R s) <= 1) by (rewrite Rabs_mult, (Rabs_pos_eq (fB2R A)) by lra; pose proof (Rabs_pos (fB2R s)); nra).
  assert (LD : Rabs d <= 4 * V) by (unfold d; rewrite Rabs_pos_eq; lra).
  assert (A2 : appr (fmul (fmul A s) D) (fB2R A * fB2R s * d) (9 * (ueps * V))).
  { apply (appr_mul _ _ _ D _ 0 1 (4 * V) _ A1 (appr_self _ FD) L1 LD); lra. }
  assert (L2 : Rabs (fB2R A * fB2R s * d) <= 4 * V). { rewrite Rabs_mult. pose proof (Rabs_pos (fB2R A * fB2R s)). pose proof (Rabs_pos d). nra. }
  assert (L3 : Rabs X <= 61 / 10 * V) by (unfold X; eapply Rle_trans; [apply Rabs_triang|lra]).
  split; [|lra]. unfold E, X in *. apply (appr_add _ _ _ _ _ _ (61 / 10 * V) _ B1 A2 L3); lra.
Qed.
Lemma turn_y : appr (fadd (fmul B y) (fmul (fdiv A D) (fsub (fmul (fmul S z) c) (fmul (fmul x y) s)))) Y E /\ Rabs Y <= 85 / 10 * V.
Proof.
  destruct (times_B y Fy Ly) as [B1 B2]. pose proof (V_pos V HV) as PV. destruct (ee V ltac:(lra)) as (E1 & E2 & E3). pose proof (big1 V HV). pose proof (big2 V HV). pose proof (eta1 V HV). pose proof ueps_pos. pose proof ueta_pos.
  assert (Pd : 0 < d) by (unfold d; lra). assert (Vd : 0 <= V * d <= 4 * (V * V)) by (unfold d in *; nra). destruct (ee (V * d) ltac:(lra)) as (W1 & W2 & W3).
  destruct (triple S z c (4 * V) FS Fz Fc ltac:(rewrite Rabs_pos_eq; lra) ltac:(lra) Kz Hc) as [T1 L1]. destruct (triple x y s (21 / 10 * V) Fx Fy Fs Lx ltac:(lra) Ky Hs) as [T2 L2].
  assert (LW : Rabs (fB2R S * fB2R z * fB2R c - fB2R x * fB2R y * fB2R s) <= 62 / 10 * (V * d)) by (apply Rabs_le_inv in L1, L2; apply Rabs_le; lra).
  assert (M : ueps * ueta <= ueta / 4) by nra. pose proof (eta2 V HV). destruct (ee (V * V) ltac:(nra)) as (Q1 & Q2 & Q3).
  pose proof (appr_sub _ _ _ _ _ _ _ (20 * (ueps * (V * d)) + 8 * ueta) T1 T2 LW ltac:(lra) ltac:(lra)) as TW.
  destruct (bracket _ _ TW LW) as [G1 G2].
  assert (L3 : Rabs Y <= 83 / 10 * V) by (unfold Y; eapply Rle_trans; [apply Rabs_triang|lra]).
  split; [|lra]. unfold E, Y in *. apply (appr_add _ _ _ _ _ _ (83 / 10 * V) _ B1 G1 L3); lra.
Qed.
Lemma turn_z : appr (fsub (fmul B z) (fmul (fdiv A D) (fadd (fmul (fmul S y) c) (fmul (fmul x z) s)))) Z E /\ Rabs Z <= 85 / 10 * V.
Proof.
  destruct (times_B z Fz Lz) as [B1 B2]. pose proof (V_pos V HV) as PV. destruct (ee V ltac:(lra)) as (E1 & E2 & E3). pose proof (big1 V HV). pose proof (big2 V HV). pose proof (eta1 V HV). pose proof ueps_pos. pose proof ueta_pos.
  assert (Pd : 0 < d) by (unfold d; lra). assert (Vd : 0 <= V * d <= 4 * (V * V)) by (unfold d in *; nra). destruct (ee (V * d) ltac:(lra)) as (W1 & W2 & W3).
  destruct (triple S y c (4 * V) FS Fy Fc ltac:(rewrite Rabs_pos_eq; lra) ltac:(lra) Ky Hc) as [T1 L1]. destruct (triple x z s (21 / 10 * V) Fx Fz Fs Lx ltac:(lra) Kz Hs) as [T2 L2].
  assert (LW : Rabs (fB2R S * fB2R y * fB2R c + fB2R x * fB2R z * fB2R s) <= 62 / 10 * (V * d)) by (apply Rabs_le_inv in L1, L2; apply Rabs_le; lra).
  assert (M : ueps * ueta <= ueta / 4) by nra. pose proof (eta2 V HV). destruct (ee (V * V) ltac:(nra)) as (Q1 & Q2 & Q3).
  pose proof (appr_add _ _ _ _ _ _ _ (20 * (ueps * (V * d)) + 8 * ueta) T1 T2 LW ltac:(lra) ltac:(lra)) as TW.
  destruct (bracket _ _ TW LW) as [G1 G2].
  assert (L3 : Rabs Z <= 83 / 10 * V) by (unfold Z, Rminus; eapply Rle_trans; [apply Rabs_triang|rewrite Rabs_Ropp; lra]).
  split; [|lra]. unfold E, Z in *. apply (appr_sub _ _ _ _ _ _ (83 / 10 * V) _ B1 G1 L3); lra.
Qed.

(** The exact length of the turned vector. *)
Lemma turn_len kap : let rho := fB2R y * fB2R y + fB2R z * fB2R z in
  Rabs (d * d - rho) <= 5 * (ueps * (d * d)) -> Rabs (fB2R x * fB2R x + rho - fB2R S * fB2R S) <= 111 * (ueps * (V * V)) ->
  Rabs (fB2R A * fB2R A + fB2R B * fB2R B - 1) <= 43 / 10 * ueps -> Rabs (fB2R s * fB2R s + fB2R c * fB2R c - 1) <= kap ->
  Rabs (X * X + Y * Y + Z * Z - fB2R S * fB2R S) <= 460 * (ueps * (V * V)) + 16 * (kap * (V * V)).
Proof.
  intros rho HR HQ HAB Hk. pose proof di as DI. pose proof (V_pos V HV) as PV. assert (Pd : 0 < d) by (unfold d; lra). pose proof ueps_pos as HE.
  set (a := fB2R A) in *. set (b := fB2R B) in *. set (x' := fB2R x) in *. set (y' := fB2R y) in *. set (z' := fB2R z) in *. set (S' := fB2R S) in *. set (c' := fB2R c) in *. set (s' := fB2R s) in *.
  set (del := (d * d - rho) * (i * i)).
  assert (Hdel : Rabs del <= 5 * ueps).
  { unfold del. rewrite Rabs_mult, (Rabs_pos_eq (i * i)) by (pose proof i_pos; nra). apply Rle_trans with (5 * (ueps * (d * d)) * (i * i)); [apply Rmult_le_compat_r; [pose proof i_pos; nra|exact HR]|].
    right. replace (5 * (ueps * (d * d)) * (i * i)) with (5 * ueps * ((d * i) * (d * i))) by ring. rewrite DI. ring. }
  assert (Id : X * X + Y * Y + Z * Z - S' * S' = (b * b + a * a * (s' * s')) * (x' * x' + rho - S' * S') + a * a * (s' * s') * (d * d - rho) + 2 * (a * b * (x' * s') * (d * del))
     - a * a * (del * (S' * S' * (c' * c') + x' * x' * (s' * s'))) + S' * S' * (a * a + b * b - 1) + S' * S' * (a * a) * (s' * s' + c' * c' - 1)).
  { unfold X, Y, Z, del, i, rho. fold a b x' y' z' S' c' s'. field. lra. }
  rewrite Id.
  assert (A2 : 0 <= a * a <= 1) by nra. assert (B2 : 0 <= b * b <= 1) by nra. assert (Q : forall w, Rabs w <= 1 -> 0 <= w * w <= 1) by (intros w Hw; apply Rabs_le_inv in Hw; nra).
  pose proof (Q _ Hc) as C2. pose proof (Q _ Hs) as S2. pose proof (ee (V * V) ltac:(nra)) as (W1 & W2 & W3).
  assert (DV : 0 < d * d <= 16 * (V * V)) by (split; [apply Rmult_lt_0_compat; lra|replace (16 * (V * V)) with (4 * V * (4 * V)) by ring; apply Rmult_le_compat; unfold d in *; lra]). assert (SV : 0 <= S' * S' <= 16 * (V * V)) by (split; [apply Rmult_le_pos; lra|replace (16 * (V * V)) with (4 * V * (4 * V)) by ring; apply Rmult_le_compat; lra]).
  assert (XV : 0 <= x' * x' <= 45 / 10 * (V * V)).
  { split; [apply Rle_0_sqr|]. apply Rle_trans with (21 / 10 * V * (21 / 10 * V)); [|assert (0 <= V * V) by (apply Rmult_le_pos; lra); lra].
    rewrite <- (Rabs_pos_eq (x' * x')) by apply Rle_0_sqr. rewrite Rabs_mult. apply Rmult_le_compat; try apply Rabs_pos; assumption. }
  assert (M : forall p q P R, Rabs p <= P -> Rabs q <= R -> Rabs (p * q) <= P * R) by (intros p q P R Hp Hq; rewrite Rabs_mult; apply Rmult_le_compat; try apply Rabs_pos; assumption).
  assert (AS : 0 <= a * a * (s' * s') <= 1) by (split; [apply Rmult_le_pos; lra|rewrite <- (Rmult_1_l 1); apply Rmult_le_compat; lra]).
  assert (T1 : Rabs ((b * b + a * a * (s' * s')) * (x' * x' + rho - S' * S')) <= 101 / 100 * (111 * (ueps * (V * V)))).
  { apply M; [|exact HQ]. apply Rabs_le_inv in HAB. rewrite Rabs_pos_eq by lra. assert (a * a * (s' * s') <= a * a * 1) by (apply Rmult_le_compat_l; lra). lra. }
  assert (T2 : Rabs (a * a * (s' * s') * (d * d - rho)) <= 1 * (80 * (ueps * (V * V)))).
  { apply M; [rewrite Rabs_pos_eq; lra|]. apply Rle_trans with (1 := HR). assert (ueps * (d * d) <= ueps * (16 * (V * V))) by (apply Rmult_le_compat_l; lra). lra. }
  assert (T3 : Rabs (a * b * (x' * s') * (d * del)) <= 1 * 1 * (21 / 10 * V * 1) * (4 * V * (5 * ueps))).
  { apply M; [apply M; [apply M; apply Rabs_le; lra|apply M; assumption]|apply M; [rewrite Rabs_pos_eq; unfold d in *; lra|exact Hdel]]. }
  assert (T4 : Rabs (a * a * (del * (S' * S' * (c' * c') + x' * x' * (s' * s')))) <= 1 * (5 * ueps * (205 / 10 * (V * V)))).
  { apply M; [rewrite Rabs_pos_eq; lra|]. apply M; [exact Hdel|]. assert (0 <= S' * S' * (c' * c') <= 16 * (V * V) * 1) by (split; [apply Rmult_le_pos; lra|apply Rmult_le_compat; lra]). assert (0 <= x' * x' * (s' * s') <= 45 / 10 * (V * V) * 1) by (split; [apply Rmult_le_pos; lra|apply Rmult_le_compat; lra]). rewrite Rabs_pos_eq; lra. }
  assert (T5 : Rabs (S' * S' * (a * a + b * b - 1)) <= 16 * (V * V) * (43 / 10 * ueps)) by (apply M; [rewrite Rabs_pos_eq; lra|exact HAB]).
  assert (T6 : Rabs (S' * S' * (a * a) * (s' * s' + c' * c' - 1)) <= 16 * (V * V) * 1 * kap). { apply M; [|exact Hk]. apply M; rewrite Rabs_pos_eq; lra. }
  apply Rabs_le_inv in T1, T2, T3, T4, T5, T6. apply Rabs_le. lra.
Qed.
End Turn.
