(** Rounding errors of the VSS model in binary64. *)
From Coq Require Import Reals Lra Lia ZArith Bool List.
From Flocq Require Import Core.Core IEEE754.BinarySingleNaN Relative.
From Verif Require Import Base Num ModelTerm ModelCollide SpecPhys SpecSet SpecRound ProofF64 ProofFloat ProofRound ProofRound2 ProofRound3 ProofRound4.
From Coq Require Import List.
Import ListNotations.
Local Open Scope R_scope.
Notation big := (bpow radix2 1000).

Lemma fmul_within_r (x y : binary64) : is_finite x = true -> is_finite y = true -> Rabs (fB2R y) <= 1 ->
  is_finite (fmul x y) = true /\ Rabs (fB2R (fmul x y)) <= Rabs (fB2R x).
Proof.
  intros Fx Fy H. assert (G : Rabs (frnd (fB2R x * fB2R y)) <= Rabs (fB2R x)).
  { apply abs_round_le_generic; [typeclasses eauto|typeclasses eauto|apply generic_format_abs, fF_B2R|]. rewrite Rabs_mult. pose proof (Rabs_pos (fB2R x)). nra. }
  destruct (fmul_ok x y Fx Fy) as [E F]; [eapply Rle_lt_trans; [exact G|apply abs_B2R_lt_emax]|]. split; [exact F|]. rewrite E. exact G.
Qed.

(** The tolerance 1e-6. *)
Definition tol6 : binary64 := fdiv (fofZ 1) (fofZ 1000000).
Lemma tol6_ok : is_finite tol6 = true /\ 99 / 100000000 <= fB2R tol6 <= 101 / 100000000.
Proof.
  destruct (fofZ_exact 1000000 ltac:(cbn; lia)) as [E F]. pose proof ueps_pos.
  destruct (fdiv_err (fofZ 1) (fofZ 1000000) fin1) as [Ft Et]; [rewrite E; lra| |].
  - rewrite E, fofZ1, Rabs_pos_eq by lra. split; [|pose proof big0; lra]. apply Rle_trans with (bpow radix2 (-20)); [apply bpow_le; lia|cbn; lra].
  - split; [exact Ft|]. rewrite E, fofZ1 in Et. rewrite (Rabs_pos_eq (1 / 1000000)) in Et by lra. apply Rabs_le_inv in Et. fold tol6 in Et. nra.
Qed.

(** Beyond the tolerance underflow is negligible. *)
Lemma eta_tiny : 1000 * (1000000 * (1000000 * ueta)) <= ueps / 1000000.
Proof.
  assert (H : ueta * bpow radix2 80 <= ueps * bpow radix2 (-20)). { unfold ueta, ueps. rewrite <- !bpow_plus. apply bpow_le. lia. }
  pose proof ueta_pos. pose proof ueps_pos. assert (1000 * (1000000 * 1000000) <= bpow radix2 80) by (cbn; lra). assert (bpow radix2 (-20) <= 1 / 1000000) by (cbn; lra). nra.
Qed.

Section Perp.
Variables (V : R) (y z : binary64).
Hypothesis HV : bpow radix2 (-400) <= V <= bpow radix2 400.
Hypothesis (Fy : is_finite y = true) (Fz : is_finite z = true) (Ly : Rabs (fB2R y) <= 21 / 10 * V) (Lz : Rabs (fB2R z) <= 21 / 10 * V).
Let q := fadd (fmul y y) (fmul z z).
Let D := fsqrt q.
Let rho := fB2R y * fB2R y + fB2R z * fB2R z.
Lemma rho_le : 0 <= rho <= 9 * (V * V).
Proof. apply Rabs_le_inv in Ly, Lz. pose proof (V_pos V HV). unfold rho. nra. Qed.
Lemma sq_rel (w : binary64) : is_finite w = true -> Rabs (fB2R w) <= 21 / 10 * V -> is_finite (fmul w w) = true /\ 0 <= fB2R (fmul w w) /\
  Rabs (fB2R (fmul w w) - fB2R w * fB2R w) <= ueps * (fB2R w * fB2R w) + ueta.
Proof.
  intros F L. pose proof (V_pos V HV). pose proof (big2 V HV).
  assert (Q : 0 <= fB2R w * fB2R w <= 5 * (V * V)) by (apply Rabs_le_inv in L; nra).
  destruct (fmul_err w w F F) as [F1 E1]; [rewrite Rabs_pos_eq; lra|]. rewrite (Rabs_pos_eq (fB2R w * fB2R w)) in E1 by lra. split; [exact F1|]. split; [|exact E1].
  destruct (fmul_ok w w F F) as [-> _]; [apply rnd_fits; rewrite Rabs_pos_eq; lra|]. apply rnd_ge0. lra.
Qed.
Lemma q_near : is_finite q = true /\ 0 <= fB2R q /\ Rabs (fB2R q - rho) <= 21 / 10 * (ueps * rho) + 3 * ueta.
Proof.
  destruct (sq_rel y Fy Ly) as (F1 & P1 & E1). destruct (sq_rel z Fz Lz) as (F2 & P2 & E2). pose proof rho_le as HR. pose proof (big2 V HV). pose proof (V_pos V HV). pose proof (eta2 V HV). pose proof ueps_pos. pose proof ueta_pos.
  set (a := fB2R (fmul y y)) in *. set (b := fB2R (fmul z z)) in *. apply Rabs_le_inv in E1, E2. destruct (ee rho ltac:(lra)) as (U1 & U2 & U3).
  assert (0 <= fB2R y * fB2R y) by nra. assert (0 <= fB2R z * fB2R z) by nra. destruct (ee (V * V) ltac:(nra)) as (W1 & W2 & W3).
  assert (AB : Rabs (a + b - rho) <= ueps * rho + 2 * ueta) by (unfold rho; apply Rabs_le; lra). apply Rabs_le_inv in AB.
  destruct (fadd_err _ _ F1 F2) as [F3 E3]; [fold a b; rewrite Rabs_pos_eq; lra|]. fold a b in E3. fold q in F3, E3. rewrite (Rabs_pos_eq (a + b)) in E3 by lra. split; [exact F3|]. split.
  - destruct (fadd_ok _ _ F1 F2) as [E _]; [apply rnd_fits; fold a b; rewrite Rabs_pos_eq; lra|]. fold q a b in E. rewrite E. apply rnd_ge0. lra.
  - apply Rabs_le_inv in E3. assert (ueps * (a + b) <= ueps * (rho + ueps * rho + 2 * ueta)) by (apply Rmult_le_compat_l; lra). assert (ueps * ueta <= ueta / 4) by nra. apply Rabs_le. lra.
Qed.
Lemma D_near : is_finite D = true /\ 0 <= fB2R D <= 4 * V /\ Rabs (fB2R D * fB2R D - rho) <= 42 / 10 * (ueps * rho) + 4 * ueta.
Proof.
  destruct q_near as (Fq & Pq & Eq). pose proof rho_le as HR. pose proof (V_pos V HV). pose proof (eta2 V HV). pose proof ueps_pos as HE. pose proof ueta_pos.
  destruct (fsqrt_err q Fq Pq) as (Fs & Ps & Es). fold D in Fs, Ps, Es. set (t := R_sqrt.sqrt (fB2R q)) in *. set (s := fB2R D) in *.
  assert (T0 : 0 <= t) by apply sqrt_pos. assert (T2 : t * t = fB2R q) by (apply sqrt_sqrt; exact Pq). apply Rabs_le_inv in Es, Eq. destruct (ee rho ltac:(lra)) as (U1 & U2 & U3). destruct (ee (V * V) ltac:(nra)) as (W1 & W2 & W3).
  assert (Hs : Rabs (s * s - t * t) <= (2 * ueps + ueps * ueps) * (t * t)).
  { replace (s * s - t * t) with ((s - t) * (s + t)) by ring. rewrite Rabs_mult, (Rabs_pos_eq (s + t)) by lra.
    assert (Rabs (s - t) <= ueps * t) by (apply Rabs_le; lra). assert (s + t <= (2 + ueps) * t) by lra.
    replace ((2 * ueps + ueps * ueps) * (t * t)) with ((ueps * t) * ((2 + ueps) * t)) by ring. apply Rmult_le_compat; [apply Rabs_pos|lra|assumption|assumption]. }
  rewrite T2 in Hs.
  assert (B1 : ueps * fB2R q <= ueps * (rho + 21 / 10 * (ueps * rho) + 3 * ueta)) by (apply Rmult_le_compat_l; lra).
  assert (B2 : ueps * (ueps * fB2R q) <= ueps * (ueps * (rho + 21 / 10 * (ueps * rho) + 3 * ueta))) by (apply Rmult_le_compat_l; lra).
  assert (M : ueps * ueta <= ueta / 1000) by nra. assert (M0 : 0 <= ueps * ueta) by nra. assert (M2 : ueps * (ueps * ueta) <= ueta / 1000) by nra. assert (M3 : ueps * (ueps * (ueps * rho)) <= ueps * rho / 1000) by nra.
  apply Rabs_le_inv in Hs.
  assert (HH : Rabs (s * s - rho) <= 42 / 10 * (ueps * rho) + 4 * ueta) by (apply Rabs_le; lra).
  split; [exact Fs|]. split; [|exact HH]. split; [exact Ps|]. apply Rabs_le_inv in HH. destruct (Rle_dec s (4 * V)) as [Hle|Hgt]; [exact Hle|]. exfalso. apply Rnot_le_lt in Hgt.
  assert (4 * V * (4 * V) <= s * s) by (apply Rmult_le_compat; lra). assert (ueps * rho <= ueps * (9 * (V * V))) by (apply Rmult_le_compat_l; lra). nra.
Qed.
Hypothesis HD : fB2R tol6 < fB2R D.
Lemma D_rel : 99 / 100000000 < fB2R D /\ Rabs (fB2R D * fB2R D - rho) <= 5 * (ueps * (fB2R D * fB2R D)) /\
  Rabs (fB2R y) <= 1001 / 1000 * fB2R D /\ Rabs (fB2R z) <= 1001 / 1000 * fB2R D.
Proof.
  destruct D_near as (_ & HP & E). destruct tol6_ok as [_ HT]. pose proof rho_le. pose proof eta_tiny. pose proof ueta_pos. pose proof ueps_pos. set (d := fB2R D) in *.
  assert (Dd : 98 / 100000000000000 <= d * d). { assert (99 / 100000000 * (99 / 100000000) <= d * d) by (apply Rmult_le_compat; lra). lra. }
  assert (Pd : 0 < d * d) by lra. apply Rabs_le_inv in E. destruct (ee rho ltac:(lra)) as (U1 & U2 & U3). destruct (ee (d * d) ltac:(lra)) as (W1 & W2 & W3).
  assert (Et : ueta <= ueps * (d * d) / 1000).
  { apply Rle_trans with (ueps * (98 / 100000000000000) / 1000); [|]. - lra. - assert (ueps * (98 / 100000000000000) <= ueps * (d * d)) by (apply Rmult_le_compat_l; lra). lra. }
  assert (R2 : rho <= 11 / 10 * (d * d)) by lra.
  assert (ueps * rho <= ueps * (d * d + 42 / 10 * (ueps * rho) + 4 * ueta)) by (apply Rmult_le_compat_l; lra).
  assert (ueps * ueta <= ueta) by nra.
  assert (EE : Rabs (d * d - rho) <= 5 * (ueps * (d * d))) by (apply Rabs_le; lra). split; [lra|]. split; [exact EE|]. apply Rabs_le_inv in EE.
  assert (G : forall w, w * w <= rho -> Rabs w <= 1001 / 1000 * d).
  { intros w Hw. destruct (Rle_dec (Rabs w) (1001 / 1000 * d)) as [|N]; [assumption|]. exfalso. apply Rnot_le_lt in N.
    assert (H9 : 1001 / 1000 * d * (1001 / 1000 * d) <= Rabs w * Rabs w) by (apply Rmult_le_compat; lra). rewrite <- Rabs_mult, Rabs_pos_eq in H9 by nra.
    assert (ueps * (d * d) <= d * d / 100000) by nra. lra. }
  split; apply G; unfold rho; [pose proof (Rle_0_sqr (fB2R z))|pose proof (Rle_0_sqr (fB2R y))]; unfold Rsqr in *; lra.
Qed.
End Perp.
