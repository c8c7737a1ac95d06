(** Rounding errors of the two-body collisions in binary64. *)
From Coq Require Import Reals Lra Lia ZArith Bool List.
From Flocq Require Import Core.Core IEEE754.BinarySingleNaN Relative.
From Verif Require Import Base Num ModelTerm ModelCollide SpecSet ProofF64 ProofFloat ProofRound.
From Coq Require Import List.
Import ListNotations.
Local Open Scope R_scope.
Notation big := (bpow radix2 1000).

Section Scale.
Variable V : R.
Hypothesis HV : bpow radix2 (-400) <= V <= bpow radix2 400.
Lemma V_pos : 0 < V. Proof. pose proof (bpow_gt_0 radix2 (-400)). lra. Qed.
Lemma b1000 : 1000 <= bpow radix2 10. Proof. cbn. lra. Qed.
Lemma big0 : 1000 <= big. Proof. apply Rle_trans with (1 := b1000). apply bpow_le. lia. Qed.
Lemma big1 : 1000 * V <= big.
Proof.
  change big with (bpow radix2 (10 + 990)). rewrite bpow_plus. pose proof b1000. pose proof V_pos. apply Rmult_le_compat; [lra|lra|lra|].
  apply Rle_trans with (bpow radix2 400); [lra|apply bpow_le; lia].
Qed.
Lemma VV_up : V * V <= bpow radix2 800.
Proof. change 800%Z with (400 + 400)%Z. rewrite bpow_plus. pose proof V_pos. apply Rmult_le_compat; lra. Qed.
Lemma VV_lo : bpow radix2 (-800) <= V * V.
Proof. change (-800)%Z with (-400 + -400)%Z. rewrite bpow_plus. pose proof (bpow_gt_0 radix2 (-400)). apply Rmult_le_compat; lra. Qed.
Lemma big2 : 1000 * (V * V) <= big.
Proof.
  change big with (bpow radix2 (10 + 990)). rewrite bpow_plus. pose proof b1000. pose proof V_pos. apply Rmult_le_compat; [lra|nra|lra|].
  apply Rle_trans with (1 := VV_up). apply bpow_le; lia.
Qed.
Lemma eta0 : 1000 * ueta <= ueps.
Proof.
  unfold ueta, ueps. change (-53)%Z with (10 + -63)%Z. rewrite bpow_plus. apply Rmult_le_compat; [lra|apply bpow_ge_0|exact b1000|apply bpow_le; lia].
Qed.
Lemma eta1 : 1000 * ueta <= ueps * V.
Proof.
  apply Rle_trans with (bpow radix2 (-53) * bpow radix2 (-400)).
  - unfold ueta. rewrite <- bpow_plus. change (-53 + -400)%Z with (10 + -463)%Z. rewrite bpow_plus. apply Rmult_le_compat; [lra|apply bpow_ge_0|exact b1000|apply bpow_le; lia].
  - apply Rmult_le_compat_l; [apply bpow_ge_0|lra].
Qed.
Lemma eta2 : 1000 * ueta <= ueps * (V * V).
Proof.
  apply Rle_trans with (bpow radix2 (-53) * bpow radix2 (-800)).
  - unfold ueta. rewrite <- bpow_plus. change (-53 + -800)%Z with (10 + -863)%Z. rewrite bpow_plus. apply Rmult_le_compat; [lra|apply bpow_ge_0|exact b1000|apply bpow_le; lia].
  - apply Rmult_le_compat_l; [apply bpow_ge_0|apply VV_lo].
Qed.
(** Products of two or three rounding units are negligible. *)
Lemma ee X : 0 <= X -> 0 <= ueps * X /\ ueps * ueps * X <= ueps * X / 1000 /\ ueps * X <= X / 1000.
Proof.
  intros HX. pose proof ueps_pos. assert (0 <= ueps * X) by nra. assert (ueps * X <= X / 1000) by nra. split; [assumption|]. split; [nra|assumption].
Qed.

Section Component.
Variables (o1 o2 v1 v2 u : binary64) (al be U : R).
Hypothesis (O1 : appr o1 be (4 * ueps)) (O2 : appr o2 al (4 * ueps)) (A0 : 0 <= al) (B0 : 0 <= be) (AB : al + be = 1).
Hypothesis (F1 : is_finite v1 = true) (F2 : is_finite v2 = true) (Fu : is_finite u = true).
Hypothesis (L1 : Rabs (fB2R v1) <= V) (L2 : Rabs (fB2R v2) <= V) (Lu : Rabs (fB2R u) <= U) (HU : U <= 100 * V).

Lemma times_o (o w : binary64) (a W : R) : appr o a (4 * ueps) -> 0 <= a <= 1 -> is_finite w = true -> Rabs (fB2R w) <= W -> 0 <= W -> W <= 100 * V ->
  appr (fmul o w) (a * fB2R w) (51 / 10 * (ueps * W) + ueta).
Proof.
  intros Ho Ha Fw Hw PW HW. pose proof V_pos. pose proof big1. destruct (ee W PW) as (E1 & E2 & E3). pose proof (ueps_pos).
  apply (appr_mul o a (4 * ueps) w (fB2R w) 0 1 W); [exact Ho|apply appr_self; exact Fw|rewrite Rabs_pos_eq; lra|exact Hw|lra|lra].
Qed.
Let c := fadd (fmul o2 v1) (fmul o1 v2).
Let C := al * fB2R v1 + be * fB2R v2.
Lemma absC : Rabs C <= V.
Proof.
  unfold C. eapply Rle_trans; [apply Rabs_triang|]. rewrite !Rabs_mult, (Rabs_pos_eq al), (Rabs_pos_eq be) by assumption.
  assert (al * Rabs (fB2R v1) <= al * V) by (apply Rmult_le_compat_l; assumption). assert (be * Rabs (fB2R v2) <= be * V) by (apply Rmult_le_compat_l; assumption). nra.
Qed.
Lemma cm_near : appr c C (12 * (ueps * V)).
Proof.
  pose proof V_pos as PV. destruct (ee V ltac:(lra)) as (E1 & E2 & E3). pose proof eta1. pose proof big1. pose proof ueta_pos. pose proof ueps_pos.
  assert (M : ueps * ueta <= ueta) by nra.
  apply (appr_add _ _ _ _ _ _ V _ (times_o o2 v1 al V O2 ltac:(lra) F1 L1 ltac:(lra) ltac:(lra)) (times_o o1 v2 be V O1 ltac:(lra) F2 L2 ltac:(lra) ltac:(lra)) absC); lra.
Qed.
Lemma a_near : appr (fadd c (fmul o1 u)) (C + be * fB2R u) (14 * (ueps * V) + 7 * (ueps * U)).
Proof.
  pose proof V_pos as PV. assert (PU : 0 <= U) by (pose proof (Rabs_pos (fB2R u)); lra). destruct (ee V ltac:(lra)) as (E1 & E2 & E3). destruct (ee U PU) as (U1 & U2 & U3).
  pose proof eta1. pose proof big1. pose proof ueta_pos. pose proof ueps_pos. assert (M : ueps * ueta <= ueta) by nra.
  apply (appr_add _ _ _ _ _ _ (V + U) _ cm_near (times_o o1 u be U O1 ltac:(lra) Fu Lu PU HU)); [|lra|lra].
  eapply Rle_trans; [apply Rabs_triang|]. apply Rplus_le_compat; [exact absC|]. rewrite Rabs_mult, (Rabs_pos_eq be) by assumption. assert (be <= 1) by lra. pose proof (Rabs_pos (fB2R u)). nra.
Qed.
Lemma b_near : appr (fsub c (fmul o2 u)) (C - al * fB2R u) (14 * (ueps * V) + 7 * (ueps * U)).
Proof.
  pose proof V_pos as PV. assert (PU : 0 <= U) by (pose proof (Rabs_pos (fB2R u)); lra). destruct (ee V ltac:(lra)) as (E1 & E2 & E3). destruct (ee U PU) as (U1 & U2 & U3).
  pose proof eta1. pose proof big1. pose proof ueta_pos. pose proof ueps_pos. assert (M : ueps * ueta <= ueta) by nra.
  apply (appr_sub _ _ _ _ _ _ (V + U) _ cm_near (times_o o2 u al U O2 ltac:(lra) Fu Lu PU HU)); [|lra|lra].
  unfold Rminus. eapply Rle_trans; [apply Rabs_triang|]. rewrite Rabs_Ropp. apply Rplus_le_compat; [exact absC|]. rewrite Rabs_mult, (Rabs_pos_eq al) by assumption. assert (al <= 1) by lra. pose proof (Rabs_pos (fB2R u)). nra.
Qed.
End Component.

(** The relative velocity and its length. *)
Lemma rel_near (v1 v2 : binary64) : is_finite v1 = true -> is_finite v2 = true -> Rabs (fB2R v1) <= V -> Rabs (fB2R v2) <= V ->
  appr (fsub v1 v2) (fB2R v1 - fB2R v2) (2 * (ueps * V)) /\ Rabs (fB2R v1 - fB2R v2) <= 2 * V.
Proof.
  intros F1 F2 L1 L2. pose proof V_pos. pose proof big1. assert (L : Rabs (fB2R v1 - fB2R v2) <= 2 * V) by (apply Rabs_le_inv in L1, L2; apply Rabs_le; lra).
  split; [|exact L]. apply (appr_sub _ _ _ _ _ _ (2 * V) _ (appr_self _ F1) (appr_self _ F2) L); lra.
Qed.
Lemma sq_near (x : binary64) (a : R) : appr x a (2 * (ueps * V)) -> Rabs a <= 2 * V -> appr (fmul x x) (a * a) (125 / 10 * (ueps * (V * V))).
Proof.
  intros H L. pose proof V_pos. pose proof big2. pose proof eta2. destruct (ee (V * V) ltac:(nra)) as (E1 & E2 & E3).
  assert (ueps * (ueps * ueps * (V * V)) <= ueps * (ueps * (V * V) / 1000)) by (apply Rmult_le_compat_l; [pose proof ueps_pos; lra|lra]).
  apply (appr_mul _ _ _ _ _ _ (2 * V) (2 * V) _ H H L L); lra.
Qed.
Lemma len2_near (x y z : binary64) (a b c : R) : appr x a (2 * (ueps * V)) -> appr y b (2 * (ueps * V)) -> appr z c (2 * (ueps * V)) ->
  Rabs a <= 2 * V -> Rabs b <= 2 * V -> Rabs c <= 2 * V ->
  appr (fadd (fadd (fmul x x) (fmul y y)) (fmul z z)) (a * a + b * b + c * c) (60 * (ueps * (V * V))).
Proof.
  intros Hx Hy Hz La Lb Lc. pose proof V_pos. pose proof big2. pose proof eta2. destruct (ee (V * V) ltac:(nra)) as (E1 & E2 & E3).
  assert (S : forall a, Rabs a <= 2 * V -> 0 <= a * a <= 4 * (V * V)). { intros w Hw. apply Rabs_le_inv in Hw. nra. }
  pose proof (S _ La). pose proof (S _ Lb). pose proof (S _ Lc).
  assert (HS : appr (fadd (fmul x x) (fmul y y)) (a * a + b * b) (34 * (ueps * (V * V)))).
  { apply (appr_add _ _ _ _ _ _ (8 * (V * V)) _ (sq_near _ _ Hx La) (sq_near _ _ Hy Lb)); [rewrite Rabs_pos_eq; lra|lra|lra]. }
  apply (appr_add _ _ _ _ _ _ (12 * (V * V)) _ HS (sq_near _ _ Hz Lc)); [rewrite Rabs_pos_eq; lra|lra|lra].
Qed.
Lemma rnd_ge0 r : 0 <= r -> 0 <= frnd r.
Proof. intros H. replace 0 with (frnd 0) by apply round_0, valid_rnd_N. apply round_le; [typeclasses eauto|typeclasses eauto|exact H]. Qed.
Lemma len2_pos (x y z : binary64) (a b c : R) : appr x a (2 * (ueps * V)) -> appr y b (2 * (ueps * V)) -> appr z c (2 * (ueps * V)) ->
  Rabs a <= 2 * V -> Rabs b <= 2 * V -> Rabs c <= 2 * V -> 0 <= fB2R (fadd (fadd (fmul x x) (fmul y y)) (fmul z z)).
Proof.
  intros Hx Hy Hz La Lb Lc. pose proof V_pos. pose proof big2. pose proof eta2. destruct (ee (V * V) ltac:(nra)) as (E1 & E2 & E3).
  assert (S : forall a, Rabs a <= 2 * V -> 0 <= a * a <= 4 * (V * V)). { intros w Hw. apply Rabs_le_inv in Hw. nra. }
  assert (P : forall x a, appr x a (2 * (ueps * V)) -> Rabs a <= 2 * V -> is_finite (fmul x x) = true /\ 0 <= fB2R (fmul x x) <= 5 * (V * V)).
  { intros w d Hw Hd. destruct (sq_near w d Hw Hd) as [F E]. split; [exact F|]. pose proof (S _ Hd). apply Rabs_le_inv in E. split; [|lra].
    destruct (fmul_ok w w (proj1 Hw) (proj1 Hw)) as [-> _]; [|apply rnd_ge0; nra].
    pose proof (appr_abs _ _ _ _ Hw Hd) as Hb. destruct (ee V ltac:(lra)) as (E1' & E2' & E3'). apply rnd_fits. rewrite Rabs_mult. pose proof (Rabs_pos (fB2R w)). apply Rle_trans with (3 * V * (3 * V)); [apply Rmult_le_compat; lra|lra]. }
  destruct (P _ _ Hx La) as [Fx Px], (P _ _ Hy Lb) as [Fy Py], (P _ _ Hz Lc) as [Fz Pz].
  destruct (fadd_ok _ _ Fx Fy) as [E F]; [apply rnd_fits; rewrite Rabs_pos_eq; lra|]. pose proof (rnd_ge0 (fB2R (fmul x x) + fB2R (fmul y y)) ltac:(lra)) as P2. rewrite <- E in P2.
  pose proof (rnd_err (fB2R (fmul x x) + fB2R (fmul y y))) as E4. rewrite <- E in E4. rewrite (Rabs_pos_eq (_ + _)) in E4 by lra. apply Rabs_le_inv in E4.
  assert (ueps * (fB2R (fmul x x) + fB2R (fmul y y)) <= ueps * (10 * (V * V))) by (apply Rmult_le_compat_l; [pose proof ueps_pos; lra|lra]).
  destruct (fadd_ok _ _ F Fz) as [E5 _]; [apply rnd_fits; rewrite Rabs_pos_eq; lra|]. rewrite E5. apply rnd_ge0. lra.
Qed.

(** The speed: its square, and a bound. *)
Lemma speed_near (q : binary64) (Q : R) : appr q Q (60 * (ueps * (V * V))) -> 0 <= fB2R q -> 0 <= Q <= 12 * (V * V) ->
  is_finite (fsqrt q) = true /\ 0 <= fB2R (fsqrt q) <= 4 * V /\ Rabs (fB2R (fsqrt q) * fB2R (fsqrt q) - Q) <= 85 * (ueps * (V * V)).
Proof.
  intros [Fq Eq] P HQ. pose proof V_pos. destruct (ee (V * V) ltac:(nra)) as (E1 & E2 & E3). pose proof ueps_pos as HE.
  destruct (fsqrt_err q Fq P) as (Fs & Ps & Es). split; [exact Fs|]. set (s := fB2R (fsqrt q)) in *. set (t := R_sqrt.sqrt (fB2R q)) in *.
  assert (T0 : 0 <= t) by apply sqrt_pos. assert (T2 : t * t = fB2R q) by (apply sqrt_sqrt; exact P). apply Rabs_le_inv in Es, Eq.
  assert (Hs : Rabs (s * s - t * t) <= (2 * ueps + ueps * ueps) * (t * t)).
  { replace (s * s - t * t) with ((s - t) * (s + t)) by ring. rewrite Rabs_mult, (Rabs_pos_eq (s + t)) by lra.
    assert (Rabs (s - t) <= ueps * t) by (apply Rabs_le; lra). assert (s + t <= (2 + ueps) * t) by lra.
    replace ((2 * ueps + ueps * ueps) * (t * t)) with ((ueps * t) * ((2 + ueps) * t)) by ring. apply Rmult_le_compat; [apply Rabs_pos|lra|assumption|assumption]. }
  rewrite T2 in Hs. assert (HQ2 : fB2R q <= 121 / 10 * (V * V)) by lra.
  assert (ueps * fB2R q <= ueps * (121 / 10 * (V * V))) by (apply Rmult_le_compat_l; lra).
  assert (ueps * ueps * fB2R q <= ueps * ueps * (121 / 10 * (V * V))) by (apply Rmult_le_compat_l; [nra|lra]). apply Rabs_le_inv in Hs.
  assert (HH : Rabs (s * s - Q) <= 85 * (ueps * (V * V))) by (apply Rabs_le; lra). split; [|exact HH].
  split; [exact Ps|]. apply Rabs_le_inv in HH. destruct (Rle_dec s (4 * V)) as [Hle|Hgt]; [exact Hle|]. exfalso. apply Rnot_le_lt in Hgt.
  assert (4 * V * (4 * V) <= s * s) by (apply Rmult_le_compat; lra). nra.
Qed.
End Scale.
