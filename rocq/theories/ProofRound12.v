(** Inelastic collisions with three products in binary64. *)
From Coq Require Import Reals Lra Lia ZArith Bool List.
From Flocq Require Import Core.Core IEEE754.BinarySingleNaN Relative.
From Verif Require Import Base Num ModelTerm ModelCollide SpecPhys SpecSet SpecRound ProofF64 ProofFloat ProofRound ProofRound2 ProofRound3 ProofRound4 ProofRound8 ProofRound9 ProofRound10 ProofRound11.
From Coq Require Import List.
Import ListNotations.
Local Open Scope R_scope.

(** ** Splitting the speed *)
Lemma root_unit (z : binary64) : is_finite z = true -> 0 <= fB2R z <= 1 ->
  is_finite (fsqrt z) = true /\ 0 <= fB2R (fsqrt z) <= 1 /\ Rabs (fB2R (fsqrt z) * fB2R (fsqrt z) - fB2R z) <= 201 / 100 * ueps.
Proof.
  intros F H. pose proof ueps_pos as HE. destruct (fsqrt_err z F ltac:(lra)) as (F3 & P3 & R3). split; [exact F3|].
  set (A := fsqrt z) in *. set (t := R_sqrt.sqrt (fB2R z)) in *. assert (T0 : 0 <= t) by apply sqrt_pos. assert (T2 : t * t = fB2R z) by (apply sqrt_sqrt; lra). assert (T1 : t <= 1) by nra.
  assert (A1 : fB2R A <= 1).
  { destruct (Bsqrt_correct fprec femax _ fprec_lt_emax mode_NE z) as (E & _). change (Bsqrt mode_NE z) with A in E. change (round_mode mode_NE) with ZnearestE in E. change (SpecFloat.fexp fprec femax) with ffexp in E. change (B2R A) with (fB2R A) in E. rewrite E.
    rewrite <- fofZ1. apply round_le_generic; [typeclasses eauto|typeclasses eauto|apply fF_B2R|]. rewrite fofZ1. exact T1. }
  split; [lra|]. apply Rabs_le_inv in R3. rewrite <- T2.
  replace (fB2R A * fB2R A - t * t) with ((fB2R A - t) * (fB2R A + t)) by ring. rewrite Rabs_mult, (Rabs_pos_eq (_ + _)) by lra.
  assert (Rabs (fB2R A - t) <= ueps) by (apply Rabs_le; nra). pose proof (Rabs_pos (fB2R A - t)). nra.
Qed.
Lemma part_speed V (S f : binary64) (z : R) e : speed_ok V -> is_finite S = true -> 0 <= fB2R S <= 4 * V -> is_finite f = true -> 0 <= fB2R f <= 1 -> Rabs (fB2R f * fB2R f - z) <= e ->
  is_finite (fmul S f) = true /\ 0 <= fB2R (fmul S f) <= 4 * V /\ Rabs (fB2R (fmul S f) * fB2R (fmul S f) - fB2R S * fB2R S * z) <= 33 * (ueps * (V * V)) + 16 * (e * (V * V)).
Proof.
  intros HV FS HS Ff Hf Hz. pose proof (V_pos V HV) as PV. pose proof ueps_pos as HE. pose proof (big1 V HV). pose proof (eta1 V HV). destruct (ee V ltac:(lra)) as (E1 & E2 & E3).
  assert (HI : fB2R (fofZ 0) <= fB2R S * fB2R f <= fB2R S) by (rewrite fofZ0; nra).
  destruct (fmul_ok S f FS Ff (fin_between _ _ _ HI)) as [E F]. pose proof (rnd_between _ _ _ HI) as HB. rewrite <- E, fofZ0 in HB. rewrite fofZ0 in HI. split; [exact F|]. split; [lra|].
  assert (R1 : Rabs (fB2R (fmul S f) - fB2R S * fB2R f) <= 41 / 10 * (ueps * V)).
  { rewrite E. eapply Rle_trans; [apply rnd_err|]. rewrite Rabs_pos_eq by lra. assert (ueps * (fB2R S * fB2R f) <= ueps * (4 * V)) by (apply Rmult_le_compat_l; lra). lra. }
  pose proof (sq_diff _ _ _ (4 * V) R1 ltac:(rewrite Rabs_pos_eq; lra) ltac:(rewrite Rabs_pos_eq; lra)) as Q. set (s := fB2R (fmul S f)) in *. set (S' := fB2R S) in *. set (f' := fB2R f) in *.
  assert (Q2 : Rabs (S' * S' * (f' * f' - z)) <= 16 * (V * V) * e).
  { rewrite Rabs_mult, (Rabs_pos_eq (S' * S')) by nra. apply Rmult_le_compat; [nra|apply Rabs_pos|nra|exact Hz]. }
  assert (0 <= ueps * (V * V)) by (apply Rmult_le_pos; nra). apply Rabs_le_inv in Q, Q2. apply Rabs_le. lra.
Qed.
Lemma split_speed V (S q : binary64) : speed_ok V -> is_finite S = true -> 0 <= fB2R S <= 4 * V -> is_finite q = true -> 0 <= fB2R q <= 1 ->
  let S1 := fmul S (fsqrt q) in let S2 := fmul S (fsqrt (fsub (fofZ 1) q)) in
  (is_finite S1 = true /\ 0 <= fB2R S1 <= 4 * V) /\ (is_finite S2 = true /\ 0 <= fB2R S2 <= 4 * V) /\
  Rabs (fB2R S1 * fB2R S1 + fB2R S2 * fB2R S2 - fB2R S * fB2R S) <= 147 * (ueps * (V * V)).
Proof.
  intros HV FS HS Fq Hq S1 S2. pose proof (V_pos V HV) as PV. pose proof ueps_pos as HE.
  destruct (root_unit q Fq Hq) as (F1 & H1 & R1).
  assert (HI : fB2R (fofZ 0) <= fB2R (fofZ 1) - fB2R q <= fB2R (fofZ 1)) by (rewrite fofZ0, fofZ1; lra).
  destruct (fsub_ok (fofZ 1) q fin1 Fq (fin_between _ _ _ HI)) as [E F]. pose proof (rnd_between _ _ _ HI) as HB. rewrite <- E, fofZ0, fofZ1 in HB.
  destruct (fsub_err (fofZ 1) q fin1 Fq) as [_ R2]; [rewrite fofZ1; apply Rabs_le; pose proof big0; lra|]. rewrite fofZ1 in R2. rewrite (Rabs_pos_eq (1 - fB2R q)) in R2 by lra.
  destruct (root_unit _ F HB) as (F2 & H2 & R3). set (p := fsub (fofZ 1) q) in *.
  assert (R4 : Rabs (fB2R (fsqrt p) * fB2R (fsqrt p) - (1 - fB2R q)) <= 302 / 100 * ueps).
  { apply Rabs_le_inv in R2, R3. assert (ueps * (1 - fB2R q) <= ueps * 1) by (apply Rmult_le_compat_l; lra). apply Rabs_le. lra. }
  destruct (part_speed V S _ _ _ HV FS HS F1 H1 R1) as (Fa & Ha & Ra). destruct (part_speed V S _ _ _ HV FS HS F2 H2 R4) as (Fb & Hb & Rb). fold S1 in Fa, Ha, Ra. fold S2 in Fb, Hb, Rb.
  split; [split; assumption|]. split; [split; assumption|]. assert (0 <= ueps * (V * V)) by (apply Rmult_le_pos; nra). apply Rabs_le_inv in Ra, Rb. apply Rabs_le. lra.
Qed.

(** ** The mass of the last two products *)
Lemma rmass_near a b b' : 0 < a -> 0 < b -> Rabs (b' - b) <= ueps * b -> rmass a b <= (1 + 2 * ueps) * rmass a b' /\ 0 < b'.
Proof.
  intros Pa Pb H. pose proof ueps_pos as HE. apply Rabs_le_inv in H. assert (ueps * b <= / 1000 * b) by (apply Rmult_le_compat_r; lra). assert (Pb' : 0 < b') by lra. split; [|exact Pb'].
  unfold rmass. apply Rmult_le_reg_r with ((a + b) * (a + b')); [apply Rmult_lt_0_compat; lra|].
  replace (a * b / (a + b) * ((a + b) * (a + b'))) with (a * (b * (a + b'))) by (field; lra).
  replace ((1 + 2 * ueps) * (a * b' / (a + b')) * ((a + b) * (a + b'))) with (a * ((1 + 2 * ueps) * (b' * (a + b)))) by (field; lra).
  apply Rmult_le_compat_l; [lra|].
  (* b a + b b' <= (1+2e)(b' a + b' b) *)
  assert (X : b <= (1 + 2 * ueps) * b').
  { assert ((1 + 2 * ueps) * ((1 - ueps) * b) <= (1 + 2 * ueps) * b') by (apply Rmult_le_compat_l; lra). assert (ueps * (ueps * b) <= / 1000 * (ueps * b)) by (apply Rmult_le_compat_r; [apply Rmult_le_pos; lra|lra]). assert (0 <= ueps * b) by (apply Rmult_le_pos; lra). lra. }
  assert (b * a <= (1 + 2 * ueps) * b' * a) by (apply Rmult_le_compat_r; lra). assert (0 <= ueps * (b' * b)) by (apply Rmult_le_pos; [lra|apply Rmult_le_pos; lra]). lra.
Qed.

(** One component, in reals. *)
Section Real23.
Variables m1 m2 M0 M1 M2 M12 a b w x s t y z z' D V L : R.
Let C := share m1 m2 * a + share m2 m1 * b.
Let C' := C - share M0 M12 * s * w.
Hypothesis (P1 : 0 < m1) (P2 : 0 < m2) (Q0 : 0 < M0) (Q1 : 0 < M1) (Q2 : 0 < M2) (Q12 : 0 < M12).
Hypothesis (HM : Rabs (M12 - (M1 + M2)) <= ueps * (M1 + M2)) (Hb : Rabs (M0 + M1 + M2 - (m1 + m2)) <= 8 * ueps * (m1 + m2)) (LC : Rabs C <= V) (LC' : Rabs C' <= L) (LV : V <= L).
Hypothesis (Hy : Rabs (y - (C + share M12 M0 * s * w)) <= D) (Hz : Rabs (z - (C' + share M2 M1 * t * x)) <= D) (Hz' : Rabs (z' - (C' - share M1 M2 * t * x)) <= D).
Let et := M1 + M2 - M12.
Lemma et_small : Rabs et <= ueps * (M0 + M1 + M2).
Proof using HM Q0. pose proof ueps_pos. unfold et. apply Rabs_le_inv in HM. assert (0 <= ueps * M0) by (apply Rmult_le_pos; lra). apply Rabs_le. lra. Qed.
Lemma times_small p d e : Rabs d <= e -> 0 < p -> Rabs (p * d) <= p * e.
Proof. intros. rewrite Rabs_mult, (Rabs_pos_eq p) by lra. apply Rmult_le_compat_l; lra. Qed.
Lemma mom23_real : Rabs (M0 * y + M1 * z + M2 * z' - (m1 * a + m2 * b)) <= (M0 + M1 + M2) * (D + 2 * (ueps * L)) + 8 * ueps * ((m1 + m2) * V).
Proof using All.
  rewrite <- (cm_mom m1 m2 a b P1 P2). fold C. pose proof (share_mom2 M0 M12 C (s * w) Q0 Q12) as E1. pose proof (share_mom2 M1 M2 C' (t * x) Q1 Q2) as E2.
  replace (C - share M0 M12 * (s * w)) with C' in E1 by (unfold C'; ring).
  pose proof (times_small M0 _ _ Hy Q0) as H1. pose proof (times_small M1 _ _ Hz Q1) as H2. pose proof (times_small M2 _ _ Hz' Q2) as H3.
  assert (H4 : Rabs ((M0 + M1 + M2 - (m1 + m2)) * C) <= 8 * ueps * (m1 + m2) * V) by (rewrite Rabs_mult; apply Rmult_le_compat; try apply Rabs_pos; assumption).
  assert (H5 : Rabs (et * (C' - C)) <= ueps * (M0 + M1 + M2) * (2 * L)).
  { rewrite Rabs_mult; apply Rmult_le_compat; try apply Rabs_pos; [exact et_small|]. apply Rabs_le_inv in LC, LC'. apply Rabs_le. lra. }
  unfold et in H5. apply Rabs_le_inv in H1, H2, H3, H4, H5. apply Rabs_le. set (g1 := share M12 M0) in *. set (g2 := share M2 M1) in *. set (g3 := share M1 M2) in *. lra.
Qed.
Hypothesis (L1 : Rabs (C + share M12 M0 * s * w) <= L) (L2 : Rabs (C' + share M2 M1 * t * x) <= L) (L3 : Rabs (C' - share M1 M2 * t * x) <= L) (Ly : Rabs y <= L) (Lz : Rabs z <= L) (Lz' : Rabs z' <= L).
Lemma ke23_real : Rabs (M0 * (y * y) + M1 * (z * z) + M2 * (z' * z') - (m1 * (a * a) + m2 * (b * b)) - (rmass M0 M12 * (s * s) * (w * w) + rmass M1 M2 * (t * t) * (x * x) - rmass m1 m2 * ((a - b) * (a - b))))
  <= (M0 + M1 + M2) * (D * (2 * L) + ueps * (L * L)) + 8 * ueps * ((m1 + m2) * (V * V)).
Proof using All.
  pose proof (cm_ke m1 m2 a b P1 P2) as E1. cbv zeta in E1. fold C in E1. pose proof (share_ke2 M0 M12 C (s * w) Q0 Q12) as E2. pose proof (share_ke2 M1 M2 C' (t * x) Q1 Q2) as E3.
  replace (C - share M0 M12 * (s * w)) with C' in E2 by (unfold C'; ring).
  pose proof (times_small M0 _ _ (sq_diff _ _ _ L Hy Ly L1) Q0) as H1. pose proof (times_small M1 _ _ (sq_diff _ _ _ L Hz Lz L2) Q1) as H2. pose proof (times_small M2 _ _ (sq_diff _ _ _ L Hz' Lz' L3) Q2) as H3.
  assert (H4 : Rabs ((M0 + M1 + M2 - (m1 + m2)) * (C * C)) <= 8 * ueps * (m1 + m2) * (V * V)).
  { rewrite Rabs_mult; apply Rmult_le_compat; try apply Rabs_pos; [assumption|]. rewrite Rabs_mult. apply Rmult_le_compat; try apply Rabs_pos; assumption. }
  assert (H5 : Rabs (et * (C' * C' - C * C)) <= ueps * (M0 + M1 + M2) * (L * L)).
  { rewrite Rabs_mult; apply Rmult_le_compat; try apply Rabs_pos; [exact et_small|]. assert (Sq : forall p, Rabs p <= L -> 0 <= p * p <= L * L) by (intros p Hp; apply Rabs_le_inv in Hp; split; nra).
    pose proof (Sq C' LC'). pose proof (Sq C ltac:(lra)). apply Rabs_le. lra. }
  unfold et in H5. apply Rabs_le_inv in H1, H2, H3, H4, H5. apply Rabs_le.
  set (g1 := share M12 M0) in *. set (g2 := share M2 M1) in *. set (g3 := share M1 M2) in *. set (r0 := rmass M0 M12) in *. set (r1 := rmass M1 M2) in *. set (r2 := rmass m1 m2) in *.
  replace (C + g1 * (s * w)) with (C + g1 * s * w) in E2 by ring. replace (C' + g2 * (t * x)) with (C' + g2 * t * x) in E3 by ring. replace (C' - g3 * (t * x)) with (C' - g3 * t * x) in E3 by ring.
  set (A0 := C + g1 * s * w) in *. set (A1 := C' + g2 * t * x) in *. set (A2 := C' - g3 * t * x) in *. clearbody A0 A1 A2 C'. set (E := D * (2 * L)) in *. lra.
Qed.
End Real23.
