(** Relative rounding errors; reduced mass, scale and energy gain of inelastic collisions in binary64. *)
From Coq Require Import Reals Lra Lia ZArith Bool List.
From Flocq Require Import Core.Core IEEE754.BinarySingleNaN Relative.
From Verif Require Import Base Num ModelTerm ModelCollide SpecPhys SpecSet SpecRound ProofF64 ProofFloat ProofRound ProofRound2 ProofRound3 ProofRound4.
From Coq Require Import List.
Import ListNotations.
Local Open Scope R_scope.

Definition rel (x : binary64) (a k : R) : Prop := is_finite x = true /\ exists d, fB2R x = a * (1 + d) /\ Rabs d <= k * ueps.
Lemma rel_self x : is_finite x = true -> rel x (fB2R x) 0.
Proof. intros F. split; [exact F|]. exists 0. rewrite Rabs_R0. split; [ring|lra]. Qed.
Lemma rel_weak x a k k' : rel x a k -> k <= k' -> rel x a k'.
Proof. intros (F & d & E & H) L. split; [exact F|]. exists d. split; [exact E|]. pose proof ueps_pos. nra. Qed.
Lemma rel_small d k : Rabs d <= k * ueps -> k <= 100 -> Rabs d <= / 1000000000000.
Proof. intros H1 H2. pose proof ueps_pos. assert (k * ueps <= 100 * ueps) by nra. lra. Qed.
Lemma two_rel d1 d2 k j : Rabs d1 <= k * ueps -> Rabs d2 <= j * ueps -> k <= 100 -> j <= 100 -> Rabs (d1 * d2) <= ueps / 1000.
Proof.
  intros H1 H2 Hk Hj. pose proof ueps_pos. pose proof (rel_small _ _ H1 Hk). rewrite Rabs_mult.
  assert (Rabs d2 <= 100 * ueps) by nra. apply Rle_trans with (/ 1000000000000 * (100 * ueps)); [apply Rmult_le_compat; try apply Rabs_pos; assumption|lra].
Qed.
Lemma three_rel d1 d2 d3 k j : Rabs d1 <= k * ueps -> Rabs d2 <= j * ueps -> Rabs d3 <= ueps -> k <= 100 -> j <= 100 ->
  Rabs ((1 + d1) * (1 + d2) * (1 + d3) - 1) <= (k + j + 11 / 10) * ueps.
Proof.
  intros H1 H2 H3 Hk Hj. pose proof ueps_pos. assert (H3' : Rabs d3 <= 1 * ueps) by lra.
  pose proof (two_rel _ _ _ _ H1 H2 Hk Hj) as A. pose proof (two_rel _ _ _ _ H1 H3' Hk ltac:(lra)) as B. pose proof (two_rel _ _ _ _ H2 H3' Hj ltac:(lra)) as C.
  assert (D : Rabs (d1 * d2 * d3) <= ueps / 1000).
  { rewrite Rabs_mult. pose proof (rel_small _ _ H3' ltac:(lra)). pose proof (Rabs_pos d3). pose proof (Rabs_pos (d1 * d2)). nra. }
  apply Rabs_le_inv in H1, H2, H3, A, B, C, D. apply Rabs_le. lra.
Qed.
Lemma inv_rel d j : Rabs d <= j * ueps -> j <= 100 -> exists d', / (1 + d) = 1 + d' /\ Rabs d' <= (j + / 100) * ueps.
Proof.
  intros H Hj. pose proof ueps_pos. pose proof (rel_small _ _ H Hj) as S. pose proof (two_rel d d j j H H Hj Hj) as Q. apply Rabs_le_inv in H, S, Q.
  exists (/ (1 + d) - 1). split; [ring|]. apply Rabs_le.
  assert (E : (/ (1 + d) - 1) * (1 + d) = - d) by (field; lra). set (w := / (1 + d) - 1) in *.
  assert (P : 0 < 1 + d) by lra. assert (X : w + d = d * d / (1 + d)). { unfold w. field. lra. }
  assert (Y : 0 <= d * d / (1 + d) <= 2 * (d * d)).
  { assert (0 <= d * d) by nra. split; [apply Rmult_le_pos; [lra|left; apply Rinv_0_lt_compat; lra]|]. unfold Rdiv. rewrite (Rmult_comm 2). apply Rmult_le_compat_l; [lra|]. replace 2 with (/ (/ 2)) by field. apply Rinv_le_contravar; lra. }
  lra.
Qed.
Notation fits x := (bpow radix2 (-1000) <= Rabs x <= bpow radix2 990).
Lemma fits_near x d : fits x -> Rabs d <= / 10 -> bpow radix2 (-1022) <= Rabs (x * (1 + d)) <= bpow radix2 1000.
Proof.
  intros [H1 H2] Hd. apply Rabs_le_inv in Hd. rewrite Rabs_mult, (Rabs_pos_eq (1 + d)) by lra.
  assert (B1 : bpow radix2 (-1022) <= bpow radix2 (-1000) * / 2) by (change (/ 2) with (bpow radix2 (-1)); rewrite <- bpow_plus; apply bpow_le; lia).
  assert (B2 : bpow radix2 990 * 2 <= bpow radix2 1000) by (change (bpow radix2 990 * bpow radix2 1 <= bpow radix2 1000); rewrite <- bpow_plus; apply bpow_le; lia).
  pose proof (bpow_gt_0 radix2 (-1000)). split; nra.
Qed.
Lemma rnd_rel_ex x : bpow radix2 (-1022) <= Rabs x -> exists d, frnd x = x * (1 + d) /\ Rabs d <= ueps.
Proof.
  intros H. pose proof (rnd_rel x H) as E. pose proof (bpow_gt_0 radix2 (-1022)). assert (N : x <> 0) by (intros ->; rewrite Rabs_R0 in H; lra).
  exists ((frnd x - x) / x). split; [field; exact N|]. unfold Rdiv. rewrite Rabs_mult, Rabs_inv. apply Rmult_le_reg_r with (Rabs x); [lra|]. rewrite Rmult_assoc, Rinv_l by lra. lra.
Qed.
Lemma rel_mul x a k y b j : rel x a k -> rel y b j -> k <= 99 -> j <= 99 -> fits (a * b) -> rel (fmul x y) (a * b) (k + j + 11 / 10).
Proof.
  intros (Fx & d1 & E1 & H1) (Fy & d2 & E2 & H2) Hk Hj HF. pose proof ueps_pos. pose proof (rel_small _ _ H1 ltac:(lra)) as S1. pose proof (rel_small _ _ H2 ltac:(lra)) as S2.
  assert (EP : fB2R x * fB2R y = a * b * (1 + (d1 + d2 + d1 * d2))) by (rewrite E1, E2; ring).
  pose proof (two_rel _ _ _ _ H1 H2 ltac:(lra) ltac:(lra)) as Q.
  destruct (fits_near (a * b) (d1 + d2 + d1 * d2) HF) as [B1 B2]. { apply Rabs_le_inv in S1, S2, Q. apply Rabs_le. lra. }
  rewrite <- EP in B1, B2. destruct (fmul_ok x y Fx Fy (rnd_fits _ B2)) as [E F]. destruct (rnd_rel_ex _ B1) as (d3 & E3 & H3). split; [exact F|].
  exists ((1 + d1) * (1 + d2) * (1 + d3) - 1). split; [rewrite E, E3, E1, E2; ring|]. apply three_rel; try assumption; lra.
Qed.
Lemma rel_div x a k y b j : rel x a k -> rel y b j -> k <= 99 -> j <= 99 -> b <> 0 -> fits (a / b) -> rel (fdiv x y) (a / b) (k + j + 12 / 10).
Proof.
  intros (Fx & d1 & E1 & H1) (Fy & d2 & E2 & H2) Hk Hj Nb HF. pose proof ueps_pos. pose proof (rel_small _ _ H1 ltac:(lra)) as S1. pose proof (rel_small _ _ H2 ltac:(lra)) as S2.
  destruct (inv_rel d2 j H2 ltac:(lra)) as (d2' & E2' & H2'). assert (N1 : 1 + d2 <> 0) by (apply Rabs_le_inv in S2; lra).
  assert (Ny : fB2R y <> 0) by (rewrite E2; apply Rmult_integral_contrapositive_currified; assumption).
  assert (EP : fB2R x / fB2R y = a / b * (1 + (d1 + d2' + d1 * d2'))).
  { rewrite E1, E2. replace (a * (1 + d1) / (b * (1 + d2))) with (a / b * (1 + d1) * / (1 + d2)) by (field; split; assumption). rewrite E2'. ring. }
  pose proof (two_rel _ _ _ _ H1 H2' ltac:(lra) ltac:(lra)) as Q. pose proof (rel_small _ _ H2' ltac:(lra)) as S2'.
  destruct (fits_near (a / b) (d1 + d2' + d1 * d2') HF) as [B1 B2]. { apply Rabs_le_inv in S1, S2', Q. apply Rabs_le. lra. }
  rewrite <- EP in B1, B2. destruct (fdiv_ok x y Fx Ny (rnd_fits _ B2)) as [E F]. destruct (rnd_rel_ex _ B1) as (d3 & E3 & H3). split; [exact F|].
  exists ((1 + d1) * (1 + d2') * (1 + d3) - 1). split; [rewrite E, E3, EP; ring|].
  eapply Rle_trans; [apply (three_rel d1 d2' d3 k (j + / 100)); try assumption; lra|]. nra.
Qed.
Lemma rel_add_pos (x y : binary64) : is_finite x = true -> is_finite y = true -> 0 < fB2R x -> 0 < fB2R y -> fB2R x + fB2R y <= bpow radix2 1000 ->
  rel (fadd x y) (fB2R x + fB2R y) 1.
Proof.
  intros Fx Fy Px Py L. destruct (fadd_err x y Fx Fy) as [F E]; [rewrite Rabs_pos_eq; lra|]. rewrite (Rabs_pos_eq (_ + _)) in E by lra. split; [exact F|].
  assert (Ps : 0 < fB2R x + fB2R y) by lra. set (s := fB2R x + fB2R y) in *. exists ((fB2R (fadd x y) - s) / s). split; [field; lra|]. unfold Rdiv. rewrite Rabs_mult, Rabs_inv, (Rabs_pos_eq s) by lra.
  apply Rmult_le_reg_r with s; [lra|]. rewrite Rmult_assoc, Rinv_l by lra. lra.
Qed.

(** The reduced mass. *)
Lemma massR_prod x y : massR x -> massR y -> bpow radix2 (-600) <= x * y <= bpow radix2 600.
Proof.
  intros Hx Hy. pose proof (massR_pos _ Hx). pose proof (massR_pos _ Hy). change (-600)%Z with (-300 + - 300)%Z. change 600%Z with (300 + 300)%Z. rewrite !bpow_plus.
  pose proof (bpow_gt_0 radix2 (-300)). split; apply Rmult_le_compat; lra.
Qed.
Lemma rmass_range x y : massR x -> massR y -> bpow radix2 (-301) <= rmass x y <= bpow radix2 300.
Proof.
  intros Hx Hy. pose proof (massR_pos _ Hx). pose proof (massR_pos _ Hy). unfold rmass.
  assert (E301 : bpow radix2 (-301) = bpow radix2 (-300) / 2) by (change (-301)%Z with (-300 + -1)%Z; rewrite bpow_plus; reflexivity). pose proof (bpow_gt_0 radix2 (-300)).
  split; apply Rmult_le_reg_r with (x + y); try lra; replace (x * y / (x + y) * (x + y)) with (x * y) by (field; lra).
  - rewrite E301. destruct Hx, Hy. assert (bpow radix2 (-300) * x <= y * x) by (apply Rmult_le_compat_r; lra). assert (bpow radix2 (-300) * y <= x * y) by (apply Rmult_le_compat_r; lra). lra.
  - assert (x * y <= bpow radix2 300 * y) by (apply Rmult_le_compat_r; lra). assert (0 <= bpow radix2 300 * x) by nra. lra.
Qed.
Lemma bp k l : (k <= l)%Z -> bpow radix2 k <= bpow radix2 l. Proof. apply bpow_le. Qed.
Lemma rm_near (lm : libm) (m1 m2 : F64 lm) : mass_ok m1 -> mass_ok m2 -> rel (rm_value (ReducedMass m1 m2)) (rmass (real64 m1) (real64 m2)) (33 / 10).
Proof.
  intros [F1 H1] [F2 H2]. pose proof (massR_pos _ H1) as P1. pose proof (massR_pos _ H2) as P2. pose proof (massR_prod _ _ H1 H2) as HP. pose proof (rmass_range _ _ H1 H2) as HR. unfold real64 in *.
  pose proof (bpow_gt_0 radix2 (-600)). pose proof (bpow_gt_0 radix2 (-301)).
  assert (RM : rel (fmul m1 m2) (fB2R m1 * fB2R m2) (11 / 10)).
  { eapply rel_weak; [apply (rel_mul m1 (fB2R m1) 0 m2 (fB2R m2) 0); [apply rel_self, F1|apply rel_self, F2|lra|lra|]|lra].
    rewrite Rabs_pos_eq by lra. split; [apply Rle_trans with (2 := proj1 HP)|apply Rle_trans with (1 := proj2 HP)]; apply bp; lia. }
  assert (RA : rel (fadd m1 m2) (fB2R m1 + fB2R m2) 1).
  { apply rel_add_pos; try assumption. apply Rle_trans with (bpow radix2 1 * bpow radix2 300); [change (bpow radix2 1) with 2; lra|]. rewrite <- bpow_plus. apply bp. lia. }
  eapply rel_weak; [apply (rel_div _ _ _ _ _ _ RM RA); [lra|lra|lra|]|lra]. fold (rmass (fB2R m1) (fB2R m2)). rewrite Rabs_pos_eq by lra.
  split; [apply Rle_trans with (2 := proj1 HR)|apply Rle_trans with (1 := proj2 HR)]; apply bp; lia.
Qed.

(** The scale of the relative velocity. *)
Lemma scale_near (x y : binary64) (a b : R) : rel x a (33 / 10) -> rel y b (33 / 10) -> bpow radix2 (-301) <= a <= bpow radix2 300 -> bpow radix2 (-301) <= b <= bpow radix2 300 ->
  let s := fsqrt (fdiv x y) in is_finite s = true /\ 0 <= fB2R s /\ Rabs (fB2R s * fB2R s - a / b) <= 11 * ueps * (a / b).
Proof.
  intros Hx Hy Ha Hb s. pose proof (bpow_gt_0 radix2 (-301)). pose proof ueps_pos.
  assert (HR : bpow radix2 (-601) <= a / b <= bpow radix2 601).
  { assert (Hi : bpow radix2 (-300) <= / b <= bpow radix2 301).
    { change (-300)%Z with (- (300))%Z. change 301%Z with (- (-301))%Z. rewrite !bpow_opp. split; apply Rinv_le_contravar; try lra. }
    change (-601)%Z with (-301 + -300)%Z. change 601%Z with (300 + 301)%Z. rewrite !bpow_plus. pose proof (bpow_gt_0 radix2 (-300)). unfold Rdiv. split; apply Rmult_le_compat; lra. }
  pose proof (bpow_gt_0 radix2 (-601)).
  destruct (rel_div _ _ _ _ _ _ Hx Hy ltac:(lra) ltac:(lra) ltac:(lra)) as (F & d & E & Hd).
  { rewrite Rabs_pos_eq by lra. split; [apply Rle_trans with (2 := proj1 HR)|apply Rle_trans with (1 := proj2 HR)]; apply bp; lia. }
  pose proof (rel_small _ _ Hd ltac:(lra)) as Sd. apply Rabs_le_inv in Sd. set (q := a / b) in *.
  assert (P : 0 <= fB2R (fdiv x y)) by (rewrite E; apply Rmult_le_pos; lra).
  destruct (fsqrt_err _ F P) as (Fs & Ps & Es). fold s in Fs, Ps, Es. split; [exact Fs|]. split; [exact Ps|].
  set (t := R_sqrt.sqrt (fB2R (fdiv x y))) in *. assert (T0 : 0 <= t) by apply sqrt_pos. assert (T2 : t * t = q * (1 + d)) by (unfold t; rewrite sqrt_sqrt by exact P; exact E).
  apply Rabs_le_inv in Es. assert (Hs : Rabs (fB2R s * fB2R s - t * t) <= (ueps * t) * ((2 + ueps) * t)).
  { replace (fB2R s * fB2R s - t * t) with ((fB2R s - t) * (fB2R s + t)) by ring. rewrite Rabs_mult, (Rabs_pos_eq (_ + t)) by lra.
    apply Rmult_le_compat; [apply Rabs_pos|lra|apply Rabs_le; lra|lra]. }
  replace (ueps * t * ((2 + ueps) * t)) with (ueps * (2 + ueps) * (t * t)) in Hs by ring. rewrite T2 in Hs.
  assert (Q1 : ueps * (2 + ueps) * (q * (1 + d)) <= ueps * (2 + ueps) * (q * (11 / 10))) by (apply Rmult_le_compat_l; [nra|apply Rmult_le_compat_l; lra]).
  assert (Q0 : 0 <= ueps * q) by (apply Rmult_le_pos; lra). assert (Q2 : ueps * ueps * q <= ueps * q / 1000) by nra.
  assert (Q3 : Rabs (q * d) <= q * ((33 / 10 + 33 / 10 + 12 / 10) * ueps)) by (rewrite Rabs_mult, (Rabs_pos_eq q) by lra; apply Rmult_le_compat_l; lra).
  apply Rabs_le_inv in Hs, Q3. apply Rabs_le. lra.
Qed.

(** The gain of squared speed. *)
Definition fhalf : binary64 := fdiv (fofZ 1) (fofZ 2).
Lemma fhalf_val : is_finite fhalf = true /\ fB2R fhalf = / 2.
Proof.
  assert (B : bpow radix2 (-1022) <= / 2 <= bpow radix2 1000). { change (/ 2) with (bpow radix2 (-1)). split; apply bp; lia. }
  destruct (fdiv_ok (fofZ 1) (fofZ 2) fin1) as [E F]; [rewrite fofZ2; lra|rewrite fofZ1, fofZ2; apply rnd_fits; rewrite Rabs_pos_eq; lra|]. split; [exact F|]. unfold fhalf. rewrite E, fofZ1, fofZ2.
  replace (1 / 2) with (bpow radix2 (-1)) by (cbn; lra). rewrite round_generic; [reflexivity|typeclasses eauto|]. apply generic_format_bpow. cbn. unfold FLT_exp, fprec, femin. lia.
Qed.
Lemma gain_near V (dE mu : binary64) (m : R) : speed_ok V -> is_finite dE = true -> rel mu m (33 / 10) -> bpow radix2 (-301) <= m <= bpow radix2 300 ->
  Rabs (fB2R dE) <= 3 / 2 * m * (V * V) -> appr (fdiv dE (fmul fhalf mu)) (2 * fB2R dE / m) (18 * (ueps * (V * V))) /\ Rabs (2 * fB2R dE / m) <= 3 * (V * V).
Proof.
  intros HV Fd Hmu Hm Hd. pose proof (bpow_gt_0 radix2 (-301)). pose proof ueps_pos. destruct fhalf_val as [Fh Eh]. pose proof (V_pos V HV) as PV.
  destruct (rel_mul fhalf (/ 2) 0 mu m (33 / 10)) as (F & d & E & Hdd); [rewrite <- Eh; apply rel_self, Fh|exact Hmu|lra|lra| |].
  { rewrite Rabs_pos_eq by lra. split.
    - apply Rle_trans with (bpow radix2 (-1) * bpow radix2 (-301)); [rewrite <- bpow_plus; apply bp; lia|change (bpow radix2 (-1)) with (/ 2); lra].
    - apply Rle_trans with (bpow radix2 300); [lra|apply bp; lia]. }
  pose proof (rel_small _ _ Hdd ltac:(lra)) as Sd. destruct (inv_rel d _ Hdd ltac:(lra)) as (d' & E' & Hd'). pose proof (rel_small _ _ Hd' ltac:(lra)) as Sd'. apply Rabs_le_inv in Sd.
  set (h := fmul fhalf mu) in *. assert (Nh : fB2R h <> 0). { rewrite E. apply Rmult_integral_contrapositive_currified; lra. }
  set (G := 2 * fB2R dE / m). assert (EG : fB2R dE / fB2R h = G * (1 + d')). { rewrite <- E', E. unfold G. field. split; lra. }
  assert (HG : Rabs G <= 3 * (V * V)).
  { unfold G, Rdiv. rewrite !Rabs_mult, Rabs_inv, (Rabs_pos_eq 2), (Rabs_pos_eq m) by lra. apply Rmult_le_reg_r with m; [lra|]. rewrite !Rmult_assoc, Rinv_l by lra. lra. }
  split; [|exact HG]. pose proof (big2 V HV) as B2. pose proof (eta2 V HV) as T2. destruct (ee (V * V) ltac:(nra)) as (X1 & X2 & X3).
  assert (HGd : Rabs (G * d') <= 3 * (V * V) * ((0 + 33 / 10 + 11 / 10 + / 100) * ueps)) by (rewrite Rabs_mult; apply Rmult_le_compat; try apply Rabs_pos; assumption).
  assert (L : Rabs (fB2R dE / fB2R h) <= 31 / 10 * (V * V)). { rewrite EG. replace (G * (1 + d')) with (G + G * d') by ring. eapply Rle_trans; [apply Rabs_triang|]. lra. }
  destruct (fdiv_ok dE h Fd Nh) as [Eq Fq]; [apply rnd_fits; lra|]. split; [exact Fq|]. rewrite Eq. pose proof (rnd_err (fB2R dE / fB2R h)) as R1.
  assert (ueps * Rabs (fB2R dE / fB2R h) <= ueps * (31 / 10 * (V * V))) by (apply Rmult_le_compat_l; lra).
  assert (R2 : Rabs (fB2R dE / fB2R h - G) <= 3 * (V * V) * ((0 + 33 / 10 + 11 / 10 + / 100) * ueps)). { rewrite EG. replace (G * (1 + d') - G) with (G * d') by ring. exact HGd. }
  pose proof (rnd_join _ _ _ _ _ R1 R2). lra.
Qed.

(** The relative speed after the energy change: its square, and a bound. *)
Lemma speed_near2 V (q : binary64) (Q : R) : speed_ok V -> appr q Q (100 * (ueps * (V * V))) -> 0 <= fB2R q -> Q <= 15 * (V * V) ->
  is_finite (fsqrt q) = true /\ 0 <= fB2R (fsqrt q) <= 4 * V /\ Rabs (fB2R (fsqrt q) * fB2R (fsqrt q) - Q) <= 135 * (ueps * (V * V)).
Proof.
  intros HV [Fq Eq] P HQ. pose proof (V_pos V HV). destruct (ee (V * V) ltac:(nra)) as (E1 & E2 & E3). pose proof ueps_pos as HE.
  destruct (fsqrt_err q Fq P) as (Fs & Ps & Es). split; [exact Fs|]. set (s := fB2R (fsqrt q)) in *. set (t := R_sqrt.sqrt (fB2R q)) in *.
  assert (T0 : 0 <= t) by apply sqrt_pos. assert (T2 : t * t = fB2R q) by (apply sqrt_sqrt; exact P). apply Rabs_le_inv in Es, Eq.
  assert (Hs : Rabs (s * s - t * t) <= (2 * ueps + ueps * ueps) * (t * t)).
  { replace (s * s - t * t) with ((s - t) * (s + t)) by ring. rewrite Rabs_mult, (Rabs_pos_eq (s + t)) by lra.
    assert (Rabs (s - t) <= ueps * t) by (apply Rabs_le; lra). assert (s + t <= (2 + ueps) * t) by lra.
    replace ((2 * ueps + ueps * ueps) * (t * t)) with ((ueps * t) * ((2 + ueps) * t)) by ring. apply Rmult_le_compat; [apply Rabs_pos|lra|assumption|assumption]. }
  rewrite T2 in Hs. assert (HQ2 : fB2R q <= 152 / 10 * (V * V)) by lra.
  assert (ueps * fB2R q <= ueps * (152 / 10 * (V * V))) by (apply Rmult_le_compat_l; lra).
  assert (ueps * ueps * fB2R q <= ueps * ueps * (152 / 10 * (V * V))) by (apply Rmult_le_compat_l; [nra|lra]). apply Rabs_le_inv in Hs.
  assert (HH : Rabs (s * s - Q) <= 135 * (ueps * (V * V))) by (apply Rabs_le; lra). split; [|exact HH].
  split; [exact Ps|]. apply Rabs_le_inv in HH. destruct (Rle_dec s (4 * V)) as [Hle|Hgt]; [exact Hle|]. exfalso. apply Rnot_le_lt in Hgt.
  assert (4 * V * (4 * V) <= s * s) by (apply Rmult_le_compat; lra). nra.
Qed.
