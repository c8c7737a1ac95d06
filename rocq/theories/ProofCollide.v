(** Lemmas on the collision models over the reals. *)
From Coq Require Import Reals Lra Lia List ZArith Bool String.
From Verif Require Import Base Num ModelTerm ModelCollide SpecPhys.
Import ListNotations.
Local Open Scope R_scope.

Ltac unR := change (T RNum) with R in *;
  change (@nadd RNum) with Rplus in *; change (@nsub RNum) with Rminus in *;
  change (@nmul RNum) with Rmult in *; change (@ndiv RNum) with Rdiv in *;
  change (@nsqrt RNum) with R_sqrt.sqrt in *; change (@nabs RNum) with Rabs in *;
  change (@ofZ RNum) with IZR in *; change (@n0 RNum) with 0 in *;
  change (@n1 RNum) with 1 in *; change (@n2 RNum) with 2 in *;
  change (@nhalf RNum) with (1/2) in *; change (@npi RNum) with PI in *;
  change (@nsin RNum) with sin in *; change (@ncos RNum) with cos in *;
  change (@npow RNum) with Rpow in *; change (@nlog RNum) with ln in *;
  change (@nexp RNum) with exp in *;
  change (@nltb RNum) with Rltb in *; change (@nleb RNum) with Rleb in *;
  change (@neqb RNum) with Reqb in *.

Lemma Rltb_spec a b : Bool.reflect (a < b) (Rltb a b).
Proof. unfold Rltb; destruct (Rlt_dec a b); constructor; auto. Qed.
Lemma Rleb_spec a b : Bool.reflect (a <= b) (Rleb a b).
Proof. unfold Rleb; destruct (Rle_dec a b); constructor; auto. Qed.
Lemma Reqb_spec a b : Bool.reflect (a = b) (Reqb a b).
Proof. unfold Reqb; destruct (Req_EM_T a b); constructor; auto. Qed.

(** ** Reduced mass *)
Lemma rm_over1 m1 m2 : 0 < m1 -> 0 < m2 ->
  over_m1 (ReducedMass (N:=RNum) m1 m2) = m2 / (m1 + m2).
Proof. intros; cbn; unR. field; split; lra. Qed.
Lemma rm_over2 m1 m2 : 0 < m1 -> 0 < m2 ->
  over_m2 (ReducedMass (N:=RNum) m1 m2) = m1 / (m1 + m2).
Proof. intros; cbn; unR. field; split; lra. Qed.
Lemma rm_val m1 m2 :
  rm_value (ReducedMass (N:=RNum) m1 m2) = m1 * m2 / (m1 + m2).
Proof. reflexivity. Qed.
Lemma rm_pos m1 m2 : 0 < m1 -> 0 < m2 -> 0 < m1 * m2 / (m1 + m2).
Proof. intros; apply Rdiv_lt_0_compat; [apply Rmult_lt_0_compat|]; lra. Qed.

Lemma reduced_mass_facts m1 m2 : 0 < m1 -> 0 < m2 ->
  let mu := ReducedMass (N:=RNum) m1 m2 in
  (rm_value mu = m1 * m2 / (m1 + m2) /\
  over_m1 mu * m1 = rm_value mu /\ over_m2 mu * m2 = rm_value mu /\
  over_m1 mu + over_m2 mu = 1 /\
  over_m1 (ReducedMass (N:=RNum) m2 m1) = over_m2 mu /\
  over_m2 (ReducedMass (N:=RNum) m2 m1) = over_m1 mu /\
  rm_value (ReducedMass (N:=RNum) m2 m1) = rm_value mu /\
  0 < rm_value mu /\ rm_value mu < m1 /\ rm_value mu < m2)%R.
Proof.
  intros H1 H2 mu; unfold mu.
  rewrite !rm_over1, !rm_over2, !rm_val by assumption.
  unR. repeat split; try (field; lra).
  - apply rm_pos; assumption.
  - apply Rmult_lt_reg_r with (m1 + m2); [lra|].
    unfold Rdiv; rewrite Rmult_assoc, Rinv_l by lra. nra.
  - apply Rmult_lt_reg_r with (m1 + m2); [lra|].
    unfold Rdiv; rewrite Rmult_assoc, Rinv_l by lra. nra.
Qed.

(** ** Isotropic direction *)
Lemma iso_norm2 r r' S : 0 <= r <= 1 ->
  norm2 (isoVel (N:=RNum) r r' S) = S ^ 2.
Proof.
  intros Hr. unfold norm2, isoVel, sqr; cbn [vx vy vz]; unR.
  set (B := 2 * r - 1). set (C := 2 * PI * r').
  pose proof (sin2_cos2 C) as H. unfold Rsqr in H.
  assert (HA : R_sqrt.sqrt (1 - B * B) * R_sqrt.sqrt (1 - B * B) = 1 - B * B).
  { apply sqrt_sqrt. unfold B; nra. }
  set (A := R_sqrt.sqrt (1 - B * B)) in *.
  replace ((B * S) ^ 2 + (A * cos C * S) ^ 2 + (A * sin C * S) ^ 2)
    with (B * B * (S * S) + (A * A) * (S * S) * (sin C * sin C + cos C * cos C)) by ring.
  rewrite H, HA. ring.
Qed.

Lemma vabs_relspeed v1 v2 : vabs (N:=RNum) (vsub v1 v2) = relspeed v1 v2.
Proof.
  unfold vabs, vsqr, sqr, vsub, relspeed, dist2; cbn [vx vy vz]; unR.
  f_equal. ring.
Qed.
Lemma vsqr_dist2 v1 v2 : vsqr (N:=RNum) (vsub v1 v2) = dist2 v1 v2.
Proof. unfold vsqr, sqr, vsub, dist2; cbn [vx vy vz]; unR. ring. Qed.
Lemma dist2_nonneg v1 v2 : 0 <= dist2 v1 v2.
Proof.
  unfold dist2. pose proof (pow2_ge_0 (vx v1 - vx v2)). pose proof (pow2_ge_0 (vy v1 - vy v2)).
  pose proof (pow2_ge_0 (vz v1 - vz v2)). unR. lra.
Qed.
Lemma relspeed_sq v1 v2 : relspeed v1 v2 ^ 2 = dist2 v1 v2.
Proof. unfold relspeed. rewrite <- Rsqr_pow2. apply Rsqr_sqrt, dist2_nonneg. Qed.
Lemma relspeed_nonneg v1 v2 : 0 <= relspeed v1 v2.
Proof. apply sqrt_pos. Qed.

(** Polar angle of a unit vector in the plane. *)
Lemma polar_angle c s : c ^ 2 + s ^ 2 = 1 ->
  exists t, 0 <= t <= 2 * PI /\ cos t = c /\ sin t = s.
Proof.
  intros H.
  assert (Hc : -1 <= c <= 1) by (split; nra).
  pose proof (acos_bound c) as [Ha Hb]. pose proof PI_RGT_0.
  assert (Hsq : R_sqrt.sqrt (1 - c²) = Rabs s).
  { rewrite <- sqrt_Rsqr_abs. f_equal. unfold Rsqr. nra. }
  destruct (Rle_or_lt 0 s) as [Hs|Hs].
  - exists (acos c). split; [lra|]. rewrite cos_acos by assumption. split; [reflexivity|].
    rewrite sin_acos by assumption. rewrite Hsq. apply Rabs_pos_eq; assumption.
  - exists (2 * PI - acos c). split; [lra|].
    rewrite cos_minus, sin_minus, cos_2PI, sin_2PI, cos_acos, sin_acos by assumption.
    rewrite Hsq, Rabs_left by assumption. split; ring.
Qed.

Lemma iso_reach (d : rvec) : norm2 d = 1 ->
  exists r r', 0 <= r <= 1 /\ 0 <= r' <= 1 /\
    forall S, isoVel (N:=RNum) r r' S = V3 (N:=RNum) (S * vx d) (S * vy d) (S * vz d).
Proof.
  destruct d as [dx dy dz]; unfold norm2; cbn [vx vy vz]; unR; intros H.
  assert (Hdx : -1 <= dx <= 1) by (split; nra).
  pose proof PI_RGT_0 as HPI.
  set (A := R_sqrt.sqrt (1 - dx * dx)).
  assert (HA : A * A = 1 - dx * dx) by (apply sqrt_sqrt; nra).
  assert (exists t, 0 <= t <= 2 * PI /\ A * cos t = dy /\ A * sin t = dz) as (t & Ht & Hy & Hz).
  { destruct (Req_dec A 0) as [H0|H0].
    - exists 0. rewrite H0 in *. split; [lra|].
      split; nra.
    - destruct (polar_angle (dy / A) (dz / A)) as (t & Ht & Hc & Hs).
      { replace ((dy / A) ^ 2 + (dz / A) ^ 2) with ((dy ^ 2 + dz ^ 2) / (A * A)) by (field; assumption).
        rewrite HA. replace (dy ^ 2 + dz ^ 2) with (1 - dx * dx) by lra.
        apply Rinv_r. rewrite <- HA. nra. }
      exists t. split; [assumption|]. rewrite Hc, Hs. split; field; assumption. }
  exists ((1 + dx) / 2), (t / (2 * PI)).
  split; [lra|]. split.
  { split.
    - apply Rmult_le_pos; [lra|]. left; apply Rinv_0_lt_compat; lra.
    - apply Rmult_le_reg_r with (2 * PI); [lra|].
      unfold Rdiv; rewrite Rmult_assoc, Rinv_l by lra. lra. }
  intros S. unfold isoVel, sqr; unR.
  replace (2 * ((1 + dx) / 2) - 1) with dx by field.
  replace (2 * PI * (t / (2 * PI))) with t by (field; lra).
  fold A. rewrite Hy, Hz. f_equal; ring.
Qed.

(** ** Generic two-body splitting around the centre of mass *)
Lemma split_momentum m1 m2 v1 v2 W : 0 < m1 -> 0 < m2 ->
  let mu := ReducedMass (N:=RNum) m1 m2 in
  let cm := VelCM mu v1 v2 in
  momentum2 m1 (vadd cm (vscale (over_m1 mu) W)) m2 (vsub cm (vscale (over_m2 mu) W))
  = momentum2 m1 v1 m2 v2.
Proof.
  intros H1 H2. cbv zeta. unfold VelCM. rewrite rm_over1, rm_over2 by assumption.
  destruct v1 as [a1 b1 c1], v2 as [a2 b2 c2], W as [aw bw cw]; unfold momentum2, vadd, vsub, vscale; cbn [vx vy vz]; unR.
  apply f_equal2; [apply f_equal2|]; field; lra.
Qed.

Lemma split_energy m1 m2 v1 v2 W : 0 < m1 -> 0 < m2 ->
  let mu := ReducedMass (N:=RNum) m1 m2 in
  let cm := VelCM mu v1 v2 in
  kinetic m1 (vadd cm (vscale (over_m1 mu) W)) + kinetic m2 (vsub cm (vscale (over_m2 mu) W))
  = kinetic m1 v1 + kinetic m2 v2 + rm_value mu / 2 * (norm2 W - dist2 v1 v2).
Proof.
  intros H1 H2. cbv zeta. unfold VelCM. rewrite rm_over1, rm_over2, rm_val by assumption.
  destruct v1 as [a1 b1 c1], v2 as [a2 b2 c2], W as [aw bw cw]; unfold kinetic, norm2, dist2, vadd, vsub, vscale; cbn [vx vy vz]; unR.
  field; lra.
Qed.

Lemma split_rel m1 m2 v1 v2 W : 0 < m1 -> 0 < m2 ->
  let mu := ReducedMass (N:=RNum) m1 m2 in
  let cm := VelCM mu v1 v2 in
  vsub (vadd cm (vscale (over_m1 mu) W)) (vsub cm (vscale (over_m2 mu) W)) = W.
Proof.
  intros H1 H2. cbv zeta. unfold VelCM. rewrite rm_over1, rm_over2 by assumption.
  destruct v1 as [a1 b1 c1], v2 as [a2 b2 c2], W as [aw bw cw]; unfold vadd, vsub, vscale; cbn [vx vy vz]; unR.
  f_equal; field; lra.
Qed.

(** ** Elastic *)
Lemma elastic_momentum m1 m2 (p1 p2 : rpart) r r' : 0 < m1 -> 0 < m2 ->
  let q := elastic_collide (ReducedMass (N:=RNum) m1 m2) p1 p2 r r' in
  momentum2 m1 (p_vel (fst q)) m2 (p_vel (snd q)) = momentum2 m1 (p_vel p1) m2 (p_vel p2).
Proof. intros; unfold elastic_collide in q; cbn [fst snd p_vel setVelocity q]. apply split_momentum; assumption. Qed.

Lemma norm2_elastic r r' (v1 v2 : rvec) : 0 <= r <= 1 ->
  norm2 (isoVel (N:=RNum) r r' (vabs (vsub v1 v2))) = dist2 v1 v2.
Proof. intros. rewrite iso_norm2, vabs_relspeed, relspeed_sq by assumption. reflexivity. Qed.

Lemma dist2_vsub (v w : rvec) : dist2 v w = norm2 (vsub v w).
Proof. destruct v as [a1 b1 c1], w as [a2 b2 c2]; unfold dist2, norm2, vsub; cbn [vx vy vz]; unR; ring. Qed.

Lemma elastic_energy m1 m2 (p1 p2 : rpart) r r' : 0 < m1 -> 0 < m2 -> 0 <= r <= 1 ->
  let q := elastic_collide (ReducedMass (N:=RNum) m1 m2) p1 p2 r r' in
  relspeed (p_vel (fst q)) (p_vel (snd q)) = relspeed (p_vel p1) (p_vel p2) /\
  kinetic m1 (p_vel (fst q)) + kinetic m2 (p_vel (snd q)) = kinetic m1 (p_vel p1) + kinetic m2 (p_vel p2).
Proof.
  intros H1 H2 Hr. unfold elastic_collide; cbn [fst snd p_vel setVelocity]. split.
  - unfold relspeed. rewrite dist2_vsub, split_rel, norm2_elastic by assumption. reflexivity.
  - rewrite split_energy, norm2_elastic by assumption. ring.
Qed.

Lemma elastic_iso m1 m2 (p1 p2 : rpart) (d : rvec) : 0 < m1 -> 0 < m2 -> norm2 d = 1 ->
  exists r r', 0 <= r <= 1 /\ 0 <= r' <= 1 /\
  let q := elastic_collide (ReducedMass (N:=RNum) m1 m2) p1 p2 r r' in
  let s := relspeed (p_vel p1) (p_vel p2) in
  vx (p_vel (fst q)) - vx (p_vel (snd q)) = s * vx d /\
  vy (p_vel (fst q)) - vy (p_vel (snd q)) = s * vy d /\
  vz (p_vel (fst q)) - vz (p_vel (snd q)) = s * vz d.
Proof.
  intros H1 H2 Hd. destruct (iso_reach d Hd) as (r & r' & Hr & Hr' & E).
  exists r, r'. split; [assumption|]. split; [assumption|].
  unfold elastic_collide; cbn [fst snd p_vel setVelocity].
  pose proof (split_rel m1 m2 (p_vel p1) (p_vel p2) (isoVel (N:=RNum) r r' (vabs (vsub (p_vel p1) (p_vel p2)))) H1 H2) as Hs.
  cbv zeta in *. rewrite E, vabs_relspeed in *.
  pose proof (f_equal vx Hs). pose proof (f_equal vy Hs). pose proof (f_equal vz Hs).
  cbn [vx vy vz vadd vsub vscale] in *. unR. auto.
Qed.

(** ** VSS *)
Lemma vss_momentum m1 m2 al (p1 p2 : rpart) r r' : 0 < m1 -> 0 < m2 ->
  let q := vss_collide (ReducedMass (N:=RNum) m1 m2) al p1 p2 r r' in
  momentum2 m1 (p_vel (fst q)) m2 (p_vel (snd q)) = momentum2 m1 (p_vel p1) m2 (p_vel p2).
Proof. intros; unfold vss_collide in q; cbn [fst snd p_vel setVelocity q]. apply split_momentum; assumption. Qed.

Lemma Rpow_01 r y : 0 <= r <= 1 -> 0 <= y -> 0 <= Rpow r y <= 1.
Proof.
  intros Hr Hy. unfold Rpow. destruct (Req_EM_T r 0).
  - destruct (Req_EM_T y 0); lra.
  - unfold Rpower. split; [left; apply exp_pos|].
    rewrite <- exp_0. destruct (Rle_lt_or_eq_dec (y * ln r) 0) as [H|H].
    + assert (ln r <= 0). { rewrite <- ln_1. destruct (Req_dec r 1); [subst; lra|]. left; apply ln_increasing; lra. }
      nra.
    + left; apply exp_increasing; assumption.
    + rewrite H; lra.
Qed.

Definition Dperp (v : rvec) : R := R_sqrt.sqrt (vy v ^ 2 + vz v ^ 2).

Lemma vss_core al r r' (v : rvec) : 0 <= r <= 1 -> 0 <= al ->
  let B := 2 * Rpow r al - 1 in
  let W := vssVel (N:=RNum) al v r r' in
  (1 / 1000000 < Dperp v -> norm2 W = norm2 v /\ dot3 v W = norm2 v * B) /\
  (Dperp v <= 1 / 1000000 -> norm2 W = norm2 v - Dperp v ^ 2) /\
  (Dperp v = 0 -> dot3 v W = norm2 v * B).
Proof.
  intros Hr Hal B W.
  destruct v as [x y z]. unfold W, vssVel, vabs, vsqr, sqr, nquot; cbn [vx vy vz]; unR.
  fold B. set (A := R_sqrt.sqrt (1 - B * B)).
  assert (HA : A * A = 1 - B * B).
  { apply sqrt_sqrt. pose proof (Rpow_01 r al Hr Hal). unfold B. nra. }
  set (C := 2 * PI * r').
  pose proof (sin2_cos2 C) as HC; unfold Rsqr in HC.
  unfold Dperp; cbn [vx vy vz].
  replace (y ^ 2 + z ^ 2) with (y * y + z * z) by ring.
  assert (HD : R_sqrt.sqrt (y * y + z * z) * R_sqrt.sqrt (y * y + z * z) = y * y + z * z).
  { apply sqrt_sqrt; nra. }
  set (D := R_sqrt.sqrt (y * y + z * z)) in *.
  assert (HS : R_sqrt.sqrt (x * x + y * y + z * z) * R_sqrt.sqrt (x * x + y * y + z * z) = x * x + y * y + z * z).
  { apply sqrt_sqrt; nra. }
  set (S := R_sqrt.sqrt (x * x + y * y + z * z)) in *.
  assert (D0 : 0 <= D) by apply sqrt_pos.
  set (c := cos C) in *. set (s := sin C) in *.
  split; [|split]; unfold norm2, dot3; cbn [vx vy vz].
  - intros Hgt. destruct (Rltb_spec (1 / 1000000) D) as [_|n]; [|contradiction].
    cbn [vx vy vz].
    assert (Dn : D <> 0) by lra.
    split.
    + replace ((B * x + A * s * D) ^ 2 + (B * y + A / D * (S * z * c - x * y * s)) ^ 2 +
               (B * z - A / D * (S * y * c + x * z * s)) ^ 2)
        with (B * B * (x * x + y * y + z * z)
              + 2 * A * B * s * x / D * (D * D - (y * y + z * z))
              + A * A * (s * s * (D * D) + ((S * S) * (c * c) * (y * y + z * z) + x * x * (s * s) * (y * y + z * z)) / (D * D)))
        by (field; assumption).
      rewrite HS, HD, HA.
      replace (c * c) with (1 - s * s) by lra.
      field. rewrite <- HD. nra.
    + replace (x * (B * x + A * s * D) + y * (B * y + A / D * (S * z * c - x * y * s)) +
               z * (B * z - A / D * (S * y * c + x * z * s)))
        with (B * (x * x + y * y + z * z) + A * s * x / D * (D * D - (y * y + z * z))) by (field; assumption).
      rewrite HD. field. assumption.
  - intros Hle. destruct (Rltb_spec (1 / 1000000) D) as [n|_]; [lra|]. cbn [vx vy vz].
    replace (D ^ 2) with (D * D) by ring. rewrite HD.
    replace ((B * x) ^ 2 + (A * c * x) ^ 2 + (A * s * x) ^ 2) with
       (x * x * (B * B + (A * A) * (s * s + c * c))) by ring.
    rewrite HC, HA. ring.
  - intros H0. destruct (Rltb_spec (1 / 1000000) D) as [n|_]; [lra|]. cbn [vx vy vz].
    rewrite H0 in HD. assert (y = 0) by nra. assert (z = 0) by nra. subst y z. ring.
Qed.
