(** Mean energies after binary collisions. *)
From Coq Require Import Reals Lra Lia List ZArith.
From Coquelicot Require Import Coquelicot.
From Verif Require Import Base Num ModelTerm ModelCollide SpecTerm SpecPhys SpecXsec SpecMore SpecMean3 SpecMean4
  ProofCollide ProofInelastic ProofReact ProofTop1 ProofGauss ProofMean ProofMean2 ProofMean3.
From Coq Require Import List.
Import ListNotations.
Local Open Scope R_scope.
Local Ltac rg := intros; cbv beta; toR; ring.

(** A velocity at fixed distance from [c]. *)
Lemma mean_kinetic m (c : rvec) K (f : R -> R -> rvec) (mu : nat -> R) E :
  (forall r r', 0 <= r <= 1 -> 0 <= r' <= 1 -> dist2 (f r r') c = K) ->
  (forall i, mean_is (fun r r' => component i (f r r')) (mu i)) ->
  E = m / 2 * (K - norm2 c + 2 * (vx c * mu 0%nat + vy c * mu 1%nat + vz c * mu 2%nat)) ->
  mean_is (fun r r' => kinetic m (f r r')) E.
Proof.
  intros HK Hm ->.
  eapply mean_ext; [| |apply (mean_scal (m / 2) (fun r r' => (K - norm2 c) + 2 * (vx c * component 0 (f r r') + vy c * component 1 (f r r') + vz c * component 2 (f r r'))) (K - norm2 c + 2 * (vx c * mu 0%nat + vy c * mu 1%nat + vz c * mu 2%nat)))].
  - intros r r' Hr Hr'. cbv beta. rewrite <- (HK r r' Hr Hr'). unfold kinetic, norm2, dist2, component. toR. ring.
  - reflexivity.
  - apply mean_plus; [apply mean_const|]. apply mean_scal. apply mean_plus; [apply mean_plus|]; apply mean_scal, Hm.
Qed.
Lemma dist_add (c w : rvec) k : dist2 (vadd (N:=RNum) c (vscale (N:=RNum) k w)) c = k ^ 2 * norm2 w.
Proof. destruct c, w. unfold dist2, norm2. cbn. unR. toR. ring. Qed.
Lemma dist_sub (c w : rvec) k : dist2 (vsub (N:=RNum) c (vscale (N:=RNum) k w)) c = k ^ 2 * norm2 w.
Proof. destruct c, w. unfold dist2, norm2. cbn. unR. toR. ring. Qed.

(** Splitting of a relative velocity of fixed length and mean [x v]. *)
Lemma split_energy m1 m2 (v1 v2 : rvec) (W : R -> R -> rvec) x : 0 < m1 -> 0 < m2 ->
  (forall r r', 0 <= r <= 1 -> 0 <= r' <= 1 -> norm2 (W r r') = dist2 v1 v2) ->
  (forall i, mean_is (fun r r' => component i (W r r')) (x * component i (vsub (N:=RNum) v1 v2))) ->
  let mu := ReducedMass (N:=RNum) m1 m2 in
  mean_is (fun r r' => kinetic m1 (vadd (VelCM mu v1 v2) (vscale (over_m1 mu) (W r r')))) (kinetic m1 v1 - (1 - x) * exchange m1 v1 m2 v2) /\
  mean_is (fun r r' => kinetic m2 (vsub (VelCM mu v1 v2) (vscale (over_m2 mu) (W r r')))) (kinetic m2 v2 + (1 - x) * exchange m1 v1 m2 v2).
Proof.
  intros H1 H2 HW Hm mu.
  assert (Hc : forall i, component i (VelCM mu v1 v2) = cm_velocity m1 v1 m2 v2 i) by (intros; apply comp_cm; assumption).
  pose proof (Hc 0%nat) as C0. pose proof (Hc 1%nat) as C1. pose proof (Hc 2%nat) as C2. cbn [component] in C0, C1, C2.
  assert (Hn : norm2 (VelCM mu v1 v2) = cm_velocity m1 v1 m2 v2 0 ^ 2 + cm_velocity m1 v1 m2 v2 1 ^ 2 + cm_velocity m1 v1 m2 v2 2 ^ 2).
  { unfold norm2. rewrite C0, C1, C2. reflexivity. }
  split.
  - eapply (mean_kinetic m1 (VelCM mu v1 v2) (over_m1 mu ^ 2 * dist2 v1 v2)
      (fun r r' => vadd (VelCM mu v1 v2) (vscale (over_m1 mu) (W r r')))
      (fun i => cm_velocity m1 v1 m2 v2 i + over_m1 mu * (x * component i (vsub (N:=RNum) v1 v2)))).
    + intros r r' Hr Hr'. rewrite dist_add, HW by assumption. reflexivity.
    + intros i. eapply mean_ext; [|reflexivity|apply mean_plus; [apply mean_const|apply (mean_scal (over_m1 mu)), (Hm i)]].
      intros r r' _ _. cbv beta. rewrite comp_add, Hc. reflexivity.
    + rewrite Hn, C0, C1, C2. unfold mu. rewrite rm_over1 by assumption.
      unfold exchange, cm_velocity, kinetic, dist2, norm2. destruct v1, v2. cbn. unR. toR. field. lra.
  - eapply (mean_kinetic m2 (VelCM mu v1 v2) (over_m2 mu ^ 2 * dist2 v1 v2)
      (fun r r' => vsub (VelCM mu v1 v2) (vscale (over_m2 mu) (W r r')))
      (fun i => cm_velocity m1 v1 m2 v2 i + - over_m2 mu * (x * component i (vsub (N:=RNum) v1 v2)))).
    + intros r r' Hr Hr'. rewrite dist_sub, HW by assumption. reflexivity.
    + intros i. eapply mean_ext; [|reflexivity|apply mean_plus; [apply mean_const|apply (mean_scal (- over_m2 mu)), (Hm i)]].
      intros r r' _ _. cbv beta. rewrite comp_sub, Hc. reflexivity.
    + rewrite Hn, C0, C1, C2. unfold mu. rewrite rm_over2 by assumption.
      unfold exchange, cm_velocity, kinetic, dist2, norm2. destruct v1, v2. cbn. unR. toR. field. lra.
Qed.
Lemma elastic_energy_mean m1 m2 (p1 p2 : rpart) : 0 < m1 -> 0 < m2 ->
  let w := fun r r' => after (model_interact true (MElastic (ReducedMass (N:=RNum) m1 m2)) p1 p2 [] (two_draws r r') 0) in
  mean_is (fun r r' => kinetic m1 (fst (w r r'))) (kinetic m1 (p_vel p1) - exchange m1 (p_vel p1) m2 (p_vel p2)) /\
  mean_is (fun r r' => kinetic m2 (snd (w r r'))) (kinetic m2 (p_vel p2) + exchange m1 (p_vel p1) m2 (p_vel p2)).
Proof.
  intros H1 H2 w.
  destruct (split_energy m1 m2 (p_vel p1) (p_vel p2) (fun r r' => isoR r r' (vabs (N:=RNum) (vsub (p_vel p1) (p_vel p2)))) 0 H1 H2) as [A B].
  - intros r r' Hr _. unfold isoR. rewrite iso_norm2, vabs_relspeed, relspeed_sq by assumption. reflexivity.
  - intros i. rewrite Rmult_0_l. apply iso_mean.
  - rewrite Rminus_0_r, Rmult_1_l in A, B. split; [exact A|exact B].
Qed.
Lemma vss_energy_mean m1 m2 (al : R) (p1 p2 : rpart) : 0 < m1 -> 0 < m2 -> 0 <= al ->
  (let v := relvel p1 p2 in let D := R_sqrt.sqrt (vy v ^ 2 + vz v ^ 2) in 1 / 1000000 < D \/ D = 0) ->
  let w := fun r r' => after (model_interact true (MVSS (ReducedMass (N:=RNum) m1 m2) al) p1 p2 [] (two_draws r r') 0) in
  mean_is (fun r r' => kinetic m1 (fst (w r r'))) (kinetic m1 (p_vel p1) - 2 * al / (1 + al) * exchange m1 (p_vel p1) m2 (p_vel p2)) /\
  mean_is (fun r r' => kinetic m2 (snd (w r r'))) (kinetic m2 (p_vel p2) + 2 * al / (1 + al) * exchange m1 (p_vel p1) m2 (p_vel p2)).
Proof.
  intros H1 H2 Ha HD w.
  destruct (split_energy m1 m2 (p_vel p1) (p_vel p2) (fun r r' => vssR al (vsub (N:=RNum) (p_vel p1) (p_vel p2)) r r') ((1 - al) / (1 + al)) H1 H2) as [A B].
  - intros r r' Hr _. destruct (vss_core al r r' (relvel p1 p2) Hr Ha) as (X & Y & _). cbv zeta in *.
    change (Dperp (relvel p1 p2)) with (R_sqrt.sqrt (vy (relvel p1 p2) ^ 2 + vz (relvel p1 p2) ^ 2)) in X, Y.
    change (vsub (N:=RNum) (p_vel p1) (p_vel p2)) with (relvel p1 p2). change (dist2 (p_vel p1) (p_vel p2)) with (norm2 (relvel p1 p2)).
    unfold vssR. destruct HD as [HD|HD]; [exact (proj1 (X HD))|].
    rewrite HD in Y. rewrite Y by lra. ring.
  - intros i. apply (vss_mean al (relvel p1 p2) i Ha HD).
  - replace (1 - (1 - al) / (1 + al)) with (2 * al / (1 + al)) in A, B by (field; lra). split; [exact A|exact B].
Qed.

(** Products of a 2->2 reaction share the available energy in inverse ratio of their masses. *)
Lemma react22_shares db spf parse fcm fcq kec thrE (e : eqcore RNum) model mA mB M0 M1 inplace (p1 p2 : rpart) l g k :
  reaction (N:=RNum) positive db e mA mB [M0; M1] ->
  hasExpressions (e_products e) = false ->
  inelastic_new_load db spf parse fcm fcq kec thrE e = Ok model ->
  let dE := match kec with Some d => d | None => - thrE end in
  let E := mA * mB / (mA + mB) / 2 * dist2 (p_vel p1) (p_vel p2) + dE in
  rng_ok g -> 0 <= E ->
  exists q1 q2, model_interact inplace model p1 p2 l g k = Ok (p1, p2, l ++ [q1; q2], (k + 2)%nat) /\
    kinetic_from M0 (cm_velocity mA (p_vel p1) mB (p_vel p2)) (p_vel q1) = E * (M1 / (M0 + M1)) /\
    kinetic_from M1 (cm_velocity mA (p_vel p1) mB (p_vel p2)) (p_vel q2) = E * (M0 / (M0 + M1)).
Proof.
  intros (HA & HB & Hmu & Hok & HF & HmA & HmB & Hms) Hx Hload dE E Hr Hnn.
  inversion Hms as [|? ? HM0 Hms']; inversion Hms' as [|? ? HM1 _]; subst.
  apply Forall2_two in HF as (s0 & s1 & Hexp & (q0 & Hd0) & (q1 & Hd1)).
  destruct (load22 _ _ _ _ _ _ _ _ _ _ _ Hok Hexp Hload)
    as (m & M0' & Q0 & M1' & Q1 & -> & E0 & E1 & Em1 & Esc & EdV & EhE & EuX & Hcl & _).
  rewrite Hd0 in E0. injection E0 as <- <-. rewrite Hd1 in E1. injection E1 as <- <-.
  destruct Hcl as [Hcmu Hnf Hne _ _].
  destruct (interact22_shape inplace m p1 p2 l g k) as (f0 & f1 & _ & ->); [congruence|assumption|assumption|].
  cbv zeta. eexists _, _. split; [reflexivity|].
  unfold built, setVelocity; cbn [p_vel].
  unfold vel22. rewrite Hcmu, Hmu, Em1. cbn [fst snd].
  set (W := isoVel _ _ _).
  assert (HK : forall M (v : rvec), kinetic_from M (cm_velocity mA (p_vel p1) mB (p_vel p2)) v
    = M / 2 * dist2 v (VelCM (ReducedMass (N:=RNum) mA mB) (p_vel p1) (p_vel p2))).
  { intros M v. unfold kinetic_from. rewrite <- !comp_cm by assumption. reflexivity. }
  pose proof (rm_pos _ _ HmA HmB) as Hp. pose proof (rm_pos _ _ HM0 HM1) as Hp1.
  change (energy_change (N:=RNum) kec thrE) with (match kec with Some d => d | None => 0 - thrE end) in *.
  assert (HdE : (match kec with Some d => d | None => 0 - thrE end) = dE) by (unfold dE; destruct kec; [reflexivity|unR; ring]).
  rewrite HdE in EdV, EhE.
  pose proof (scale_sq _ _ Hp Hp1) as Hs.
  pose proof (vrel_sq (i2_hasE m) (p_vel p1) (p_vel p2) dE _ Hp EhE Hnn) as Hv0.
  assert (HW : norm2 W = CalculateVRel (N:=RNum) (i2_hasE m) (p_vel p1) (p_vel p2) (i2_dV2rel m) ^ 2) by (apply iso_norm2, Hr).
  rewrite EdV, <- EhE, Hmu, rm_val in HW.
  assert (Hv : mA * mB / (mA + mB) / 2 * norm2 W = E) by (rewrite HW; exact Hv0). clear Hv0.
  rewrite !HK, dist_add, dist_sub, Esc, Hmu, !rm_val, rm_over1, rm_over2 by assumption.
  unR. set (s := R_sqrt.sqrt _) in Hs |- *. split.
  - replace (M0 / 2 * ((M1 / (M0 + M1) * s) ^ 2 * norm2 W)) with ((M0 * M1 / (M0 + M1) / 2 * (s * s)) * norm2 W * (M1 / (M0 + M1))) by (field; lra).
    rewrite Hs, Hv. reflexivity.
  - replace (M1 / 2 * ((M0 / (M0 + M1) * s) ^ 2 * norm2 W)) with ((M0 * M1 / (M0 + M1) / 2 * (s * s)) * norm2 W * (M0 / (M0 + M1))) by (field; lra).
    rewrite Hs, Hv. reflexivity.
Qed.
