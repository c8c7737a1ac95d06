(** Every energy split and every pair of directions is reached in a 2->3 reaction. *)
From Coq Require Import Reals Lra Lia String List ZArith Bool.
From Verif Require Import Base Num ModelTerm ModelCollide SpecTerm SpecPhys SpecMore ProofTerm ProofCollide ProofInelastic ProofReact ProofTop1 ProofMean2.
From Coq Require Import List.
Import ListNotations.
Local Open Scope R_scope.

Lemma sqrt_prod_sq a q : 0 <= q -> (a * R_sqrt.sqrt q) ^ 2 = a ^ 2 * q.
Proof. intros H. rewrite Rpow_mult_distr. f_equal. rewrite <- Rsqr_pow2. apply Rsqr_sqrt, H. Qed.

Lemma react23_reach db spf parse fcm fcq kec thrE (e : eqcore RNum) model mA mB M0 M1 M2 inplace (p1 p2 : rpart) l (q : R) (d1 d2 : rvec) :
  reaction (N:=RNum) (fun m : R => 0 < m) db e mA mB [M0; M1; M2] ->
  hasExpressions (e_products e) = false ->
  inelastic_new_load db spf parse fcm fcq kec thrE e = Ok model ->
  0 <= q <= 1 -> norm2 d1 = 1 -> norm2 d2 = 1 ->
  let dE := match kec with Some d => d | None => - thrE end in
  let E := mA * mB / (mA + mB) / 2 * dist2 (p_vel p1) (p_vel p2) + dE in
  0 <= E ->
  exists g q1 q2 q3 s1 s2, rng_ok g /\
    model_interact inplace model p1 p2 l g 0 = Ok (p1, p2, l ++ [q1; q2; q3], 5%nat) /\
    0 <= s1 /\ 0 <= s2 /\
    (forall i, component i (p_vel q1) - cm_velocity mA (p_vel p1) mB (p_vel p2) i = s1 * component i d1) /\
    (forall i, component i (p_vel q2) - component i (p_vel q3) = s2 * component i d2) /\
    M0 * (M0 + M1 + M2) / (M1 + M2) / 2 * s1 ^ 2 = q * E /\
    M1 * M2 / (M1 + M2) / 2 * s2 ^ 2 = (1 - q) * E.
Proof.
  intros (HA & HB & Hmu & Hok & HF & HmA & HmB & Hms) Hx Hload Hq Hd1' Hd2' dE EE Hnn.
  apply Forall2_three in HF as (s0 & s1 & s2 & Hexp & (q0 & Hd0) & (q1 & Hd1) & (q2 & Hd2)).
  apply Forall_cons_iff in Hms as [HM0 Hms]. apply Forall_cons_iff in Hms as [HM1 Hms].
  apply Forall_cons_iff in Hms as [HM2 _].
  destruct (load23 _ _ _ _ _ _ _ _ _ _ _ _ Hok Hexp Hload)
    as (m & M0' & Q0 & M1' & Q1 & M2' & Q2 & -> & E0 & E1 & E2 & Em1 & Em2 & Es1 & Es2 & EdV & EhE & EuX & Hcl & _).
  rewrite Hd0 in E0. injection E0 as <- <-. rewrite Hd1 in E1. injection E1 as <- <-.
  rewrite Hd2 in E2. injection E2 as <- <-.
  destruct Hcl as [Hcmu Hnf Hne _ _].
  destruct (iso_reach d1 Hd1') as (r1 & r1' & Hr1 & Hr1' & I1).
  destruct (iso_reach d2 Hd2') as (r2 & r2' & Hr2 & Hr2' & I2).
  exists (mkRng (N:=RNum) (fun k => nth k [q; r1; r1'; r2; r2'] 0) (fun _ => 0)).
  destruct (interact23_shape inplace m p1 p2 l (mkRng (N:=RNum) (fun k => nth k [q; r1; r1'; r2; r2'] 0) (fun _ => 0)) 0) as (f0 & f1 & f2 & _ & ->); [congruence|assumption|assumption|].
  cbv zeta. cbn [g_rand Nat.add nth].
  pose proof (rm_pos _ _ HmA HmB) as Hp.
  assert (HM12 : 0 < M1 + M2) by lra.
  pose proof (rm_pos _ _ HM0 HM12) as Hp1. pose proof (rm_pos _ _ HM1 HM2) as Hp2.
  change (energy_change (N:=RNum) kec thrE) with (match kec with Some d => d | None => 0 - thrE end) in *.
  assert (HdE : (match kec with Some d => d | None => 0 - thrE end) = dE) by (unfold dE; destruct kec; [reflexivity|unR; ring]).
  rewrite HdE in EdV, EhE.
  set (S := CalculateVRel (N:=RNum) (i3_hasE m) (p_vel p1) (p_vel p2) (i3_dV2rel m)).
  assert (HS : mA * mB / (mA + mB) / 2 * S ^ 2 = EE).
  { unfold S. rewrite EdV, <- EhE, Hmu, rm_val. apply (vrel_sq (i3_hasE m) (p_vel p1) (p_vel p2) dE _ Hp EhE Hnn). }
  assert (HS0 : 0 <= S).
  { unfold S, CalculateVRel. destruct (i3_hasE m); apply sqrt_pos. }
  assert (Hsc1 : i3_mu1_scale m = R_sqrt.sqrt (mA * mB / (mA + mB) / (M0 * (M1 + M2) / (M0 + (M1 + M2))))).
  { rewrite Es1, Hmu. reflexivity. }
  assert (Hsc2 : i3_mu2_scale m = R_sqrt.sqrt (mA * mB / (mA + mB) / (M1 * M2 / (M1 + M2)))).
  { rewrite Es2, Hmu. reflexivity. }
  pose proof (scale_sq _ _ Hp Hp1) as K1. pose proof (scale_sq _ _ Hp Hp2) as K2. rewrite <- Hsc1 in K1. rewrite <- Hsc2 in K2.
  assert (Hc1 : 0 <= i3_mu1_scale m) by (rewrite Hsc1; apply sqrt_pos).
  assert (Hc2 : 0 <= i3_mu2_scale m) by (rewrite Hsc2; apply sqrt_pos).
  set (c1 := i3_mu1_scale m) in *. set (c2 := i3_mu2_scale m) in *.
  eexists _, _, _, ((M1 + M2) / (M0 + (M1 + M2)) * c1 * (S * R_sqrt.sqrt q)), (c2 * (S * R_sqrt.sqrt (1 - q))).
  split; [|split; [reflexivity|]].
  { intros k. cbn [g_rand g_exc]. split; [|lra]. do 5 (destruct k as [|k]; [cbn [nth]; assumption|]).
    cbn [nth]. destruct k; cbn [nth]; lra. }
  unfold built, setVelocity; cbn [p_vel].
  unfold vel23. rewrite Hcmu, Hmu, Em1, Em2. fold S c1 c2. rewrite I1, I2. cbn [fst snd].
  change (nadd (n:=RNum) M1 M2) with (M1 + M2).
  repeat split.
  - repeat apply Rmult_le_pos; try apply sqrt_pos; try assumption; try lra. left. apply Rinv_0_lt_compat. lra.
  - repeat apply Rmult_le_pos; try apply sqrt_pos; assumption.
  - intros i. rewrite <- comp_cm by assumption. rewrite comp_add, rm_over1 by lra.
    destruct i as [|[|i]]; cbn [component vx vy vz]; unR; ring.
  - intros i. rewrite comp_add, !comp_sub, !rm_over1, !rm_over2 by lra.
    destruct i as [|[|i]]; cbn [component vx vy vz]; unR; field; lra.
  - replace (M0 * (M0 + M1 + M2) / (M1 + M2) / 2 * ((M1 + M2) / (M0 + (M1 + M2)) * c1 * (S * R_sqrt.sqrt q)) ^ 2)
      with ((M0 * (M1 + M2) / (M0 + (M1 + M2)) / 2 * (c1 * c1)) * (S * R_sqrt.sqrt q) ^ 2) by (field; lra).
    rewrite K1, sqrt_prod_sq by lra. rewrite <- HS. ring.
  - replace (M1 * M2 / (M1 + M2) / 2 * (c2 * (S * R_sqrt.sqrt (1 - q))) ^ 2)
      with ((M1 * M2 / (M1 + M2) / 2 * (c2 * c2)) * (S * R_sqrt.sqrt (1 - q)) ^ 2) by ring.
    rewrite K2, sqrt_prod_sq by lra. rewrite <- HS. ring.
Qed.
