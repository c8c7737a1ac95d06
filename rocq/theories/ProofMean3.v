(** Averages over the draws of a collision with three products. *)
From Coq Require Import Reals Lra Lia List ZArith.
From Coquelicot Require Import Coquelicot.
From Verif Require Import Base Num ModelTerm ModelCollide SpecTerm SpecPhys SpecXsec SpecMore SpecMean3
  ProofCollide ProofInelastic ProofReact ProofTop1 ProofGauss ProofMean ProofMean2 ProofReach.
From Coq Require Import List.
Import ListNotations.
Local Open Scope R_scope.
Local Ltac rg := intros; cbv beta; toR; ring.

Lemma mean_plus f g m n : mean_is f m -> mean_is g n -> mean_is (fun r r' => f r r' + g r r') (m + n).
Proof.
  intros (h & A & B) (h' & A' & B'). exists (fun r => h r + h' r). split; [|apply int_plus; assumption].
  intros r Hr. apply int_plus; auto.
Qed.
Lemma mean_const c : mean_is (fun _ _ => c) c.
Proof. exists (fun _ => c). split; [intros|]; apply int_const. Qed.
Lemma mean_scal k f m : mean_is f m -> mean_is (fun r r' => k * f r r') (k * m).
Proof. intros H. eapply mean_ext; [| |apply (mean_affine f m 0 k (0 + k * m) eq_refl H)]; [rg|rg]. Qed.

(** Velocity relative to the centre of mass as the sum of two independent isotropic parts. *)
Lemma mean5_velocity S x y c i f : 
  (forall q r r' s s', 0 <= q <= 1 -> f q r r' s s' = c + x * component i (isoR r r' (S * R_sqrt.sqrt q)) + y * component i (isoR s s' (S * R_sqrt.sqrt (1 - q)))) ->
  mean5_is f c.
Proof.
  intros H. exists (fun q r r' => c + x * component i (isoR r r' (S * R_sqrt.sqrt q))), (fun _ => c). split; [|split; [|apply int_const]].
  - intros q r r' Hq _ _. eapply mean_ext; [intros s s' _ _; symmetry; apply H; exact Hq|reflexivity|].
    eapply mean_ext; [| |apply (mean_affine _ 0 (c + x * component i (isoR r r' (S * R_sqrt.sqrt q))) y _ eq_refl (iso_mean (S * R_sqrt.sqrt (1 - q)) i))]; rg.
  - intros q _. eapply mean_ext; [| |apply (mean_affine _ 0 c x _ eq_refl (iso_mean (S * R_sqrt.sqrt q) i))]; rg.
Qed.
Lemma mean5_energy S x y m (c : nat -> R) (w : R -> R -> R -> R -> R -> rvec) :
  (forall i q r r' s s', 0 <= q <= 1 -> component i (w q r r' s s') = c i + x * component i (isoR r r' (S * R_sqrt.sqrt q)) + y * component i (isoR s s' (S * R_sqrt.sqrt (1 - q)))) ->
  mean5_is (fun q r r' s s' => kinetic_from m c (w q r r' s s')) (m / 2 * ((x ^ 2 + y ^ 2) * S ^ 2 / 2)).
Proof.
  intros H. set (h := fun q : R => m / 2 * (x ^ 2 * (S ^ 2 * q) + y ^ 2 * (S ^ 2 * (1 - q)))).
  assert (Nrm : forall r r' q, 0 <= r <= 1 -> 0 <= q -> component 0 (isoR r r' (S * R_sqrt.sqrt q)) ^ 2 + component 1 (isoR r r' (S * R_sqrt.sqrt q)) ^ 2 + component 2 (isoR r r' (S * R_sqrt.sqrt q)) ^ 2 = S ^ 2 * q).
  { intros r r' q Hr Hq. pose proof (iso_norm2 r r' (S * R_sqrt.sqrt q) Hr) as E. unfold norm2 in E. fold (isoR r r' (S * R_sqrt.sqrt q)) in E. cbn [component].
    transitivity (S ^ 2 * (R_sqrt.sqrt q * R_sqrt.sqrt q)); [|rewrite sqrt_sqrt by exact Hq; reflexivity]. etransitivity; [exact E|]. unR. toR; ring. }
  exists (fun q _ _ => h q), h. split; [|split].
  - intros q r r' Hq Hr Hr'. set (W1 := isoR r r' (S * R_sqrt.sqrt q)).
    assert (X : forall i, mean_is (fun s s' => (m * x * y * component i W1) * component i (isoR s s' (S * R_sqrt.sqrt (1 - q)))) ((m * x * y * component i W1) * 0)) by (intros; apply mean_scal, iso_mean).
    eapply mean_ext; [| |apply (mean_plus _ _ _ _ (mean_const (h q)) (mean_plus _ _ _ _ (X 0%nat) (mean_plus _ _ _ _ (X 1%nat) (X 2%nat))))]; [|rg].
    intros s s' Hs _. unfold kinetic_from. change (vx (w q r r' s s')) with (component 0 (w q r r' s s')). change (vy (w q r r' s s')) with (component 1 (w q r r' s s')). change (vz (w q r r' s s')) with (component 2 (w q r r' s s')).
    rewrite !H by exact Hq. fold W1. unfold h. rewrite <- (Nrm r r' q Hr) by lra. rewrite <- (Nrm s s' (1 - q) Hs) by lra. fold W1. toR; field.
  - intros q _. apply mean_const.
  - apply (int_ext (fun q => 0 * q ^ 2 + (m / 2 * S ^ 2 * (x ^ 2 - y ^ 2)) * q + m / 2 * S ^ 2 * y ^ 2) _ (m / 2 * ((x ^ 2 + y ^ 2) * S ^ 2 / 2))); [intros; unfold h; toR; ring|reflexivity|]. apply int_poly. toR; field.
Qed.

(** Mean square of the energy. *)
Lemma mean5_energy2 S x y m (c : nat -> R) (w : R -> R -> R -> R -> R -> rvec) :
  (forall i q r r' s s', 0 <= q <= 1 -> component i (w q r r' s s') = c i + x * component i (isoR r r' (S * R_sqrt.sqrt q)) + y * component i (isoR s s' (S * R_sqrt.sqrt (1 - q)))) ->
  let K1 := m / 2 * (x ^ 2 * S ^ 2) in let K2 := m / 2 * (y ^ 2 * S ^ 2) in
  mean5_is (fun q r r' s s' => kinetic_from m c (w q r r' s s') ^ 2) ((K1 ^ 2 + K2 ^ 2) / 3 + 5 / 9 * (K1 * K2)).
Proof.
  intros H K1 K2. set (A := fun q : R => K1 * q + K2 * (1 - q)).
  set (h := fun q : R => A q ^ 2 + 4 / 3 * (K1 * K2 * (q * (1 - q)))).
  assert (Nrm : forall r r' q, 0 <= r <= 1 -> 0 <= q -> component 0 (isoR r r' (S * R_sqrt.sqrt q)) ^ 2 + component 1 (isoR r r' (S * R_sqrt.sqrt q)) ^ 2 + component 2 (isoR r r' (S * R_sqrt.sqrt q)) ^ 2 = S ^ 2 * q).
  { intros r r' q Hr Hq. pose proof (iso_norm2 r r' (S * R_sqrt.sqrt q) Hr) as E. unfold norm2 in E. fold (isoR r r' (S * R_sqrt.sqrt q)) in E. cbn [component].
    transitivity (S ^ 2 * (R_sqrt.sqrt q * R_sqrt.sqrt q)); [|rewrite sqrt_sqrt by exact Hq; reflexivity]. etransitivity; [exact E|]. unR. toR; ring. }
  exists (fun q _ _ => h q), h. split; [|split].
  - intros q r r' Hq Hr Hr'. set (W1 := isoR r r' (S * R_sqrt.sqrt q)).
    pose proof (Nrm r r' q Hr (proj1 Hq)) as N1. fold W1 in N1.
    set (k := m * x * y).
    assert (X : forall i, mean_is (fun s s' => (2 * A q * k * component i W1) * component i (isoR s s' (S * R_sqrt.sqrt (1 - q)))) ((2 * A q * k * component i W1) * 0)) by (intros; apply mean_scal, iso_mean).
    assert (Y : forall i j, (i < 3)%nat -> (j < 3)%nat -> mean_is (fun s s' => (k ^ 2 * (component i W1 * component j W1)) * (component i (isoR s s' (S * R_sqrt.sqrt (1 - q))) * component j (isoR s s' (S * R_sqrt.sqrt (1 - q)))))
              ((k ^ 2 * (component i W1 * component j W1)) * (if Nat.eqb i j then (S * R_sqrt.sqrt (1 - q)) ^ 2 / 3 else 0))) by (intros; apply mean_scal, iso_second; assumption).
    pose proof (mean_plus _ _ _ _ (mean_const (A q ^ 2)) (mean_plus _ _ _ _ (X 0%nat) (mean_plus _ _ _ _ (X 1%nat) (X 2%nat)))) as P1.
    pose proof (mean_plus _ _ _ _ (Y 0%nat 0%nat ltac:(lia) ltac:(lia)) (mean_plus _ _ _ _ (Y 1%nat 1%nat ltac:(lia) ltac:(lia)) (Y 2%nat 2%nat ltac:(lia) ltac:(lia)))) as P2.
    pose proof (mean_plus _ _ _ _ (Y 0%nat 1%nat ltac:(lia) ltac:(lia)) (mean_plus _ _ _ _ (Y 0%nat 2%nat ltac:(lia) ltac:(lia)) (Y 1%nat 2%nat ltac:(lia) ltac:(lia)))) as P3.
    eapply mean_ext; [| |apply (mean_plus _ _ _ _ P1 (mean_plus _ _ _ _ P2 (mean_scal 2 _ _ P3)))].
    + intros s s' Hs _. unfold kinetic_from. change (vx (w q r r' s s')) with (component 0 (w q r r' s s')). change (vy (w q r r' s s')) with (component 1 (w q r r' s s')). change (vz (w q r r' s s')) with (component 2 (w q r r' s s')).
      rewrite !H by exact Hq. fold W1. pose proof (Nrm s s' (1 - q) Hs ltac:(lra)) as N2.
      assert (EA : A q = m / 2 * (x ^ 2 * (component 0 W1 ^ 2 + component 1 W1 ^ 2 + component 2 W1 ^ 2) + y ^ 2 * (component 0 (isoR s s' (S * R_sqrt.sqrt (1 - q))) ^ 2 + component 1 (isoR s s' (S * R_sqrt.sqrt (1 - q))) ^ 2 + component 2 (isoR s s' (S * R_sqrt.sqrt (1 - q))) ^ 2))).
      { rewrite N1, N2. unfold A, K1, K2. toR; ring. }
      rewrite EA. unfold k. set (W2 := isoR s s' (S * R_sqrt.sqrt (1 - q))). toR; field.
    + cbn [Nat.eqb]. replace ((S * R_sqrt.sqrt (1 - q)) ^ 2) with (S ^ 2 * (1 - q)) by (rewrite Rpow_mult_distr, (pow2_sqrt (1 - q)) by lra; reflexivity).
      unfold h. assert (EK : K1 * K2 * (q * (1 - q)) = m ^ 2 / 4 * (x ^ 2 * y ^ 2) * (S ^ 2 * q) * (S ^ 2 * (1 - q))) by (unfold K1, K2; toR; field).
      rewrite EK, <- N1. unfold k. toR; field.
  - intros q _. apply mean_const.
  - apply (int_ext (fun q => (K1 ^ 2 + K2 ^ 2 - 10 / 3 * (K1 * K2)) * q ^ 2 + (10 / 3 * (K1 * K2) - 2 * K2 ^ 2) * q + K2 ^ 2) _ ((K1 ^ 2 + K2 ^ 2) / 3 + 5 / 9 * (K1 * K2))); [intros; unfold h, A; toR; field|reflexivity|]. apply int_poly. toR; field.
Qed.
(** The mean is determined by the function. *)
Lemma int_unique f (l l' : R) : is_RInt f 0 1 l -> is_RInt f 0 1 l' -> l = l'.
Proof. intros A B. rewrite <- (is_RInt_unique _ _ _ _ A). exact (is_RInt_unique _ _ _ _ B). Qed.
Lemma mean_unique f (m m' : R) : mean_is f m -> mean_is f m' -> m = m'.
Proof.
  intros (h & A & B) (h' & A' & B'). apply (int_unique h); [exact B|]. apply (int_ext h' h m' m'); [|reflexivity|exact B'].
  intros r Hr. exact (int_unique _ _ _ (A' r Hr) (A r Hr)).
Qed.
Lemma mean5_unique f (m m' : R) : mean5_is f m -> mean5_is f m' -> m = m'.
Proof.
  intros (h2 & h1 & A & B & C) (g2 & g1 & A' & B' & C'). apply (int_unique h1); [exact C|]. apply (int_ext g1 h1 m' m'); [|reflexivity|exact C'].
  intros q Hq. apply (mean_unique (h2 q)); [|exact (B q Hq)]. apply (mean_ext (g2 q) _ (g1 q)); [|reflexivity|exact (B' q Hq)].
  intros r r' Hr Hr'. exact (mean_unique _ _ _ (A' q r r' Hq Hr Hr') (A q r r' Hq Hr Hr')).
Qed.

Lemma react23_mean db spf parse fcm fcq kec thrE (e : eqcore RNum) model mA mB M0 M1 M2 inplace (p1 p2 : rpart) j :
  reaction (N:=RNum) (fun m : R => 0 < m) db e mA mB [M0; M1; M2] ->
  hasExpressions (e_products e) = false ->
  inelastic_new_load db spf parse fcm fcq kec thrE e = Ok model ->
  let dE := match kec with Some d => d | None => - thrE end in
  let E := mA * mB / (mA + mB) / 2 * dist2 (p_vel p1) (p_vel p2) + dE in
  (j < 3)%nat ->
  let cm := cm_velocity mA (p_vel p1) mB (p_vel p2) in
  let M := nth j [M0; M1; M2] 0 in
  let w q r r' s s' := product3 j (model_interact inplace model p1 p2 [] (five_draws q r r' s s') 0) in
  (forall i, mean5_is (fun q r r' s s' => component i (w q r r' s s')) (cm i)) /\
  (0 <= E -> mean5_is (fun q r r' s s' => kinetic_from M cm (w q r r' s s')) (E / 2 * ((M0 + M1 + M2 - M) / (M0 + M1 + M2)))) /\
  (0 <= E -> M1 = M0 -> M2 = M0 -> mean5_is (fun q r r' s s' => kinetic_from M cm (w q r r' s s') ^ 2) (E ^ 2 * match j with 0%nat => 4 / 27 | _ => 5 / 36 end)).
Proof.
  intros (HA & HB & Hmu & Hok & HF & HmA & HmB & Hms) Hx Hload dE EE Hj cm M w.
  apply Forall2_three in HF as (s0 & s1 & s2 & Hexp & (q0 & Hd0) & (q1 & Hd1) & (q2 & Hd2)).
  apply Forall_cons_iff in Hms as [HM0 Hms]. apply Forall_cons_iff in Hms as [HM1 Hms].
  apply Forall_cons_iff in Hms as [HM2 _].
  destruct (load23 _ _ _ _ _ _ _ _ _ _ _ _ Hok Hexp Hload)
    as (m & M0' & Q0 & M1' & Q1 & M2' & Q2 & -> & E0 & E1 & E2 & Em1 & Em2 & Es1 & Es2 & EdV & EhE & EuX & Hcl & _).
  rewrite Hd0 in E0. injection E0 as <- <-. rewrite Hd1 in E1. injection E1 as <- <-.
  rewrite Hd2 in E2. injection E2 as <- <-.
  destruct Hcl as [Hcmu Hnf Hne _ _].
  pose proof (rm_pos _ _ HmA HmB) as Hp.
  assert (HM12 : 0 < M1 + M2) by lra.
  pose proof (rm_pos _ _ HM0 HM12) as Hp1. pose proof (rm_pos _ _ HM1 HM2) as Hp2.
  change (energy_change (N:=RNum) kec thrE) with (match kec with Some d => d | None => 0 - thrE end) in *.
  assert (HdE : (match kec with Some d => d | None => 0 - thrE end) = dE) by (unfold dE; destruct kec; [reflexivity|unR; ring]).
  rewrite HdE in EdV, EhE.
  set (S := CalculateVRel (N:=RNum) (i3_hasE m) (p_vel p1) (p_vel p2) (i3_dV2rel m)).
  assert (HS : 0 <= EE -> mA * mB / (mA + mB) / 2 * S ^ 2 = EE).
  { intros Hnn. unfold S. rewrite EdV, <- EhE, Hmu, rm_val. apply (vrel_sq (i3_hasE m) (p_vel p1) (p_vel p2) dE _ Hp EhE Hnn). }
  assert (Hsc1 : i3_mu1_scale m = R_sqrt.sqrt (mA * mB / (mA + mB) / (M0 * (M1 + M2) / (M0 + (M1 + M2))))).
  { rewrite Es1, Hmu. reflexivity. }
  assert (Hsc2 : i3_mu2_scale m = R_sqrt.sqrt (mA * mB / (mA + mB) / (M1 * M2 / (M1 + M2)))).
  { rewrite Es2, Hmu. reflexivity. }
  pose proof (scale_sq _ _ Hp Hp1) as K1. pose proof (scale_sq _ _ Hp Hp2) as K2. rewrite <- Hsc1 in K1. rewrite <- Hsc2 in K2.
  set (c1 := i3_mu1_scale m) in *. set (c2 := i3_mu2_scale m) in *.
  set (x := match j with 0%nat => (M1 + M2) / (M0 + (M1 + M2)) * c1 | _ => - (M0 / (M0 + (M1 + M2)) * c1) end).
  set (y := match j with 0%nat => 0 | 1%nat => M2 / (M1 + M2) * c2 | _ => - (M1 / (M1 + M2) * c2) end).
  assert (C : forall i q r r' s s', component i (w q r r' s s') = cm i + x * component i (isoR r r' (S * R_sqrt.sqrt q)) + y * component i (isoR s s' (S * R_sqrt.sqrt (1 - q)))).
  { intros i q r r' s s'. unfold w. destruct (interact23_shape inplace m p1 p2 [] (five_draws q r r' s s') 0) as (f0 & f1 & f2 & _ & ->); [congruence|assumption|assumption|].
    cbv zeta. cbn [g_rand Nat.add nth five_draws product3 app]. unfold vel23. rewrite Hcmu, Hmu, Em1, Em2. fold S c1 c2. cbn [fst snd].
    change (nadd (n:=RNum) M1 M2) with (M1 + M2). unfold cm. rewrite <- comp_cm by assumption.
    destruct j as [|[|[|j]]]; [| | |lia]; cbn [nth]; unfold built, setVelocity; cbn [p_vel]; unfold x, y;
      rewrite ?comp_add, ?comp_sub, ?comp_add, ?comp_sub, ?rm_over1, ?rm_over2 by lra; unfold isoR; unR; toR; ring. }
  assert (C1 : c1 ^ 2 = mA * mB / (mA + mB) * (M0 + (M1 + M2)) / (M0 * (M1 + M2))).
  { apply (Rmult_eq_reg_l (M0 * (M1 + M2) / (M0 + (M1 + M2)) / 2)); [|lra]. replace (c1 ^ 2) with (c1 * c1) by ring. rewrite K1. field. lra. }
  assert (C2 : c2 ^ 2 = mA * mB / (mA + mB) * (M1 + M2) / (M1 * M2)).
  { apply (Rmult_eq_reg_l (M1 * M2 / (M1 + M2) / 2)); [|lra]. replace (c2 ^ 2) with (c2 * c2) by ring. rewrite K2. field. lra. }
  split; [|split].
  - intros i. apply (mean5_velocity S x y _ i). intros q r r' s s' _. apply C.
  - intros Hnn. specialize (HS Hnn). assert (V : M / 2 * ((x ^ 2 + y ^ 2) * S ^ 2 / 2) = EE / 2 * ((M0 + M1 + M2 - M) / (M0 + M1 + M2))).
    { rewrite <- HS. set (mu := mA * mB / (mA + mB)) in *.
      unfold M, x, y. destruct j as [|[|[|j]]]; [| | |lia]; cbn [nth].
      - replace (((M1 + M2) / (M0 + (M1 + M2)) * c1) ^ 2) with (((M1 + M2) / (M0 + (M1 + M2))) ^ 2 * c1 ^ 2) by ring. rewrite C1. field. repeat split; lra.
      - replace ((- (M0 / (M0 + (M1 + M2)) * c1)) ^ 2) with ((M0 / (M0 + (M1 + M2))) ^ 2 * c1 ^ 2) by ring. replace ((M2 / (M1 + M2) * c2) ^ 2) with ((M2 / (M1 + M2)) ^ 2 * c2 ^ 2) by ring.
        rewrite C1, C2. field. repeat split; lra.
      - replace ((- (M0 / (M0 + (M1 + M2)) * c1)) ^ 2) with ((M0 / (M0 + (M1 + M2))) ^ 2 * c1 ^ 2) by ring. replace ((- (M1 / (M1 + M2) * c2)) ^ 2) with ((M1 / (M1 + M2)) ^ 2 * c2 ^ 2) by ring.
        rewrite C1, C2. field. repeat split; lra. }
    rewrite <- V. apply mean5_energy. intros i q r r' s s' _. apply C.
  - intros Hnn E1 E2. specialize (HS Hnn). pose proof (mean5_energy2 S x y M cm w (fun i q r r' s s' _ => C i q r r' s s')) as R2. cbv zeta in R2.
    assert (V : forall k l : R, M / 2 * (x ^ 2 * S ^ 2) = EE * k -> M / 2 * (y ^ 2 * S ^ 2) = EE * l -> mean5_is (fun q r r' s s' => kinetic_from M cm (w q r r' s s') ^ 2) (EE ^ 2 * ((k ^ 2 + l ^ 2) / 3 + 5 / 9 * (k * l)))).
    { intros k l Hk Hl. rewrite Hk, Hl in R2. replace (EE ^ 2 * ((k ^ 2 + l ^ 2) / 3 + 5 / 9 * (k * l))) with (((EE * k) ^ 2 + (EE * l) ^ 2) / 3 + 5 / 9 * (EE * k * (EE * l))) by field. exact R2. }
    clear R2. rewrite E1, E2 in C1, C2. set (mu := mA * mB / (mA + mB)) in *.
    assert (X0 : M = M0) by (unfold M; destruct j as [|[|[|j]]]; [| | |lia]; cbn [nth]; congruence).
    destruct j as [|j].
    + replace (4 / 27) with (((2 / 3) ^ 2 + 0 ^ 2) / 3 + 5 / 9 * (2 / 3 * 0)) by field. apply V; rewrite X0; unfold x, y; rewrite ?E1, ?E2, <- ?HS; [|field].
      replace (((M0 + M0) / (M0 + (M0 + M0)) * c1) ^ 2) with (((M0 + M0) / (M0 + (M0 + M0))) ^ 2 * c1 ^ 2) by ring. rewrite C1. field. lra.
    + replace (5 / 36) with (((1 / 6) ^ 2 + (1 / 2) ^ 2) / 3 + 5 / 9 * (1 / 6 * (1 / 2))) by field. apply V; rewrite X0; unfold x, y; rewrite ?E1, ?E2, <- ?HS.
      * replace ((- (M0 / (M0 + (M0 + M0)) * c1)) ^ 2) with ((M0 / (M0 + (M0 + M0))) ^ 2 * c1 ^ 2) by ring. rewrite C1. field. lra.
      * destruct j as [|j].
        -- replace ((M0 / (M0 + M0) * c2) ^ 2) with ((M0 / (M0 + M0)) ^ 2 * c2 ^ 2) by ring. rewrite C2. field. lra.
        -- replace ((- (M0 / (M0 + M0) * c2)) ^ 2) with ((M0 / (M0 + M0)) ^ 2 * c2 ^ 2) by ring. rewrite C2. field. lra.
Qed.
