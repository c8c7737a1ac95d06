(** Averages over the draws of a collision: elastic, VSS and two-product collisions. *)
From Coq Require Import Reals Lra Lia List ZArith.
From Coquelicot Require Import Coquelicot.
From Verif Require Import Base Num ModelTerm ModelCollide SpecTerm SpecPhys SpecXsec SpecMore
  ProofCollide ProofInelastic ProofReact ProofTop1 ProofGauss ProofMean.
From Coq Require Import List.
Import ListNotations.
Local Open Scope R_scope.

Local Ltac rg := intros; toR; ring.
Local Ltac fd := intros; toR; field.

(** ** Mean of a power of a uniform draw *)
Definition hp (al x : R) : R := if Rle_dec x 0 then 0 else Rpower x al.
Lemma hp_nonneg al x : 0 <= hp al x.
Proof. unfold hp. destruct (Rle_dec x 0); [lra|]. left. apply exp_pos. Qed.
Lemma hp_small al e : 0 < al -> 0 < e -> exists d, 0 < d /\ forall x, x < d -> hp al x < e.
Proof.
  intros Ha He. exists (Rpower e (/ al)). split; [apply exp_pos|].
  intros x Hx. unfold hp. destruct (Rle_dec x 0) as [|Hn]; [assumption|].
  assert (0 < x) by lra.
  replace e with (Rpower (Rpower e (/ al)) al).
  - unfold Rpower at 1 2. apply exp_increasing. apply Rmult_lt_compat_l; [assumption|].
    apply ln_increasing; assumption.
  - rewrite Rpower_mult, Rinv_l by lra. apply Rpower_1. assumption.
Qed.
Lemma hp_cont al x : 0 < al -> continuous (hp al) x.
Proof.
  intros Ha. destruct (Rtotal_order x 0) as [Hx|[->|Hx]].
  - apply (continuous_ext_loc (U := R_UniformSpace) _ (fun _ => 0)).
    + exists (mkposreal (- x) ltac:(lra)). intros y Hy. unfold hp.
      apply Rabs_lt_between' in Hy. cbn in Hy. destruct (Rle_dec y 0); [reflexivity|lra].
    + apply continuous_const.
  - apply continuity_pt_filterlim. intros e He.
    destruct (hp_small al e Ha He) as (d & Hd & Hs). exists d. split; [exact Hd|].
    intros y [_ Hy]. unfold dist in *; cbn in *. unfold R_dist in *.
    replace (hp al 0) with 0 by (unfold hp; destruct (Rle_dec 0 0); lra).
    rewrite Rminus_0_r, Rabs_right by (apply Rle_ge, hp_nonneg). apply Hs.
    rewrite Rminus_0_r in Hy. pose proof (Rle_abs y). lra.
  - apply (continuous_ext_loc (U := R_UniformSpace) _ (fun x => Rpower x al)).
    + exists (mkposreal x Hx). intros y Hy. unfold hp.
      apply Rabs_lt_between' in Hy. cbn in Hy. destruct (Rle_dec y 0); [lra|reflexivity].
    + apply (ex_derive_continuous (V := R_NormedModule)). unfold Rpower. auto_derive. assumption.
Qed.
Lemma hp_derive al x : 0 < al -> 0 <= x -> is_derive (fun x => x * hp al x / (al + 1)) x (hp al x).
Proof.
  intros Ha [Hx| <-].
  - apply (is_derive_ext_loc (fun x => x * Rpower x al / (al + 1))).
    + exists (mkposreal x Hx). intros y Hy. unfold hp.
      apply Rabs_lt_between' in Hy. cbn in Hy. destruct (Rle_dec y 0); [lra|reflexivity].
    + unfold hp. destruct (Rle_dec x 0); [lra|]. unfold Rpower. auto_derive; [assumption|].
      field. split; lra.
  - apply is_derive_Reals. intros e He. destruct (hp_small al e Ha He) as (d & Hd & Hs).
    exists (mkposreal d Hd). intros h Hh Hd'. cbn in Hd'.
    replace (hp al 0) with 0 by (unfold hp; destruct (Rle_dec 0 0); lra).
    rewrite Rplus_0_l. replace ((h * hp al h / (al + 1) - 0 * 0 / (al + 1)) / h - 0) with (hp al h / (al + 1)) by (field; lra).
    pose proof (hp_nonneg al h) as H0. assert (0 <= hp al h / (al + 1)) by (apply Rdiv_le_0_compat; lra).
    rewrite Rabs_right by lra. apply Rle_lt_trans with (hp al h).
    + apply Rmult_le_reg_r with (al + 1); [lra|]. unfold Rdiv. rewrite Rmult_assoc, Rinv_l by lra. nra.
    + apply Hs. pose proof (Rle_abs h). lra.
Qed.
Lemma int_pow al : 0 <= al -> is_RInt (fun r => Rpow r al) 0 1 (/ (al + 1)).
Proof.
  intros [Ha| <-].
  - apply (int_ext (hp al) _ (/ (al + 1))); [|reflexivity|].
    + intros x Hx. unfold hp, Rpow. destruct (Rle_dec x 0), (Req_EM_T x 0), (Req_EM_T al 0); try lra; reflexivity.
    + replace (/ (al + 1)) with (1 * hp al 1 / (al + 1) - 0 * hp al 0 / (al + 1)).
      * apply (is_RInt_derive (V := R_CompleteNormedModule) (fun x => x * hp al x / (al + 1)) (hp al) 0 1).
        -- intros x Hx. rewrite Rmin_left in Hx by lra. apply hp_derive; [assumption|lra].
        -- intros x _. apply hp_cont. assumption.
      * unfold hp. destruct (Rle_dec 1 0), (Rle_dec 0 0); try lra. unfold Rpower. rewrite ln_1, Rmult_0_r, exp_0. fd. lra.
  - apply (int_ext (fun _ => 1) _ 1); [|fd|apply int_const].
    intros x Hx. unfold Rpow. destruct (Req_EM_T x 0), (Req_EM_T 0 0); try lra. symmetry. apply Rpower_O. lra.
Qed.

(** ** Collisions *)
Lemma elastic_after m1 m2 (p1 p2 : rpart) r r' : 
  let mu := ReducedMass (N:=RNum) m1 m2 in
  let W := isoR r r' (vabs (vsub (p_vel p1) (p_vel p2))) in
  after (model_interact true (MElastic mu) p1 p2 [] (two_draws r r') 0)
  = (vadd (VelCM mu (p_vel p1) (p_vel p2)) (vscale (over_m1 mu) W),
     vsub (VelCM mu (p_vel p1) (p_vel p2)) (vscale (over_m2 mu) W)).
Proof. reflexivity. Qed.
Lemma comp_add i (a b : rvec) c : component i (vadd (N:=RNum) a (vscale (N:=RNum) c b)) = component i a + c * component i b.
Proof. destruct i as [|[|i]]; reflexivity. Qed.
Lemma comp_sub i (a b : rvec) c : component i (vsub (N:=RNum) a (vscale (N:=RNum) c b)) = component i a + - c * component i b.
Proof. destruct i as [|[|i]]; cbn; unR; ring. Qed.
Lemma comp_cm i m1 m2 (v1 v2 : rvec) : 0 < m1 -> 0 < m2 ->
  component i (VelCM (ReducedMass (N:=RNum) m1 m2) v1 v2) = cm_velocity m1 v1 m2 v2 i.
Proof.
  intros. unfold VelCM, cm_velocity. rewrite rm_over1, rm_over2 by assumption.
  destruct i as [|[|i]]; cbn [component vadd vscale vx vy vz]; unR; field; lra.
Qed.
Lemma iso_affine a c S i : mean_is (fun r r' => a + c * component i (isoR r r' S)) a.
Proof. apply (mean_affine _ 0); [ring|apply iso_mean]. Qed.
Lemma elastic_mean m1 m2 (p1 p2 : rpart) i : 0 < m1 -> 0 < m2 ->
  mean_is (fun r r' => component i (fst (after (model_interact true (MElastic (ReducedMass (N:=RNum) m1 m2)) p1 p2 [] (two_draws r r') 0))))
    (cm_velocity m1 (p_vel p1) m2 (p_vel p2) i) /\
  mean_is (fun r r' => component i (snd (after (model_interact true (MElastic (ReducedMass (N:=RNum) m1 m2)) p1 p2 [] (two_draws r r') 0))))
    (cm_velocity m1 (p_vel p1) m2 (p_vel p2) i).
Proof.
  intros H1 H2. rewrite <- comp_cm by assumption. split.
  - eapply mean_ext; [|reflexivity|eapply (iso_affine _ _ (vabs (N:=RNum) (vsub (p_vel p1) (p_vel p2))) i)].
    intros r r' _ _. rewrite elastic_after. cbn [fst]. rewrite comp_add. reflexivity.
  - eapply mean_ext; [|reflexivity|eapply (iso_affine _ _ (vabs (N:=RNum) (vsub (p_vel p1) (p_vel p2))) i)].
    intros r r' _ _. rewrite elastic_after. cbn [snd]. rewrite comp_sub. reflexivity.
Qed.
Lemma elastic_second m1 m2 (p1 p2 : rpart) i j : 0 < m1 -> 0 < m2 -> (i < 3)%nat -> (j < 3)%nat ->
  let w := fun r r' => after (model_interact true (MElastic (ReducedMass (N:=RNum) m1 m2)) p1 p2 [] (two_draws r r') 0) in
  mean_is (fun r r' => (component i (fst (w r r')) - component i (snd (w r r'))) *
                       (component j (fst (w r r')) - component j (snd (w r r'))))
    (if Nat.eqb i j then dist2 (p_vel p1) (p_vel p2) / 3 else 0).
Proof.
  intros H1 H2 Hi Hj w.
  eapply mean_ext; [| |apply (iso_second (vabs (N:=RNum) (vsub (p_vel p1) (p_vel p2))) i j Hi Hj)].
  - intros r r' _ _. unfold w. rewrite elastic_after. cbn [fst snd]. rewrite !comp_add, !comp_sub.
    rewrite rm_over1, rm_over2 by assumption.
    set (X := component i (isoR _ _ _)). set (Y := component j (isoR _ _ _)). toR. field. lra.
  - rewrite vabs_relspeed. destruct (Nat.eqb i j); [|reflexivity]. rewrite relspeed_sq. reflexivity.
Qed.

Definition vssR (al : R) (v : rvec) (r r' : R) : rvec := vssVel (N:=RNum) al v r r'.
Lemma vss_after m1 m2 (al : R) (p1 p2 : rpart) r r' : 
  let mu := ReducedMass (N:=RNum) m1 m2 in
  let W := vssR al (vsub (N:=RNum) (p_vel p1) (p_vel p2)) r r' in
  after (model_interact true (MVSS mu al) p1 p2 [] (two_draws r r') 0)
  = (vadd (VelCM mu (p_vel p1) (p_vel p2)) (vscale (over_m1 mu) W),
     vsub (VelCM mu (p_vel p1) (p_vel p2)) (vscale (over_m2 mu) W)).
Proof. reflexivity. Qed.
Lemma int_cosine al : 0 <= al -> is_RInt (fun r => 2 * Rpow r al - 1) 0 1 ((1 - al) / (1 + al)).
Proof.
  intros H. apply (int_ext (fun r => (-1) + 2 * Rpow r al) _ (-1 + 2 * / (al + 1))); [rg|fd; lra|].
  apply int_plus; [apply int_const|apply int_scal, int_pow, H].
Qed.
Lemma mean_plus f g a b m : m = a + b -> mean_is f a -> mean_is g b -> mean_is (fun r r' => f r r' + g r r') m.
Proof.
  intros -> (u & A1 & A2) (w & B1 & B2). exists (fun r => u r + w r). split.
  - intros r Hr. apply int_plus; auto.
  - apply int_plus; assumption.
Qed.
Lemma vss_mean al (v : rvec) i : 0 <= al ->
  (let D := R_sqrt.sqrt (vy v ^ 2 + vz v ^ 2) in 1 / 1000000 < D \/ D = 0) ->
  mean_is (fun r r' => component i (vssR al v r r')) ((1 - al) / (1 + al) * component i v).
Proof.
  intros Ha HD. destruct v as [x y z]. cbn [vy vz] in HD.
  pose proof (int_cosine al Ha) as HB.
  set (B := fun r => 2 * Rpow r al - 1) in *.
  set (A := fun r => R_sqrt.sqrt (1 - B r * B r)).
  assert (M : forall c u w, mean_is (fun r r' => B r * c + ((A r * u) * cos (2 * PI * r') + (A r * w) * sin (2 * PI * r'))) ((1 - al) / (1 + al) * c)).
  { intros c u w. eapply mean_plus; [|apply (mean_ext (fun r r' => (B r * c) * 1) _ ((1 - al) / (1 + al) * c)); [rg|reflexivity|]|apply mean_plus with 0 0; [|apply (mean_zero (fun r => A r * u) _ int_cos)|apply (mean_zero (fun r => A r * w) _ int_sin)]].
    - rewrite Rplus_0_r. reflexivity.
    - apply (mean_prod _ _ ((1 - al) / (1 + al) * c) 1); [rg| |apply int_const].
      apply (int_ext (fun r => c * B r) _ (c * ((1 - al) / (1 + al)))); [rg|rg|]. apply int_scal, HB.
    - ring. }
  set (D := R_sqrt.sqrt (y ^ 2 + z ^ 2)) in HD.
  set (S := vabs (N:=RNum) (V3 (N:=RNum) x y z)).
  assert (E : forall r r', vssR al (V3 (N:=RNum) x y z) r r' =
    if Rltb (1 / 1000000) D then
      V3 (N:=RNum) (B r * x + A r * sin (2 * PI * r') * D)%R
        (B r * y + A r / D * (S * z * cos (2 * PI * r') - x * y * sin (2 * PI * r')))%R
        (B r * z - A r / D * (S * y * cos (2 * PI * r') + x * z * sin (2 * PI * r')))%R
    else V3 (N:=RNum) (B r * x)%R (A r * cos (2 * PI * r') * x)%R (A r * sin (2 * PI * r') * x)%R).
  { intros r r'. unfold vssR, vssVel, D. cbn [vx vy vz]. unfold sqr, nquot. unR.
    replace (y ^ 2 + z ^ 2) with (y * y + z * z) by ring. reflexivity. }
  destruct HD as [HD|HD].
  - assert (El : Rltb (1 / 1000000) D = true) by (destruct (Rltb_spec (1 / 1000000) D); [reflexivity|lra]).
    rewrite El in E. destruct i as [|[|i]]; cbn [component vx vy vz].
    + eapply mean_ext; [|reflexivity|apply (M x 0 D)]. intros. rewrite E. cbn [component vx]. toR. ring.
    + eapply mean_ext; [|reflexivity|apply (M y (S * z / D) (- (x * y / D)))]. intros. rewrite E. cbn [component vy]. toR. field. lra.
    + eapply mean_ext; [|reflexivity|apply (M z (- (S * y / D)) (- (x * z / D)))]. intros. rewrite E. cbn [component vz]. toR. field. lra.
  - assert (El : Rltb (1 / 1000000) D = false) by (destruct (Rltb_spec (1 / 1000000) D); [lra|reflexivity]).
    rewrite El in E.
    assert (Hyz : y = 0 /\ z = 0).
    { unfold D in HD. apply sqrt_eq_0 in HD; [|nra]. split; nra. }
    destruct Hyz as [-> ->]. destruct i as [|[|i]]; cbn [component vx vy vz].
    + eapply mean_ext; [|reflexivity|apply (M x 0 0)]. intros. rewrite E. cbn [component vx]. toR. ring.
    + eapply mean_ext; [|reflexivity|apply (M 0 x 0)]. intros. rewrite E. cbn [component vy]. toR. ring.
    + eapply mean_ext; [|reflexivity|apply (M 0 0 x)]. intros. rewrite E. cbn [component vz]. toR. ring.
Qed.
Lemma vss_mean_rel m1 m2 (al : R) (p1 p2 : rpart) i : 0 < m1 -> 0 < m2 -> 0 <= al ->
  (let v := relvel p1 p2 in let D := R_sqrt.sqrt (vy v ^ 2 + vz v ^ 2) in 1 / 1000000 < D \/ D = 0) ->
  let w := fun r r' => after (model_interact true (MVSS (ReducedMass (N:=RNum) m1 m2) al) p1 p2 [] (two_draws r r') 0) in
  mean_is (fun r r' => component i (fst (w r r')) - component i (snd (w r r')))
    ((1 - al) / (1 + al) * component i (relvel p1 p2)).
Proof.
  intros H1 H2 Ha HD w.
  eapply mean_ext; [|reflexivity|apply (vss_mean al (relvel p1 p2) i Ha HD)].
  intros r r' _ _. unfold w. rewrite vss_after. cbn [fst snd]. rewrite comp_add, comp_sub, rm_over1, rm_over2 by assumption.
  change (vsub (N:=RNum) (p_vel p1) (p_vel p2)) with (relvel p1 p2).
  set (X := component i (vssR _ _ _ _)). toR. field. lra.
Qed.

Lemma react22_mean db spf parse fcm fcq kec thrE (e : eqcore RNum) model mA mB M0 M1 inplace (p1 p2 : rpart) i :
  reaction (N:=RNum) (fun m : R => 0 < m) db e mA mB [M0; M1] ->
  hasExpressions (e_products e) = false ->
  inelastic_new_load db spf parse fcm fcq kec thrE e = Ok model ->
  mean_is (fun r r' => component i (fst (after2 (model_interact inplace model p1 p2 [] (two_draws r r') 0))))
    (cm_velocity mA (p_vel p1) mB (p_vel p2) i) /\
  mean_is (fun r r' => component i (snd (after2 (model_interact inplace model p1 p2 [] (two_draws r r') 0))))
    (cm_velocity mA (p_vel p1) mB (p_vel p2) i).
Proof.
  intros (HA & HB & Hmu & Hok & HF & HmA & HmB & Hms) Hx Hload.
  apply Forall2_two in HF as (s0 & s1 & Hexp & (q0 & Hd0) & (q1 & Hd1)).
  destruct (load22 _ _ _ _ _ _ _ _ _ _ _ Hok Hexp Hload)
    as (m & M0' & Q0 & M1' & Q1 & -> & E0 & E1 & Em1 & Esc & EdV & EhE & EuX & Hcl & _).
  destruct Hcl as [Hcmu Hnf Hne _ _].
  rewrite <- comp_cm by assumption.
  assert (E : forall r r', after2 (model_interact inplace (MIn22 m) p1 p2 [] (two_draws r r') 0)
     = vel22 m (p_vel p1) (p_vel p2) r r').
  { intros r r'. destruct (interact22_shape inplace m p1 p2 [] (two_draws r r') 0) as (f0 & f1 & _ & ->); [congruence|assumption|assumption|].
    cbv zeta. unfold after2, built, setVelocity. cbn [p_vel app]. cbn [Nat.add two_draws g_rand].
    destruct (vel22 _ _ _ _ _); reflexivity. }
  split.
  - eapply mean_ext; [|reflexivity|eapply (iso_affine _ _ (CalculateVRel (N:=RNum) (i2_hasE m) (p_vel p1) (p_vel p2) (i2_dV2rel m)) i)].
    intros r r' _ _. rewrite E. unfold vel22. cbn [fst]. rewrite comp_add, Hcmu, Hmu. reflexivity.
  - eapply mean_ext; [|reflexivity|eapply (iso_affine _ _ (CalculateVRel (N:=RNum) (i2_hasE m) (p_vel p1) (p_vel p2) (i2_dV2rel m)) i)].
    intros r r' _ _. rewrite E. unfold vel22. cbn [snd]. rewrite comp_sub, Hcmu, Hmu. reflexivity.
Qed.
