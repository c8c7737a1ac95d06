(** Thermal speeds against the Maxwell distribution. *)
From Coq Require Import ZArith Reals Lra Psatz.
From Coquelicot Require Import Coquelicot.
From Verif Require Import Base Num ModelMisc SpecMisc ProofGauss.
Local Open Scope R_scope.

Section Th.
Variables k T mu : R.
Hypotheses (Hk : 0 < k) (HT : 0 < T) (Hmu : 0 < mu).
Let kT := k * T.
Let a := mu / (2 * kT).
Lemma kT_pos : 0 < kT. Proof. unfold kT. apply Rmult_lt_0_compat; assumption. Qed.
Lemma a_pos : 0 < a.
Proof. unfold a. pose proof kT_pos. apply Rdiv_lt_0_compat; lra. Qed.
Definition cst : R := 4 * (a * sqrt a) / sqrt PI.
Lemma sPI : 0 < sqrt PI /\ sqrt PI * sqrt PI = PI.
Proof. pose proof PI_RGT_0. split; [apply sqrt_lt_R0; lra|apply sqrt_sqrt; lra]. Qed.
Lemma sa : 0 < sqrt a /\ sqrt a * sqrt a = a.
Proof. pose proof a_pos. split; [apply sqrt_lt_R0; lra|apply sqrt_sqrt; lra]. Qed.
Lemma maxwell_eq v : maxwell kT mu v = cst * (v * v * gauss a v).
Proof.
  pose proof kT_pos as K. pose proof PI_RGT_0 as P. destruct sPI as [P1 P2]. destruct sa as [A1 A2].
  unfold maxwell. replace (mu / (2 * PI * kT)) with (a / PI) by (unfold a; field; lra).
  rewrite sqrt_div_alt by lra.
  replace (exp (- (mu * (v * v) / (2 * kT)))) with (gauss a v).
  - unfold cst. replace PI with (sqrt PI * sqrt PI) at 1 by exact P2.
    replace (a / PI) with (a / (sqrt PI * sqrt PI)) by (rewrite P2; reflexivity). field. lra.
  - unfold gauss. f_equal. unfold a. field. lra.
Qed.
Lemma avg_of (g h : R -> R) m0 : is_RInt_gen h (at_point 0) (Rbar_locally p_infty) m0 ->
  (forall v, g v * (v * v * gauss a v) = h v) -> average (maxwell kT mu) g (cst * m0).
Proof.
  intros H E. unfold average. apply (is_RInt_gen_ext (fun v => scal cst (h v))).
  - apply filter_forall. intros x y _. rewrite maxwell_eq, <- E. unfold scal; cbn. unfold mult; cbn. toR. ring.
  - apply (is_RInt_gen_scal (V := R_NormedModule) h cst m0). exact H.
Qed.
Lemma avg_one : average (maxwell kT mu) (fun _ => 1) 1.
Proof.
  destruct sPI as [P1 P2]. destruct sa as [A1 A2]. pose proof a_pos.
  assert (E : cst * (sqrt PI / (4 * a * sqrt a)) = 1) by (unfold cst; field; lra).
  assert (H1 : average (maxwell kT mu) (fun _ => 1) (cst * (sqrt PI / (4 * a * sqrt a)))).
  { apply (avg_of _ (fun x => x * x * gauss a x)); [apply moment2, a_pos|]. intros v. ring. }
  rewrite E in H1. exact H1.
Qed.
Definition mean : R := cst * / (2 * (a * a)).
Definition second : R := 3 / (2 * a).
Lemma avg_mean : average (maxwell kT mu) (fun v => v) mean.
Proof. apply (avg_of _ (fun x => x * x * x * gauss a x)); [apply moment3, a_pos|]. intros v. ring. Qed.
Lemma avg_second : average (maxwell kT mu) (fun v => v * v) second.
Proof.
  destruct sPI as [P1 P2]. destruct sa as [A1 A2]. pose proof a_pos.
  replace second with (cst * (3 / (2 * a) * (sqrt PI / (4 * a * sqrt a)))) by (unfold cst, second; field; lra).
  apply (avg_of _ (fun x => x * x * x * x * gauss a x)); [apply moment4, a_pos|]. intros v. ring.
Qed.
Lemma mean_sq : mean * mean = 4 / (PI * a).
Proof.
  destruct sPI as [P1 P2]. destruct sa as [A1 A2]. pose proof a_pos. unfold mean, cst.
  replace (_ * _ * _) with (4 * (sqrt a * sqrt a) / (sqrt PI * sqrt PI * (a * a))) by (field; lra).
  rewrite A2, P2. pose proof PI_RGT_0. field. lra.
Qed.
Lemma mean_pos : 0 < mean.
Proof.
  destruct sPI as [P1 P2]. destruct sa as [A1 A2]. pose proof a_pos. unfold mean, cst.
  apply Rmult_lt_0_compat.
  - apply Rdiv_lt_0_compat; [|exact P1]. assert (0 < a * sqrt a) by (apply Rmult_lt_0_compat; lra). lra.
  - apply Rinv_0_lt_compat. assert (0 < a * a) by (apply Rmult_lt_0_compat; lra). lra.
Qed.
Lemma mean_model : mean = sqrt 2 * avg_v_rel (N:=RNum) k T mu.
Proof.
  pose proof mean_pos. pose proof PI_RGT_0. pose proof kT_pos. unfold avg_v_rel. cbn [nsqrt nmul ndiv ofZ npi RNum].
  rewrite <- sqrt_mult_alt by lra.
  rewrite <- (sqrt_square mean) by lra. f_equal. rewrite mean_sq. unfold a, kT in *. field. repeat split; lra.
Qed.
Lemma std_val : calcStdVFromT (N:=RNum) k T mu = sqrt (3 / 2 * k * T / mu).
Proof. reflexivity. Qed.
Lemma std_sq : calcStdVFromT (N:=RNum) k T mu * calcStdVFromT (N:=RNum) k T mu = 3 / (4 * a).
Proof.
  pose proof kT_pos. rewrite std_val, sqrt_sqrt.
  - unfold a, kT in *. field. repeat split; lra.
  - left. apply Rdiv_lt_0_compat; [|exact Hmu]. unfold kT in *. lra.
Qed.
Lemma std_pos : 0 < calcStdVFromT (N:=RNum) k T mu.
Proof.
  rewrite std_val. apply sqrt_lt_R0. apply Rdiv_lt_0_compat; [|exact Hmu]. pose proof kT_pos. unfold kT in *. lra.
Qed.
Lemma rms_model : second = (sqrt 2 * calcStdVFromT (N:=RNum) k T mu) * (sqrt 2 * calcStdVFromT (N:=RNum) k T mu).
Proof.
  replace (_ * _ * _) with (sqrt 2 * sqrt 2 * (calcStdVFromT (N:=RNum) k T mu * calcStdVFromT (N:=RNum) k T mu)) by ring.
  rewrite sqrt_sqrt, std_sq by lra. unfold second. pose proof a_pos. field. lra.
Qed.
(** The variance. *)
Lemma avg_var : average (maxwell kT mu) (fun v => (v - mean) * (v - mean)) (second - mean * mean).
Proof.
  pose proof avg_second as H2. pose proof avg_mean as H1. pose proof avg_one as H0. unfold average in *.
  apply (is_RInt_gen_scal (V := R_NormedModule) _ (-2 * mean)) in H1.
  apply (is_RInt_gen_scal (V := R_NormedModule) _ (mean * mean)) in H0.
  pose proof (is_RInt_gen_plus (V := R_NormedModule) _ _ _ _ H2 (is_RInt_gen_plus (V := R_NormedModule) _ _ _ _ H1 H0)) as H.
  replace (second - mean * mean) with (plus second (plus (scal (-2 * mean) mean) (scal (mean * mean) 1))).
  - eapply is_RInt_gen_ext; [|exact H]. apply filter_forall. intros x y _. unfold scal, plus; cbn. unfold mult; cbn. toR. ring.
  - unfold scal, plus; cbn. unfold mult; cbn. toR. ring.
Qed.
Lemma var_less : sqrt (second - mean * mean) < calcStdVFromT (N:=RNum) k T mu.
Proof.
  pose proof std_pos as S. pose proof a_pos as A. pose proof PI_4 as P4. pose proof PI_RGT_0 as P.
  rewrite <- (sqrt_square (calcStdVFromT (N:=RNum) k T mu)) by lra. rewrite std_sq, mean_sq.
  destruct (Rle_dec 0 (second - 4 / (PI * a))) as [h|h].
  - apply sqrt_lt_1_alt. split; [exact h|]. unfold second.
    assert (1 / a <= 4 / (PI * a)).
    { replace (4 / (PI * a)) with (4 / PI * (1 / a)) by (field; lra).
      assert (1 <= 4 / PI) by (apply Rle_div_r; lra). assert (0 < 1 / a) by (apply Rdiv_lt_0_compat; lra). nra. }
    replace (3 / (2 * a)) with (3 / (4 * a) + 3 / 4 * (1 / a)) by (field; lra).
    assert (0 < 1 / a) by (apply Rdiv_lt_0_compat; lra). lra.
  - rewrite sqrt_neg_0 by lra. apply sqrt_lt_R0, Rdiv_lt_0_compat; lra.
Qed.
(** Few pairs are faster than the estimate. *)
Lemma tail w : 0 < w -> sqrt PI / (4 * a * sqrt a) - M2 a w <= (a * (w * w) + 1) * gauss a w / (2 * (a * a) * w).
Proof.
  intros Hw. pose proof a_pos as A. pose proof (M2_lim a A) as L. pose proof (M3_derive a A) as D3.
  assert (B : forall t, w <= t -> M2 a t <= M2 a w + (/ (2 * (a * a)) - M3 a w) / w).
  { intros t Ht.
    assert (I2 : is_RInt (fun x => x * x * gauss a x) w t (minus (M2 a t) (M2 a w))).
    { apply (is_RInt_derive (V := R_CompleteNormedModule) (M2 a)).
      - intros x _. apply (M2_derive a A).
      - intros x _. apply (gauss_cont_k a). apply (ex_derive_continuous (V := R_NormedModule)). auto_derive. exact I. }
    assert (I3 : is_RInt (fun x => / w * (x * x * x * gauss a x)) w t (scal (/ w) (minus (M3 a t) (M3 a w)))).
    { apply (is_RInt_scal (V := R_NormedModule)). apply (is_RInt_derive (V := R_CompleteNormedModule) (M3 a)).
      - intros x _. apply D3.
      - intros x _. apply (gauss_cont_k a). apply (ex_derive_continuous (V := R_NormedModule)). auto_derive. exact I. }
    assert (H := is_RInt_le _ _ _ _ _ _ Ht I2 I3). unfold minus, plus, opp, scal in H; cbn in H. unfold mult in H; cbn in H.
    assert (0 < / w) by (apply Rinv_0_lt_compat, Hw).
    assert (M3 a t <= / (2 * (a * a))).
    { unfold M3. assert (0 < gauss a t) by apply exp_pos. assert (0 < a * a) by (apply Rmult_lt_0_compat; lra).
      apply Rle_div_l; [lra|]. rewrite Rinv_l by lra. assert (0 <= a * (t * t)) by (apply Rmult_le_pos; [lra|nra]). nra. }
    assert (M2 a t + - M2 a w <= / w * (M3 a t + - M3 a w)).
    { apply H. intros x [X1 X2]. assert (0 < gauss a x) by apply exp_pos.
      replace (/ w * (x * x * x * gauss a x)) with (x * x * gauss a x * (x / w)) by (field; lra).
      assert (1 <= x / w) by (apply Rle_div_r; lra).
      assert (0 <= x * x * gauss a x) by (apply Rmult_le_pos; [nra|lra]). nra. }
    unfold Rdiv. nra. }
  assert (L2 : Rbar_le (sqrt PI / (4 * a * sqrt a)) (M2 a w + (/ (2 * (a * a)) - M3 a w) / w)).
  { apply (is_lim_le_loc (M2 a) (fun _ => M2 a w + (/ (2 * (a * a)) - M3 a w) / w) p_infty); [|exact L|apply is_lim_const].
    exists w. intros t Ht. apply B. lra. }
  cbn in L2. replace ((a * (w * w) + 1) * gauss a w / (2 * (a * a) * w)) with ((/ (2 * (a * a)) - M3 a w) / w); [lra|].
  unfold M3. field. lra.
Qed.
Lemma exp_nx n x : exp (INR n * x) = exp x ^ n.
Proof.
  induction n as [|n IH]; [cbn; rewrite Rmult_0_l; apply exp_0|].
  rewrite S_INR. replace ((INR n + 1) * x) with (x + INR n * x) by ring. rewrite exp_plus, IH. reflexivity.
Qed.
Lemma exp_675 : 400 <= exp (27 / 4).
Proof.
  replace (27 / 4) with (INR 27 * (1 / 4)) by (cbn; field). rewrite exp_nx.
  apply Rle_trans with ((5 / 4) ^ 27); [lra|].
  apply pow_incr. pose proof (exp_ineq1_le (1 / 4)). lra.
Qed.
Lemma est_model : exists p, is_RInt (maxwell kT mu) 0 (estMaxVFromStdV (N:=RNum) (calcStdVFromT (N:=RNum) k T mu)) p /\
  99 / 100 <= p.
Proof.
  set (s := calcStdVFromT (N:=RNum) k T mu). change (estMaxVFromStdV (N:=RNum) s) with (3 * s). set (w := 3 * s).
  pose proof a_pos as A. destruct sa as [A1 A2]. destruct sPI as [P1 P2].
  assert (S0 : 0 < s) by apply std_pos. assert (W0 : 0 < w) by (unfold w; lra).
  assert (AW : a * (w * w) = 27 / 4).
  { unfold w. replace (3 * s * (3 * s)) with (9 * (s * s)) by ring. unfold s. rewrite std_sq. field. lra. }
  exists (cst * M2 a w). split.
  - apply (is_RInt_ext (fun v => scal cst (v * v * gauss a v))).
    + intros v _. rewrite maxwell_eq. reflexivity.
    + apply (is_RInt_scal (V := R_NormedModule)). apply (prim a (fun x => x * x) (M2 a)); [|apply (M2_derive a A)|apply M2_0].
      intros x. apply (ex_derive_continuous (V := R_NormedModule)). auto_derive. exact I.
  - pose proof (tail w W0) as Ht. rewrite AW in Ht. unfold gauss in Ht. rewrite AW in Ht.
    assert (C0 : 0 < cst).
    { unfold cst. apply Rdiv_lt_0_compat; [|exact P1]. assert (0 < a * sqrt a) by (apply Rmult_lt_0_compat; lra). lra. }
    apply (Rmult_le_compat_l cst) in Ht; [|lra].
    assert (E1 : cst * (sqrt PI / (4 * a * sqrt a)) = 1) by (unfold cst; field; lra).
    rewrite Rmult_minus_distr_l, E1 in Ht.
    assert (Q : 9 / 2 <= sqrt PI * (sqrt a * w)).
    { rewrite <- (sqrt_square (sqrt PI * (sqrt a * w))).
      - replace (9 / 2) with (sqrt (81 / 4)).
        + apply sqrt_le_1_alt. replace (_ * _ * _) with ((sqrt PI * sqrt PI) * (sqrt a * sqrt a * (w * w))) by ring.
          rewrite P2, A2, AW. pose proof PI2_3_2. lra.
        + replace (81 / 4) with (9 / 2 * (9 / 2)) by field. apply sqrt_square. lra.
      - left. apply Rmult_lt_0_compat; [exact P1|]. apply Rmult_lt_0_compat; [exact A1|exact W0]. }
    assert (E2 : cst * ((27 / 4 + 1) * exp (- (27 / 4)) / (2 * (a * a) * w)) = 31 / 2 * exp (- (27 / 4)) / (sqrt PI * (sqrt a * w))).
    { unfold cst. replace (2 * (a * a) * w) with (2 * (a * (sqrt a * sqrt a)) * w) by (rewrite A2; reflexivity).
      field. lra. }
    rewrite E2 in Ht.
    assert (X : exp (- (27 / 4)) <= / 400) by (rewrite exp_Ropp; apply Rinv_le_contravar; [lra|apply exp_675]).
    assert (Y : 31 / 2 * exp (- (27 / 4)) / (sqrt PI * (sqrt a * w)) <= 1 / 100).
    { apply Rle_div_l; [lra|]. lra. }
    lra.
Qed.
End Th.
