(** The Gaussian integral and the moments of the Maxwell distribution of speeds. *)
From Coq Require Import Reals Lra Psatz.
From Coquelicot Require Import Coquelicot.
Local Open Scope R_scope.
Ltac toR := match goal with |- ?a = ?b => change (@eq R a b) end.

Definition bell (x : R) : R := exp (- (x * x)).
Definition Erf (t : R) : R := RInt bell 0 t.

Lemma bell_cont x : continuous bell x.
Proof.
  apply (ex_derive_continuous (V := R_NormedModule)). unfold bell. auto_derive. exact I.
Qed.
Lemma Erf_RInt t : is_RInt bell 0 t (Erf t).
Proof. apply (RInt_correct (V := R_CompleteNormedModule)), ex_RInt_continuous. intros; apply bell_cont. Qed.
Lemma Erf_derive t : is_derive Erf t (bell t).
Proof.
  apply (is_derive_RInt (V := R_NormedModule) bell Erf 0 t); [|apply bell_cont].
  apply filter_forall. intros x. apply Erf_RInt.
Qed.
Lemma Erf_0 : Erf 0 = 0.
Proof. unfold Erf. apply (RInt_point (V := R_CompleteNormedModule)). Qed.
Lemma Erf_pos t : 0 <= t -> 0 <= Erf t.
Proof.
  intros H. apply RInt_ge_0; [exact H| |].
  - eexists. apply Erf_RInt.
  - intros. left. apply exp_pos.
Qed.

(** The companion integral. *)
Definition comp (t x : R) : R := exp (- (t * t * (1 + x * x))) / (1 + x * x).
Definition Gp (t : R) : R := RInt (comp t) 0 1.
Lemma sq1 x : 0 < 1 + x * x. Proof. nra. Qed.
Lemma comp_cont t x : continuous (comp t) x.
Proof.
  apply (ex_derive_continuous (V := R_NormedModule)). unfold comp. auto_derive. pose proof (sq1 x). lra.
Qed.
Lemma comp_RInt t : is_RInt (comp t) 0 1 (Gp t).
Proof. apply (RInt_correct (V := R_CompleteNormedModule)), ex_RInt_continuous. intros; apply comp_cont. Qed.
Definition dcomp (t x : R) : R := - (2 * t) * exp (- (t * t * (1 + x * x))).
Lemma comp_derive t x : is_derive (fun u => comp u x) t (dcomp t x).
Proof. unfold comp, dcomp. pose proof (sq1 x). auto_derive; [lra|]. field. lra. Qed.
Lemma dcomp_2d t x : continuity_2d_pt dcomp t x.
Proof.
  unfold dcomp. apply continuity_2d_pt_mult.
  - apply continuity_2d_pt_opp, continuity_2d_pt_mult; [apply continuity_2d_pt_const|apply continuity_2d_pt_id1].
  - apply (continuity_1d_2d_pt_comp exp (fun t x => - (t * t * (1 + x * x)))).
    + apply derivable_continuous_pt, derivable_pt_exp.
    + apply continuity_2d_pt_opp, continuity_2d_pt_mult.
      * apply continuity_2d_pt_mult; apply continuity_2d_pt_id1.
      * apply continuity_2d_pt_plus; [apply continuity_2d_pt_const|].
        apply continuity_2d_pt_mult; apply continuity_2d_pt_id2.
Qed.
Lemma Gp_derive0 t : is_derive Gp t (RInt (dcomp t) 0 1).
Proof.
  assert (E : RInt (dcomp t) 0 1 = RInt (fun x => Derive (fun u => comp u x) t) 0 1).
  { apply RInt_ext. intros x _. symmetry. apply is_derive_unique, comp_derive. }
  rewrite E. apply (is_derive_RInt_param comp 0 1 t).
  - apply filter_forall. intros u x _. exists (dcomp u x). apply comp_derive.
  - intros x _. apply (continuity_2d_pt_ext dcomp); [|apply dcomp_2d].
    intros u v. symmetry. apply is_derive_unique, comp_derive.
  - apply filter_forall. intros y. eexists. apply comp_RInt.
Qed.
Lemma dcomp_RInt t : RInt (dcomp t) 0 1 = - 2 * bell t * Erf t.
Proof.
  apply is_RInt_unique.
  assert (H : is_RInt (fun x => scal t (bell (t * x + 0))) 0 1 (Erf t)).
  { apply (is_RInt_comp_lin (V := R_NormedModule)). replace (t * 0 + 0) with 0 by ring. replace (t * 1 + 0) with t by ring.
    apply Erf_RInt. }
  apply (is_RInt_scal (V := R_NormedModule) _ _ _ (- 2 * bell t)) in H.
  eapply is_RInt_ext; [|exact H]. intros x _. unfold scal; cbn. unfold mult; cbn. unfold dcomp, bell.
  replace (- (t * t * (1 + x * x))) with (- (t * t) + - ((t * x + 0) * (t * x + 0))) by ring.
  rewrite exp_plus. ring.
Qed.
Lemma sum_derive t : is_derive (fun t => Erf t * Erf t + Gp t) t 0.
Proof.
  replace 0 with ((bell t * Erf t + Erf t * bell t) + RInt (dcomp t) 0 1) by (rewrite dcomp_RInt; ring).
  apply (is_derive_plus (V := R_NormedModule)); [|apply Gp_derive0].
  apply (is_derive_mult Erf Erf); [apply Erf_derive|apply Erf_derive|]. intros; apply Rmult_comm.
Qed.
Lemma Gp_0 : Gp 0 = PI / 4.
Proof.
  unfold Gp. apply is_RInt_unique. replace (PI / 4) with (minus (atan 1) (atan 0)).
  2:{ rewrite atan_1, atan_0. unfold minus, plus, opp; cbn. ring. }
  apply (is_RInt_ext (fun x => / (1 + x * x))).
  - intros x _. unfold comp. replace (- (0 * 0 * (1 + x * x))) with 0 by ring. rewrite exp_0. toR. field. pose proof (sq1 x). lra.
  - apply (is_RInt_derive (V := R_CompleteNormedModule) atan).
    + intros x _. apply is_derive_Reals. pose proof (derivable_pt_lim_atan x) as H.
      replace (x ^ 2) with (x * x) in H by ring. exact H.
    + intros x _. apply (ex_derive_continuous (V := R_NormedModule)). auto_derive. pose proof (sq1 x). lra.
Qed.
Lemma sum_const t : Erf t * Erf t + Gp t = PI / 4.
Proof.
  destruct (Req_dec t 0) as [->|Ht]; [rewrite Erf_0, Gp_0; ring|].
  set (f := fun t => Erf t * Erf t + Gp t).
  replace (PI / 4) with (f 0) by (unfold f; rewrite Erf_0, Gp_0; ring).
  destruct (MVT_gen f 0 t (fun _ => 0)) as (c & _ & H).
  - intros x _. apply sum_derive.
  - intros x _. apply derivable_continuous_pt. exists 0. apply is_derive_Reals, sum_derive.
  - fold (f t). lra.
Qed.
Lemma Gp_bound t : 0 <= Gp t <= bell t.
Proof.
  split.
  - apply RInt_ge_0; [lra| |].
    + eexists; apply comp_RInt.
    + intros x _. unfold comp. left. apply Rdiv_lt_0_compat; [apply exp_pos|apply sq1].
  - replace (bell t) with (RInt (fun _ => bell t) 0 1).
    + apply RInt_le; [lra|eexists; apply comp_RInt|apply ex_RInt_const|].
      intros x _. unfold comp, bell. apply Rle_div_l; [apply sq1|].
      assert (exp (- (t * t * (1 + x * x))) <= exp (- (t * t))).
      { destruct (Req_dec (t * t * (x * x)) 0) as [E|E].
        - right. f_equal. nra.
        - left. apply exp_increasing. pose proof (Rle_0_sqr (t * x)) as S. unfold Rsqr in S. nra. }
      pose proof (exp_pos (- (t * t))). nra.
    + rewrite RInt_const. unfold scal; cbn. unfold mult; cbn. ring.
Qed.

(** Decay at infinity. *)
Lemma exp_sq y : 0 <= y -> y * y / 4 <= exp y.
Proof.
  intros H. replace y with (y / 2 + y / 2) at 3 by field. rewrite exp_plus.
  pose proof (exp_ineq1_le (y / 2)).
  replace (y * y / 4) with (y / 2 * (y / 2)) by field. apply Rmult_le_compat; lra.
Qed.
Lemma decay a t : 0 < a -> 1 <= t -> 0 < exp (- (a * (t * t))) <= 4 / (a * a) / (t * t * t * t).
Proof.
  intros Ha Ht. split; [apply exp_pos|].
  rewrite exp_Ropp. assert (0 < a * (t * t)) by (apply Rmult_lt_0_compat; [exact Ha|apply Rmult_lt_0_compat; lra]).
  pose proof (exp_sq (a * (t * t)) ltac:(lra)) as E.
  replace (4 / (a * a) / (t * t * t * t)) with (/ (a * (t * t) * (a * (t * t)) / 4)).
  - apply Rinv_le_contravar; [|exact E]. assert (0 < a * (t * t) * (a * (t * t))) by (apply Rmult_lt_0_compat; assumption). lra.
  - field. split; lra.
Qed.
Lemma lim_inv c : is_lim (fun t => c * / t) p_infty 0.
Proof.
  replace (Finite 0) with (Rbar_mult c 0) by (cbn; f_equal; ring).
  apply is_lim_scal_l. replace (Finite 0) with (Rbar_inv p_infty) by reflexivity.
  apply is_lim_inv; [apply is_lim_id|discriminate].
Qed.
Lemma squeeze0 f c : (forall t, 1 <= t -> 0 <= f t <= c * / t) -> is_lim f p_infty 0.
Proof.
  intros H. apply (is_lim_le_le_loc (fun _ => 0) (fun t => c * / t)).
  - exists 1. intros x Hx. apply H. lra.
  - apply is_lim_const.
  - apply lim_inv.
Qed.
Lemma lim_pow (k : R -> R) a : 0 < a -> (forall t, 1 <= t -> 0 <= k t <= t * t * t) ->
  is_lim (fun t => k t * exp (- (a * (t * t)))) p_infty 0.
Proof.
  intros Ha Hk. apply (squeeze0 _ (4 / (a * a))). intros t Ht.
  destruct (decay a t Ha Ht) as [D1 D2]. destruct (Hk t Ht) as [K1 K2]. split; [nra|].
  apply Rle_trans with (t * t * t * (4 / (a * a) / (t * t * t * t))).
  - apply Rmult_le_compat; lra.
  - right. field. split; nra.
Qed.
Lemma Gp_lim : is_lim Gp p_infty 0.
Proof.
  apply (is_lim_le_le_loc (fun _ => 0) bell).
  - exists 0. intros x _. apply Gp_bound.
  - apply is_lim_const.
  - apply (is_lim_ext (fun t => 1 * exp (- (1 * (t * t))))).
    + intros t. unfold bell. rewrite !Rmult_1_l. reflexivity.
    + apply (lim_pow (fun _ => 1)); [lra|]. intros t Ht. nra.
Qed.
(** The Gaussian integral. *)
Lemma Erf_lim : is_lim Erf p_infty (sqrt PI / 2).
Proof.
  apply (is_lim_ext_loc (fun t => sqrt (PI / 4 - Gp t))).
  - exists 0. intros t Ht. rewrite <- (sum_const t). replace (_ + _ - _) with (Erf t * Erf t) by ring.
    apply sqrt_square, Erf_pos. lra.
  - replace (sqrt PI / 2) with (sqrt (PI / 4)).
    2:{ rewrite sqrt_div_alt by lra. replace 4 with (2 * 2) by ring. rewrite sqrt_square by lra. reflexivity. }
    apply (is_lim_comp_continuous (fun t => PI / 4 - Gp t) sqrt p_infty (PI / 4)).
    + replace (Finite (PI / 4)) with (Finite (PI / 4 - 0)) by (f_equal; ring).
      apply (is_lim_minus' (fun _ => PI / 4) Gp); [apply is_lim_const|apply Gp_lim].
    + apply continuity_pt_filterlim, continuity_pt_sqrt. pose proof PI_RGT_0. lra.
Qed.

(** From primitives to improper integrals. *)
Lemma improper f F (l : R) : (forall t, is_RInt f 0 t (F t)) -> is_lim F p_infty l ->
  is_RInt_gen f (at_point 0) (Rbar_locally p_infty) l.
Proof.
  intros H L P HP. specialize (L P HP). destruct L as [M L].
  exists (fun x => x = 0) (fun y => M < y); [reflexivity|exists M; auto|].
  intros x y -> Hy. cbn. exists (F y). split; [apply H|apply L, Hy].
Qed.

Section Moments.
Variable a : R.
Hypothesis Ha : 0 < a.
Definition gauss (x : R) : R := exp (- (a * (x * x))).
Lemma gauss_cont_k (k : R -> R) x : continuous k x -> continuous (fun x => k x * gauss x) x.
Proof.
  intros H. apply (continuous_mult k gauss); [exact H|].
  apply (ex_derive_continuous (V := R_NormedModule)). unfold gauss. auto_derive. exact I.
Qed.
Definition M2 (t : R) : R := (Erf (sqrt a * t) / sqrt a - t * gauss t) / (2 * a).
Lemma M2_derive t : is_derive M2 t (t * t * gauss t).
Proof.
  assert (S : 0 < sqrt a) by (apply sqrt_lt_R0, Ha). assert (SS : sqrt a * sqrt a = a) by (apply sqrt_sqrt; lra).
  assert (E : is_derive (fun t => Erf (sqrt a * t)) t (sqrt a * bell (sqrt a * t))).
  { apply (is_derive_comp Erf (fun t => sqrt a * t)); [apply Erf_derive|]. auto_derive; [exact I|]. ring. }
  unfold M2. 
  apply (is_derive_ext (fun t => / (2 * a) * (/ sqrt a * Erf (sqrt a * t) - t * gauss t))).
  { intros x. unfold Rdiv. toR; ring. }
  replace (t * t * gauss t) with (/ (2 * a) * (/ sqrt a * (sqrt a * bell (sqrt a * t)) - (gauss t - 2 * a * t * t * gauss t))).
  - apply is_derive_scal. apply (is_derive_minus (V := R_NormedModule)).
    + apply is_derive_scal, E.
    + unfold gauss. auto_derive; [exact I|]. ring.
  - unfold bell. replace (- (sqrt a * t * (sqrt a * t))) with (- (sqrt a * sqrt a * (t * t))) by ring. rewrite SS.
    fold (gauss t). field. lra.
Qed.
Lemma M2_0 : M2 0 = 0.
Proof. unfold M2. rewrite !Rmult_0_r, Erf_0. unfold Rdiv. ring. Qed.
Lemma prim (k F : R -> R) : (forall x, continuous k x) -> (forall t, is_derive F t (k t * gauss t)) -> F 0 = 0 ->
  forall t, is_RInt (fun x => k x * gauss x) 0 t (F t).
Proof.
  intros Hk HF H0 t. replace (F t) with (minus (F t) (F 0)) by (rewrite H0; unfold minus, plus, opp; cbn; ring).
  apply (is_RInt_derive (V := R_CompleteNormedModule) F).
  - intros x _. apply HF.
  - intros x _. apply gauss_cont_k, Hk.
Qed.
Lemma Erf_lim_a : is_lim (fun t => Erf (sqrt a * t)) p_infty (sqrt PI / 2).
Proof.
  assert (S : 0 < sqrt a) by (apply sqrt_lt_R0, Ha).
  apply (is_lim_comp Erf (fun t => sqrt a * t) p_infty (sqrt PI / 2) p_infty).
  - apply Erf_lim.
  - replace p_infty with (Rbar_mult (sqrt a) p_infty) at 2.
    + apply is_lim_scal_l, is_lim_id.
    + cbn. destruct (Rle_dec 0 (sqrt a)) as [h|h]; [|lra]. destruct (Rle_lt_or_eq_dec 0 (sqrt a) h); [reflexivity|lra].
  - exists 0. intros; discriminate.
Qed.
Lemma M2_lim : is_lim M2 p_infty (sqrt PI / (4 * a * sqrt a)).
Proof.
  assert (S : 0 < sqrt a) by (apply sqrt_lt_R0, Ha).
  apply (is_lim_ext (fun t => / (2 * a) * (/ sqrt a * Erf (sqrt a * t) - t * gauss t))).
  { intros t. unfold M2, Rdiv. ring. }
  replace (Finite (sqrt PI / (4 * a * sqrt a))) with (Rbar_mult (/ (2 * a)) (Finite (/ sqrt a * (sqrt PI / 2) - 0))).
  2:{ cbn. f_equal. field. lra. }
  apply is_lim_scal_l. apply is_lim_minus'.
  - change (is_lim (fun t => / sqrt a * Erf (sqrt a * t)) p_infty (Rbar_mult (/ sqrt a) (sqrt PI / 2))).
    apply is_lim_scal_l, Erf_lim_a.
  - apply lim_pow; [exact Ha|]. intros t Ht. split; nra.
Qed.
Lemma moment2 : is_RInt_gen (fun x => x * x * gauss x) (at_point 0) (Rbar_locally p_infty) (sqrt PI / (4 * a * sqrt a)).
Proof.
  apply (improper _ M2); [|apply M2_lim]. apply (prim (fun x => x * x) M2); [|apply M2_derive|apply M2_0].
  intros x. apply (ex_derive_continuous (V := R_NormedModule)). auto_derive. exact I.
Qed.
Definition M3 (t : R) : R := (1 - (a * (t * t) + 1) * gauss t) / (2 * (a * a)).
Lemma M3_derive t : is_derive M3 t (t * t * t * gauss t).
Proof. unfold M3, gauss. auto_derive; [exact I|]. field. lra. Qed.
Lemma moment3 : is_RInt_gen (fun x => x * x * x * gauss x) (at_point 0) (Rbar_locally p_infty) (/ (2 * (a * a))).
Proof.
  apply (improper _ M3).
  - apply (prim (fun x => x * x * x) M3); [|apply M3_derive|].
    + intros x. apply (ex_derive_continuous (V := R_NormedModule)). auto_derive. exact I.
    + unfold M3, gauss. rewrite !Rmult_0_r, Ropp_0, exp_0. unfold Rdiv. ring.
  - apply (is_lim_ext (fun t => / (2 * (a * a)) * (1 - a * (t * t * gauss t) - 1 * gauss t))).
    { intros t. unfold M3, Rdiv. ring. }
    replace (Finite (/ (2 * (a * a)))) with (Rbar_mult (/ (2 * (a * a))) (Finite (1 - a * 0 - 0))).
    2:{ cbn. f_equal. ring. }
    apply is_lim_scal_l. apply is_lim_minus'; [apply is_lim_minus'|].
    + apply is_lim_const.
    + change (is_lim (fun t => a * (t * t * gauss t)) p_infty (Rbar_mult a 0)).
      apply is_lim_scal_l. apply (lim_pow (fun t => t * t)); [exact Ha|]. intros t Ht. nra.
    + apply (lim_pow (fun _ => 1)); [exact Ha|]. intros t Ht. nra.
Qed.
Definition M4 (t : R) : R := 3 / (2 * a) * M2 t - / (2 * a) * (t * t * t * gauss t).
Lemma M4_derive t : is_derive M4 t (t * t * t * t * gauss t).
Proof.
  unfold M4. replace (t * t * t * t * gauss t) with
    (3 / (2 * a) * (t * t * gauss t) - / (2 * a) * (3 * t * t * gauss t - 2 * a * t * t * t * t * gauss t)) by (field; lra).
  apply (is_derive_minus (V := R_NormedModule)).
  - apply is_derive_scal, M2_derive.
  - apply is_derive_scal. unfold gauss. auto_derive; [exact I|]. ring.
Qed.
Lemma moment4 : is_RInt_gen (fun x => x * x * x * x * gauss x) (at_point 0) (Rbar_locally p_infty)
  (3 / (2 * a) * (sqrt PI / (4 * a * sqrt a))).
Proof.
  apply (improper _ M4).
  - apply (prim (fun x => x * x * x * x) M4); [|apply M4_derive|].
    + intros x. apply (ex_derive_continuous (V := R_NormedModule)). auto_derive. exact I.
    + unfold M4. rewrite M2_0. ring.
  - unfold M4. rewrite <- (Rminus_0_r (3 / (2 * a) * (sqrt PI / (4 * a * sqrt a)))).
    apply is_lim_minus'.
    + change (is_lim (fun t => 3 / (2 * a) * M2 t) p_infty (Rbar_mult (3 / (2 * a)) (sqrt PI / (4 * a * sqrt a)))).
      apply is_lim_scal_l, M2_lim.
    + replace 0 with (/ (2 * a) * 0) by ring.
      change (is_lim (fun t => / (2 * a) * (t * t * t * gauss t)) p_infty (Rbar_mult (/ (2 * a)) 0)).
      apply is_lim_scal_l. apply (lim_pow (fun t => t * t * t)); [exact Ha|]. intros t Ht. split; [|lra]. nra.
Qed.
End Moments.
