(** Rounding errors of binary64 operations. *)
From Coq Require Import Reals Lra Lia ZArith Bool List.
From Flocq Require Import Core.Core IEEE754.BinarySingleNaN Relative Plus_error Div_sqrt_error.
From Verif Require Import Base Num ModelTerm ModelCollide SpecSet ProofF64 ProofFloat.
From Coq Require Import List.
Import ListNotations.
Local Open Scope R_scope.

Definition ueps : R := bpow radix2 (-53).
Definition ueta : R := bpow radix2 (-1075).
Lemma ueps_val : ueps = / 9007199254740992. Proof. unfold ueps. cbn. lra. Qed.
Lemma ueps_pos : 0 < ueps < / 1000000000000000.
Proof. rewrite ueps_val. split; [lra|]. apply Rinv_lt_contravar; lra. Qed.
Lemma ueta_pos : 0 < ueta. Proof. apply bpow_gt_0. Qed.

Lemma rnd_err x : Rabs (frnd x - x) <= ueps * Rabs x + ueta.
Proof.
  destruct (error_N_FLT radix2 femin fprec eq_refl (fun z => negb (Z.even z)) x) as (d & h & Hd & Hh & _ & E). change (Znearest (fun z => negb (Z.even z))) with ZnearestE in E. rewrite E.
  replace (x * (1 + d) + h - x) with (x * d + h) by ring. eapply Rle_trans; [apply Rabs_triang|]. rewrite Rabs_mult.
  assert (Ed : / 2 * bpow radix2 (- fprec + 1) = ueps) by (unfold ueps; change (- fprec + 1)%Z with (1 + -53)%Z; rewrite bpow_plus; change (bpow radix2 1) with 2; lra).
  assert (Eh : / 2 * bpow radix2 femin = ueta) by (unfold ueta; change femin with (1 + -1075)%Z; rewrite bpow_plus; change (bpow radix2 1) with 2; lra).
  rewrite Ed in Hd. rewrite Eh in Hh. pose proof (Rabs_pos x). nra.
Qed.
Lemma rnd_rel x : bpow radix2 (-1022) <= Rabs x -> Rabs (frnd x - x) <= ueps * Rabs x.
Proof.
  intros H. destruct (relative_error_N_FLT_ex radix2 femin fprec fprec_gt_0 (fun z => negb (Z.even z)) x H) as (d & Hd & E). change (Znearest (fun z => negb (Z.even z))) with ZnearestE in E. rewrite E.
  replace (x * (1 + d) - x) with (x * d) by ring. rewrite Rabs_mult.
  assert (Ed : / 2 * bpow radix2 (- fprec + 1) = ueps) by (unfold ueps; change (- fprec + 1)%Z with (1 + -53)%Z; rewrite bpow_plus; change (bpow radix2 1) with 2; lra).
  rewrite Ed in Hd. pose proof (Rabs_pos x). nra.
Qed.
Lemma rnd_fits x : Rabs x <= bpow radix2 1000 -> Rabs (frnd x) < bpow radix2 femax.
Proof.
  intros H. apply Rle_lt_trans with (bpow radix2 1000); [|apply bpow_lt; reflexivity].
  apply abs_round_le_generic; [typeclasses eauto|typeclasses eauto| |assumption]. apply generic_format_bpow. cbn. unfold FLT_exp, fprec, femax. lia.
Qed.
(** Rounding does not leave an interval with representable ends. *)
Lemma rnd_within x (y : binary64) : Rabs x <= fB2R y -> Rabs (frnd x) <= fB2R y.
Proof. intros H. apply abs_round_le_generic; [typeclasses eauto|typeclasses eauto|apply fF_B2R|assumption]. Qed.

Section Ops.
Variables x y : binary64.
Hypothesis (Fx : is_finite x = true) (Fy : is_finite y = true).
Lemma fadd_ok : Rabs (frnd (fB2R x + fB2R y)) < bpow radix2 femax ->
  fB2R (fadd x y) = frnd (fB2R x + fB2R y) /\ is_finite (fadd x y) = true.
Proof.
  intros Hb. pose proof (Bplus_correct fprec femax _ fprec_lt_emax mode_NE x y Fx Fy) as H.
  change (round_mode mode_NE) with ZnearestE in H. change (SpecFloat.fexp fprec femax) with ffexp in H.
  rewrite Rlt_bool_true in H by exact Hb. destruct H as (H & Hf & _). split; assumption.
Qed.
Lemma plus_err (a b : R) : fF a -> fF b -> Rabs (frnd (a + b) - (a + b)) <= ueps * Rabs (a + b).
Proof.
  intros Ha Hb. destruct (FLT_plus_error_N_ex radix2 femin fprec (fun z => negb (Z.even z)) a b Ha Hb) as (d & Hd & E). change (Znearest (fun z => negb (Z.even z))) with ZnearestE in E. rewrite E.
  replace ((a + b) * (1 + d) - (a + b)) with ((a + b) * d) by ring. rewrite Rabs_mult.
  pose proof (u_rod1pu_ro_le_u_ro radix2 fprec). assert (Eu : u_ro radix2 fprec = ueps).
  { unfold u_ro, ueps. change (- fprec + 1)%Z with (1 + -53)%Z. rewrite bpow_plus. change (bpow radix2 1) with 2. lra. }
  rewrite Eu in *. pose proof (Rabs_pos (a + b)). nra.
Qed.
Lemma fadd_err : Rabs (fB2R x + fB2R y) <= bpow radix2 1000 ->
  is_finite (fadd x y) = true /\ Rabs (fB2R (fadd x y) - (fB2R x + fB2R y)) <= ueps * Rabs (fB2R x + fB2R y).
Proof.
  intros H. destruct (fadd_ok (rnd_fits _ H)) as [E F]. split; [exact F|]. rewrite E. apply plus_err; apply fF_B2R.
Qed.
Lemma fsub_err : Rabs (fB2R x - fB2R y) <= bpow radix2 1000 ->
  is_finite (fsub x y) = true /\ Rabs (fB2R (fsub x y) - (fB2R x - fB2R y)) <= ueps * Rabs (fB2R x - fB2R y).
Proof.
  intros H. destruct (fsub_ok x y Fx Fy (rnd_fits _ H)) as [E F]. split; [exact F|]. rewrite E.
  apply (plus_err (fB2R x) (- fB2R y)); [apply fF_B2R|apply generic_format_opp, fF_B2R].
Qed.
Lemma fmul_err : Rabs (fB2R x * fB2R y) <= bpow radix2 1000 ->
  is_finite (fmul x y) = true /\ Rabs (fB2R (fmul x y) - fB2R x * fB2R y) <= ueps * Rabs (fB2R x * fB2R y) + ueta.
Proof. intros H. destruct (fmul_ok x y Fx Fy (rnd_fits _ H)) as [E F]. split; [exact F|]. rewrite E. apply rnd_err. Qed.
Lemma fdiv_err : fB2R y <> 0 -> bpow radix2 (-1022) <= Rabs (fB2R x / fB2R y) <= bpow radix2 1000 ->
  is_finite (fdiv x y) = true /\ Rabs (fB2R (fdiv x y) - fB2R x / fB2R y) <= ueps * Rabs (fB2R x / fB2R y).
Proof. intros Hy [H1 H]. destruct (fdiv_ok x y Fx Hy (rnd_fits _ H)) as [E F]. split; [exact F|]. rewrite E. apply rnd_rel, H1. Qed.
(** A product with a factor of at most 1 is no larger than the other factor. *)
Lemma fmul_within : Rabs (fB2R x) <= 1 -> is_finite (fmul x y) = true /\ Rabs (fB2R (fmul x y)) <= Rabs (fB2R y).
Proof.
  intros H. assert (G : Rabs (frnd (fB2R x * fB2R y)) <= Rabs (fB2R y)).
  { apply abs_round_le_generic; [typeclasses eauto|typeclasses eauto|apply generic_format_abs, fF_B2R|]. rewrite Rabs_mult. pose proof (Rabs_pos (fB2R y)). nra. }
  destruct (fmul_ok x y Fx Fy) as [E F]; [eapply Rle_lt_trans; [exact G|apply abs_B2R_lt_emax]|]. split; [exact F|]. rewrite E. exact G.
Qed.
End Ops.
Lemma fsqrt_err (x : binary64) : is_finite x = true -> 0 <= fB2R x -> is_finite (fsqrt x) = true /\ 0 <= fB2R (fsqrt x) /\
  Rabs (fB2R (fsqrt x) - R_sqrt.sqrt (fB2R x)) <= ueps * R_sqrt.sqrt (fB2R x).
Proof.
  intros Fx H. destruct (Bsqrt_correct fprec femax _ fprec_lt_emax mode_NE x) as (E & F & _). fold fsqrt in E, F. change (Bsqrt mode_NE x) with (fsqrt x) in E, F.
  change (round_mode mode_NE) with ZnearestE in E. change (SpecFloat.fexp fprec femax) with ffexp in E. split; [|split].
  - rewrite F. destruct x as [| | |[] m e Hx]; try discriminate; try reflexivity. exfalso. cbn [B2R] in H. revert H. apply Rlt_not_le, F2R_lt_0. reflexivity.
  - rewrite E. replace 0 with (frnd 0) by apply round_0, valid_rnd_N. apply round_le; [typeclasses eauto|typeclasses eauto|apply sqrt_pos].
  - rewrite E. destruct (sqrt_error_N_FLT_ex radix2 fprec (fun z => negb (Z.even z)) ltac:(reflexivity) femin ltac:(unfold femax, fprec; lia) (fB2R x) (fF_B2R x)) as (d & Hd & Es).
    change (Znearest (fun z => negb (Z.even z))) with ZnearestE in Es. rewrite Es. replace (R_sqrt.sqrt (fB2R x) * (1 + d) - R_sqrt.sqrt (fB2R x)) with (R_sqrt.sqrt (fB2R x) * d) by ring.
    rewrite Rabs_mult, (Rabs_pos_eq (R_sqrt.sqrt _)) by apply sqrt_pos.
    pose proof (om1ds1p2u_ro_le_u_rod1pu_ro radix2 fprec) as U1. pose proof (u_rod1pu_ro_le_u_ro radix2 fprec) as U2. assert (Eu : u_ro radix2 fprec = ueps).
    { unfold u_ro, ueps. change (- fprec + 1)%Z with (1 + -53)%Z. rewrite bpow_plus. change (bpow radix2 1) with 2. lra. }
    rewrite Eu in *. pose proof (sqrt_pos (fB2R x)). nra.
Qed.

(** ** Approximations: a finite number within [d] of a real. *)
Definition appr (x : binary64) (a d : R) : Prop := is_finite x = true /\ Rabs (fB2R x - a) <= d.
Notation big := (bpow radix2 1000).
Lemma appr_self x : is_finite x = true -> appr x (fB2R x) 0.
Proof. intros F. split; [exact F|]. rewrite Rminus_diag_eq by reflexivity. rewrite Rabs_R0. lra. Qed.
Lemma appr_weak x a d d' : appr x a d -> d <= d' -> appr x a d'.
Proof. intros [F H] L. split; [exact F|lra]. Qed.
Lemma appr_abs x a d W : appr x a d -> Rabs a <= W -> Rabs (fB2R x) <= W + d.
Proof. intros [_ H] HW. apply Rabs_le. apply Rabs_le_inv in H, HW. lra. Qed.
Lemma appr_pos x a d : appr x a d -> 0 <= d.
Proof. intros [_ H]. pose proof (Rabs_pos (fB2R x - a)). lra. Qed.
Lemma rnd_chain r s d W : Rabs (s - r) <= d -> Rabs r <= W -> Rabs s <= W + d.
Proof. intros H1 H2. apply Rabs_le. apply Rabs_le_inv in H1, H2. lra. Qed.
Lemma rnd_join (f s r d h : R) : Rabs (f - s) <= h -> Rabs (s - r) <= d -> Rabs (f - r) <= d + h.
Proof. intros H1 H2. apply Rabs_le. apply Rabs_le_inv in H1, H2. lra. Qed.

Lemma appr_add x a dx y b dy W d : appr x a dx -> appr y b dy -> Rabs (a + b) <= W -> W + (dx + dy) <= big ->
  dx + dy + ueps * (W + (dx + dy)) <= d -> appr (fadd x y) (a + b) d.
Proof.
  intros [Fx Hx] [Fy Hy] HW Hb Hd. assert (Hs : Rabs (fB2R x + fB2R y - (a + b)) <= dx + dy).
  { apply Rabs_le. apply Rabs_le_inv in Hx, Hy. lra. }
  pose proof (rnd_chain _ _ _ _ Hs HW) as Hc. destruct (fadd_err x y Fx Fy ltac:(lra)) as [F E]. split; [exact F|].
  pose proof (rnd_join _ _ _ _ _ E Hs). pose proof ueps_pos. nra.
Qed.
Lemma appr_sub x a dx y b dy W d : appr x a dx -> appr y b dy -> Rabs (a - b) <= W -> W + (dx + dy) <= big ->
  dx + dy + ueps * (W + (dx + dy)) <= d -> appr (fsub x y) (a - b) d.
Proof.
  intros [Fx Hx] [Fy Hy] HW Hb Hd. assert (Hs : Rabs (fB2R x - fB2R y - (a - b)) <= dx + dy).
  { apply Rabs_le. apply Rabs_le_inv in Hx, Hy. lra. }
  pose proof (rnd_chain _ _ _ _ Hs HW) as Hc. destruct (fsub_err x y Fx Fy ltac:(lra)) as [F E]. split; [exact F|].
  pose proof (rnd_join _ _ _ _ _ E Hs). pose proof ueps_pos. nra.
Qed.
Lemma appr_mul x a dx y b dy A B d : appr x a dx -> appr y b dy -> Rabs a <= A -> Rabs b <= B ->
  A * B + (A * dy + B * dx + dx * dy) <= big ->
  A * dy + B * dx + dx * dy + ueps * (A * B + (A * dy + B * dx + dx * dy)) + ueta <= d -> appr (fmul x y) (a * b) d.
Proof.
  intros Hx0 Hy0 HA HB Hb Hd. pose proof (appr_pos _ _ _ Hx0) as Px. pose proof (appr_pos _ _ _ Hy0) as Py. destruct Hx0 as [Fx Hx], Hy0 as [Fy Hy].
  assert (Hs : Rabs (fB2R x * fB2R y - a * b) <= A * dy + B * dx + dx * dy).
  { replace (fB2R x * fB2R y - a * b) with (a * (fB2R y - b) + b * (fB2R x - a) + (fB2R x - a) * (fB2R y - b)) by ring.
    eapply Rle_trans; [apply Rabs_triang|]. apply Rplus_le_compat.
    - eapply Rle_trans; [apply Rabs_triang|]. rewrite !Rabs_mult. apply Rplus_le_compat; apply Rmult_le_compat; try apply Rabs_pos; assumption.
    - rewrite Rabs_mult. apply Rmult_le_compat; try apply Rabs_pos; assumption. }
  assert (HW : Rabs (a * b) <= A * B) by (rewrite Rabs_mult; apply Rmult_le_compat; try apply Rabs_pos; assumption).
  pose proof (rnd_chain _ _ _ _ Hs HW) as Hc. destruct (fmul_err x y Fx Fy ltac:(lra)) as [F E]. split; [exact F|].
  pose proof (rnd_join _ _ _ _ _ E Hs). pose proof ueps_pos. nra.
Qed.

(** ** The mass factors of ReducedMass *)
Notation massR x := (bpow radix2 (-300) <= x <= bpow radix2 300).
Definition share (m m' : R) : R := m / (m + m').
Lemma share_pos m m' : 0 < m -> 0 < m' -> 0 <= share m m' <= 1.
Proof.
  intros. unfold share. split; [left; apply Rdiv_lt_0_compat; lra|]. apply Rmult_le_reg_r with (m + m'); [lra|]. unfold Rdiv. rewrite Rmult_assoc, Rinv_l by lra. lra.
Qed.
Lemma share_sum m m' : 0 < m -> 0 < m' -> share m m' + share m' m = 1.
Proof. intros. unfold share. field. lra. Qed.
Lemma share_div m m' : 0 < m -> 0 < m' -> share m m' = 1 / (1 + m' / m).
Proof. intros. unfold share. field. lra. Qed.
Lemma massR_pos x : massR x -> 0 < x.
Proof. intros [H _]. pose proof (bpow_gt_0 radix2 (-300)). lra. Qed.
Lemma ratio_range x y : massR x -> massR y -> bpow radix2 (-600) <= x / y <= bpow radix2 600.
Proof.
  intros Hx Hy. pose proof (massR_pos _ Hx). pose proof (massR_pos _ Hy).
  change (-600)%Z with (-300 + - 300)%Z. change 600%Z with (300 + 300)%Z. rewrite !bpow_plus. pose proof (bpow_gt_0 radix2 300). pose proof (bpow_gt_0 radix2 (-300)).
  assert (Hi : bpow radix2 (-300) <= / y <= bpow radix2 300).
  { replace (bpow radix2 300) with (/ bpow radix2 (-300)) by (rewrite <- bpow_opp; reflexivity). rewrite (bpow_opp radix2 300) at 1. split; apply Rinv_le_contravar; try lra. }
  unfold Rdiv. split; apply Rmult_le_compat; lra.
Qed.

Lemma over_near (m m' : binary64) : is_finite m = true -> is_finite m' = true -> massR (fB2R m) -> massR (fB2R m') ->
  appr (fdiv (fofZ 1) (fadd (fofZ 1) (fdiv m m'))) (share (fB2R m') (fB2R m)) (4 * ueps).
Proof.
  intros F F' Hm Hm'. pose proof (massR_pos _ Hm) as P. pose proof (massR_pos _ Hm') as P'. pose proof (ratio_range _ _ Hm Hm') as HR.
  rewrite share_div by assumption. set (x := fB2R m / fB2R m') in *.
  assert (Px : 0 < x) by (pose proof (bpow_gt_0 radix2 (-600)); lra). pose proof ueps_pos as [E0 E1].
  assert (B1 : bpow radix2 (-1022) <= bpow radix2 (-600)) by (apply bpow_le; lia).
  assert (B2 : 4 * bpow radix2 600 <= big). { change 4 with (bpow radix2 2). rewrite <- bpow_plus. apply bpow_le. lia. }
  assert (B3 : 1 <= bpow radix2 600) by (change 1 with (bpow radix2 0); apply bpow_le; lia).
  destruct (fdiv_err m m' F ltac:(lra)) as [Fq Eq]; [fold x; rewrite Rabs_pos_eq; lra|]. fold x in Eq. rewrite (Rabs_pos_eq x) in Eq by lra.
  set (q := fdiv m m') in *. apply Rabs_le_inv in Eq.
  assert (Qx : ueps * x <= x / 1000) by nra.
  destruct (fofZ_exact 1 ltac:(cbn; lia)) as [V1 F1].
  destruct (fadd_err (fofZ 1) q F1 Fq) as [Fs Es]; [rewrite V1, Rabs_pos_eq; lra|]. rewrite V1 in Es. rewrite (Rabs_pos_eq (1 + fB2R q)) in Es by lra.
  set (s := fadd (fofZ 1) q) in *. apply Rabs_le_inv in Es.
  assert (Hq : ueps * fB2R q <= ueps * x + ueps * x / 1000) by nra.
  assert (Hs : Rabs (fB2R s - (1 + x)) <= 21 / 10 * ueps * (1 + x)). { apply Rabs_le. split; nra. }
  assert (Qs : 21 / 10 * ueps * (1 + x) <= (1 + x) / 1000) by nra.
  apply Rabs_le_inv in Hs. assert (Ps : 0 < fB2R s) by lra.
  assert (Hd : Rabs (1 / fB2R s - 1 / (1 + x)) <= 22 / 10 * ueps).
  { replace (1 / fB2R s - 1 / (1 + x)) with (((1 + x) - fB2R s) / (fB2R s * (1 + x))) by (field; lra). unfold Rdiv. rewrite Rabs_mult, (Rabs_pos_eq (/ _)) by (left; apply Rinv_0_lt_compat; nra).
    apply Rmult_le_reg_r with (fB2R s * (1 + x)); [nra|]. rewrite Rmult_assoc, Rinv_l, Rmult_1_r by nra.
    assert (Rabs (1 + x - fB2R s) <= 21 / 10 * ueps * (1 + x)) by (apply Rabs_le; lra).
    assert ((999 / 1000) * (1 + x) <= fB2R s) by lra.
    assert (ueps * (1 + x) * 1 <= ueps * (1 + x) * (1 + x)) by (apply Rmult_le_compat_l; nra).
    assert (ueps * (1 + x) * (999 / 1000 * (1 + x)) <= ueps * (1 + x) * fB2R s) by (apply Rmult_le_compat_l; nra). lra. }
  assert (Is : bpow radix2 (-1022) <= 1 / fB2R s <= 2).
  { assert (Hsm : fB2R s <= 4 * bpow radix2 600) by lra. assert (4 * bpow radix2 600 = bpow radix2 602) by (change 602%Z with (2 + 600)%Z; rewrite bpow_plus; reflexivity).
    unfold Rdiv. rewrite Rmult_1_l. split.
    - apply Rle_trans with (bpow radix2 (-602)); [apply bpow_le; lia|]. change (-602)%Z with (- (602))%Z. rewrite bpow_opp. apply Rinv_le_contravar; lra.
    - replace 2 with (/ (/ 2)) by field. apply Rinv_le_contravar; lra. }
  destruct (fdiv_err (fofZ 1) s F1 ltac:(lra)) as [Fo Eo].
  { rewrite V1, Rabs_pos_eq by (pose proof (bpow_gt_0 radix2 (-1022)); lra). split; [apply Is|]. apply Rle_trans with 2; [apply Is|]. apply Rle_trans with (4 * bpow radix2 600); lra. }
  rewrite V1 in Eo. rewrite (Rabs_pos_eq (1 / fB2R s)) in Eo by (pose proof (bpow_gt_0 radix2 (-1022)); lra).
  split; [exact Fo|]. pose proof (rnd_join _ _ _ _ _ Eo Hd).
  assert (1 / (1 + x) <= 1). { unfold Rdiv. rewrite Rmult_1_l, <- Rinv_1. apply Rinv_le_contravar; lra. }
  apply Rabs_le_inv in Hd. assert (1 / fB2R s <= 101 / 100) by lra. nra.
Qed.
