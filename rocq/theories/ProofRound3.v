(** Rounding errors of the isotropic direction and of whole collisions in binary64. *)
From Coq Require Import Reals Lra Lia ZArith Bool List.
From Flocq Require Import Core.Core IEEE754.BinarySingleNaN Relative.
From Verif Require Import Base Num ModelTerm ModelCollide SpecSet ProofF64 ProofFloat ProofRound ProofRound2.
From Coq Require Import List.
Import ListNotations.
Local Open Scope R_scope.

(** Rounding a number within [lo,hi], both representable, stays there. *)
Lemma rnd_between (lo hi : binary64) x : fB2R lo <= x <= fB2R hi -> fB2R lo <= frnd x <= fB2R hi.
Proof.
  intros [H1 H2]. split; [apply round_ge_generic|apply round_le_generic]; try typeclasses eauto; try apply fF_B2R; assumption.
Qed.
Lemma fin_between (lo hi : binary64) x : fB2R lo <= x <= fB2R hi -> Rabs (frnd x) < bpow radix2 femax.
Proof.
  intros H. apply rnd_between in H. pose proof (abs_B2R_lt_emax fprec femax lo) as A. pose proof (abs_B2R_lt_emax fprec femax hi) as B.
  apply Rabs_lt_inv in A, B. apply Rabs_lt. lra.
Qed.
Lemma fofZm1 : fB2R (fofZ (-1)) = -1. Proof. apply fofZ_exact. cbn. lia. Qed.
Lemma fofZ2 : fB2R (fofZ 2) = 2. Proof. apply fofZ_exact. cbn. lia. Qed.
Lemma fin1 : is_finite (fofZ 1) = true. Proof. apply fofZ_exact. cbn. lia. Qed.
Lemma fin2 : is_finite (fofZ 2) = true. Proof. apply fofZ_exact. cbn. lia. Qed.

Lemma unit_closed (r : binary64) : fnonneg r -> Bleb r (fofZ 1) = true -> is_finite r = true /\ 0 <= fB2R r <= 1.
Proof.
  intros H0 H1. assert (Hf : is_finite r = true) by (destruct r as [s|[]| |s m x Hx]; try reflexivity; discriminate).
  split; [exact Hf|]. unfold fnonneg in H0. rewrite fleb_le in H0 by (try assumption; apply fofZ_exact; cbn; lia). rewrite fleb_le in H1 by (try assumption; apply fin1).
  rewrite fofZ0 in H0. rewrite fofZ1 in H1. apply Rle_bool_true_iff in H0 || (destruct (Rle_bool_spec 0 (fB2R r)); [|discriminate]). destruct (Rle_bool_spec (fB2R r) 1); [lra|discriminate].
Qed.

Lemma cos_B (r : binary64) : is_finite r = true -> 0 <= fB2R r <= 1 ->
  let B := fsub (fmul (fofZ 2) r) (fofZ 1) in is_finite B = true /\ -1 <= fB2R B <= 1.
Proof.
  intros F H B. assert (H2 : fB2R (fofZ 0) <= fB2R (fofZ 2) * fB2R r <= fB2R (fofZ 2)) by (rewrite fofZ0, fofZ2; lra).
  destruct (fmul_ok (fofZ 2) r fin2 F (fin_between _ _ _ H2)) as [E2 F2]. apply rnd_between in H2. rewrite <- E2, fofZ0, fofZ2 in H2.
  assert (H3 : fB2R (fofZ (-1)) <= fB2R (fmul (fofZ 2) r) - fB2R (fofZ 1) <= fB2R (fofZ 1)) by (rewrite fofZ1, fofZm1; lra).
  destruct (fsub_ok _ (fofZ 1) F2 fin1 (fin_between _ _ _ H3)) as [E3 F3]. apply rnd_between in H3. rewrite <- E3, fofZ1, fofZm1 in H3. split; assumption.
Qed.
Lemma sin_A (B : binary64) : is_finite B = true -> -1 <= fB2R B <= 1 ->
  let A := fsqrt (fsub (fofZ 1) (fmul B B)) in is_finite A = true /\ 0 <= fB2R A <= 1 /\ Rabs (fB2R A * fB2R A + fB2R B * fB2R B - 1) <= 43 / 10 * ueps.
Proof.
  intros F H A. pose proof ueps_pos as HE. pose proof eta0 as HT. pose proof ueta_pos as PT. set (b := fB2R B) in *.
  assert (H1 : fB2R (fofZ 0) <= b * b <= fB2R (fofZ 1)) by (rewrite fofZ0, fofZ1; nra).
  destruct (fmul_ok B B F F (fin_between _ _ _ H1)) as [E1 F1]. pose proof (rnd_between _ _ _ H1) as I1. fold b in E1. rewrite <- E1, fofZ0, fofZ1 in I1.
  pose proof (rnd_err (b * b)) as R1. rewrite <- E1 in R1. rewrite fofZ0, fofZ1 in H1. rewrite (Rabs_pos_eq (b * b)) in R1 by lra. apply Rabs_le_inv in R1. set (y := fmul B B) in *.
  assert (H2 : fB2R (fofZ 0) <= fB2R (fofZ 1) - fB2R y <= fB2R (fofZ 1)) by (rewrite fofZ0, fofZ1; lra).
  destruct (fsub_ok (fofZ 1) y fin1 F1 (fin_between _ _ _ H2)) as [E2 F2]. pose proof (rnd_between _ _ _ H2) as I2. rewrite <- E2, fofZ0, fofZ1 in I2.
  destruct (fsub_err (fofZ 1) y fin1 F1) as [_ R2].
  { rewrite fofZ1. apply Rabs_le. pose proof big0. lra. }
  rewrite fofZ1 in R2. rewrite (Rabs_pos_eq (1 - fB2R y)) in R2 by lra. apply Rabs_le_inv in R2. set (z := fsub (fofZ 1) y) in *.
  destruct (fsqrt_err z F2 ltac:(lra)) as (F3 & P3 & R3). fold A in F3, P3, R3. split; [exact F3|].
  set (t := R_sqrt.sqrt (fB2R z)) in *. assert (T0 : 0 <= t) by apply sqrt_pos. assert (T2 : t * t = fB2R z) by (apply sqrt_sqrt; lra). assert (T1 : t <= 1) by nra.
  assert (A1 : fB2R A <= 1).
  { destruct (Bsqrt_correct fprec femax _ fprec_lt_emax mode_NE z) as (E & _). change (Bsqrt mode_NE z) with A in E. change (round_mode mode_NE) with ZnearestE in E. change (SpecFloat.fexp fprec femax) with ffexp in E. change (B2R A) with (fB2R A) in E. rewrite E.
    rewrite <- fofZ1. apply round_le_generic; [typeclasses eauto|typeclasses eauto|apply fF_B2R|]. rewrite fofZ1. exact T1. }
  split; [lra|]. apply Rabs_le_inv in R3.
  assert (Rabs (fB2R A * fB2R A - t * t) <= 201 / 100 * ueps).
  { replace (fB2R A * fB2R A - t * t) with ((fB2R A - t) * (fB2R A + t)) by ring. rewrite Rabs_mult, (Rabs_pos_eq (_ + _)) by lra.
    assert (Rabs (fB2R A - t) <= ueps) by (apply Rabs_le; nra). pose proof (Rabs_pos (fB2R A - t)). nra. }
  apply Rabs_le_inv in H0. rewrite T2 in H0. assert (ueps * (b * b) <= ueps) by nra. assert (ueps * (1 - fB2R y) <= ueps) by nra. apply Rabs_le. lra.
Qed.

Section Direction.
Variables (V : R) (A B c s S : binary64) (kap : R).
Hypothesis HV : bpow radix2 (-400) <= V <= bpow radix2 400.
Hypothesis (FA : is_finite A = true) (FB : is_finite B = true) (Fc : is_finite c = true) (Fs : is_finite s = true) (FS : is_finite S = true).
Hypothesis (HA : 0 <= fB2R A <= 1) (HB : -1 <= fB2R B <= 1) (AB : Rabs (fB2R A * fB2R A + fB2R B * fB2R B - 1) <= 43 / 10 * ueps).
Hypothesis (Hc : Rabs (fB2R c) <= 1) (Hs : Rabs (fB2R s) <= 1) (HS : 0 <= fB2R S <= 4 * V).
Hypothesis Hk : Rabs (fB2R s * fB2R s + fB2R c * fB2R c - 1) <= kap.

Lemma dir1 (x : binary64) : is_finite x = true -> Rabs (fB2R x) <= 1 -> is_finite (fmul x S) = true /\ Rabs (fB2R (fmul x S)) <= 4 * V /\
  Rabs (fB2R (fmul x S) - fB2R x * fB2R S) <= 41 / 10 * (ueps * V).
Proof using HV FS HS.
  intros F H. pose proof (V_pos V HV). pose proof (big1 V HV). pose proof (eta1 V HV). destruct (ee V ltac:(lra)) as (E1 & E2 & E3). pose proof ueps_pos.
  destruct (fmul_within x S F FS H) as [F1 L1]. rewrite (Rabs_pos_eq (fB2R S)) in L1 by lra. split; [exact F1|]. split; [lra|].
  apply (appr_mul x (fB2R x) 0 S (fB2R S) 0 1 (4 * V) _ (appr_self _ F) (appr_self _ FS) H); [rewrite Rabs_pos_eq; lra|lra|lra].
Qed.
Lemma sq_diff x y e W : Rabs (x - y) <= e -> Rabs x <= W -> Rabs y <= W -> Rabs (x * x - y * y) <= e * (2 * W).
Proof.
  intros H1 H2 H3. replace (x * x - y * y) with ((x - y) * (x + y)) by ring. rewrite Rabs_mult. apply Rmult_le_compat; try apply Rabs_pos; [exact H1|].
  eapply Rle_trans; [apply Rabs_triang|]. lra.
Qed.
Lemma dir2 (x : binary64) : is_finite x = true -> Rabs (fB2R x) <= 1 ->
  let w := fmul (fmul A x) S in is_finite w = true /\ Rabs (fB2R w) <= 4 * V /\
  Rabs (fB2R w * fB2R w - fB2R A * fB2R x * fB2R S * (fB2R A * fB2R x * fB2R S)) <= 66 * (ueps * (V * V)).
Proof using HV FS HS FA HA.
  intros F H w. pose proof (V_pos V HV). pose proof ueps_pos. destruct (fmul_within A x FA F) as [F1 L1]; [rewrite Rabs_pos_eq; lra|].
  destruct (dir1 (fmul A x) F1 ltac:(lra)) as (F2 & L2 & R2). split; [exact F2|]. split; [exact L2|].
  destruct (ee V ltac:(lra)) as (E1 & E2 & E3).
  assert (R1 : Rabs (fB2R (fmul A x) - fB2R A * fB2R x) <= 1001 / 1000 * ueps).
  { apply (appr_mul A (fB2R A) 0 x (fB2R x) 0 1 1 _ (appr_self _ FA) (appr_self _ F)); [rewrite Rabs_pos_eq; lra|exact H|pose proof big0; lra|pose proof eta0; lra]. }
  assert (R3 : Rabs (fB2R w - fB2R A * fB2R x * fB2R S) <= 82 / 10 * (ueps * V)).
  { unfold w. replace (fB2R (fmul (fmul A x) S) - fB2R A * fB2R x * fB2R S) with ((fB2R (fmul (fmul A x) S) - fB2R (fmul A x) * fB2R S) + (fB2R (fmul A x) - fB2R A * fB2R x) * fB2R S) by ring.
    eapply Rle_trans; [apply Rabs_triang|]. rewrite (Rabs_mult (_ - _)), (Rabs_pos_eq (fB2R S)) by lra.
    assert (Rabs (fB2R (fmul A x) - fB2R A * fB2R x) * fB2R S <= 1001 / 1000 * ueps * (4 * V)) by (apply Rmult_le_compat; [apply Rabs_pos|lra|lra|lra]). lra. }
  eapply Rle_trans; [apply (sq_diff _ _ _ (4 * V) R3 L2)|].
  - rewrite !Rabs_mult, (Rabs_pos_eq (fB2R A)), (Rabs_pos_eq (fB2R S)) by lra. pose proof (Rabs_pos (fB2R x)). assert (fB2R A * Rabs (fB2R x) <= 1) by nra. nra.
  - assert (0 <= ueps * (V * V)) by nra. lra.
Qed.
Lemma dir_len : let ux := fB2R (fmul B S) in let uy := fB2R (fmul (fmul A c) S) in let uz := fB2R (fmul (fmul A s) S) in
  Rabs (ux * ux + uy * uy + uz * uz - fB2R S * fB2R S) <= 235 * (ueps * (V * V)) + 16 * (kap * (V * V)).
Proof.
  intros ux uy uz. pose proof (V_pos V HV). pose proof ueps_pos. destruct (dir1 B FB ltac:(apply Rabs_le; lra)) as (_ & L1 & R1). fold ux in L1, R1.
  destruct (dir2 c Fc Hc) as (_ & _ & R2). destruct (dir2 s Fs Hs) as (_ & _ & R3). fold uy in R2. fold uz in R3.
  assert (R0 : Rabs (ux * ux - fB2R B * fB2R S * (fB2R B * fB2R S)) <= 33 * (ueps * (V * V))).
  { eapply Rle_trans; [apply (sq_diff _ _ _ (4 * V) R1 L1)|].
    - rewrite Rabs_mult, (Rabs_pos_eq (fB2R S)) by lra. assert (Rabs (fB2R B) <= 1) by (apply Rabs_le; lra). pose proof (Rabs_pos (fB2R B)). nra.
    - assert (0 <= ueps * (V * V)) by nra. lra. }
  set (a := fB2R A) in *. set (b := fB2R B) in *. set (c' := fB2R c) in *. set (s' := fB2R s) in *. set (S' := fB2R S) in *.
  assert (Q : Rabs (S' * S' * (b * b + a * a * (s' * s' + c' * c')) - S' * S') <= 69 * (ueps * (V * V)) + 16 * (kap * (V * V))).
  { replace (S' * S' * (b * b + a * a * (s' * s' + c' * c')) - S' * S') with (S' * S' * ((a * a + b * b - 1) + a * a * (s' * s' + c' * c' - 1))) by ring.
    rewrite Rabs_mult, (Rabs_pos_eq (S' * S')) by nra.
    assert (Rabs (a * a + b * b - 1 + a * a * (s' * s' + c' * c' - 1)) <= 43 / 10 * ueps + kap).
    { eapply Rle_trans; [apply Rabs_triang|]. apply Rplus_le_compat; [exact AB|]. rewrite Rabs_mult, (Rabs_pos_eq (a * a)) by nra. assert (a * a <= 1) by nra. pose proof (Rabs_pos (s' * s' + c' * c' - 1)). assert (0 <= a * a) by nra. nra. }
    assert (S' * S' <= 16 * (V * V)) by nra.
    apply Rle_trans with (16 * (V * V) * (43 / 10 * ueps + kap)); [apply Rmult_le_compat; [nra|apply Rabs_pos|assumption|assumption]|]. assert (0 <= ueps * (V * V)) by nra. lra. }
  apply Rabs_le_inv in Q, R0, R2, R3. apply Rabs_le. lra.
Qed.
End Direction.
