(** Rounding facts about binary64 used for channel and pair selection and the test loop. *)
From Coq Require Import Reals Lra Lia ZArith Bool List.
From Flocq Require Import Core.Core IEEE754.BinarySingleNaN Relative.
From Verif Require Import Base Num ModelSet SpecSet ProofF64.
Import ListNotations.
Local Open Scope R_scope.

Notation femin := (3 - femax - fprec)%Z.
Notation ffexp := (FLT_exp femin fprec).
Notation frnd := (round radix2 ffexp ZnearestE).
Notation fF := (generic_format radix2 ffexp).
Notation fB2R := (@B2R fprec femax).
Global Instance fprec0 : Prec_gt_0 fprec := fprec_gt_0.

Lemma fF_B2R (x : binary64) : fF (fB2R x).
Proof. apply generic_format_B2R. Qed.
Lemma fB2R_lt (x : binary64) : fB2R x < bpow radix2 femax.
Proof. eapply Rle_lt_trans; [apply Rle_abs|]. apply abs_B2R_lt_emax. Qed.

Lemma fmul_ok (x y : binary64) : is_finite x = true -> is_finite y = true ->
  Rabs (frnd (fB2R x * fB2R y)) < bpow radix2 femax ->
  fB2R (fmul x y) = frnd (fB2R x * fB2R y) /\ is_finite (fmul x y) = true.
Proof.
  intros Hx Hy Hb. pose proof (Bmult_correct fprec femax _ fprec_lt_emax mode_NE x y) as H.
  change (round_mode mode_NE) with ZnearestE in H. change (SpecFloat.fexp fprec femax) with ffexp in H.
  rewrite Rlt_bool_true in H by exact Hb. destruct H as (H & Hf & _). rewrite Hx, Hy in Hf. split; assumption.
Qed.
Lemma fsub_ok (x y : binary64) : is_finite x = true -> is_finite y = true ->
  Rabs (frnd (fB2R x - fB2R y)) < bpow radix2 femax ->
  fB2R (fsub x y) = frnd (fB2R x - fB2R y) /\ is_finite (fsub x y) = true.
Proof.
  intros Hx Hy Hb. pose proof (Bminus_correct fprec femax _ fprec_lt_emax mode_NE x y Hx Hy) as H.
  change (round_mode mode_NE) with ZnearestE in H. change (SpecFloat.fexp fprec femax) with ffexp in H.
  rewrite Rlt_bool_true in H by exact Hb. destruct H as (H & Hf & _). split; assumption.
Qed.
Lemma fdiv_ok (x y : binary64) : is_finite x = true -> fB2R y <> 0 ->
  Rabs (frnd (fB2R x / fB2R y)) < bpow radix2 femax ->
  fB2R (fdiv x y) = frnd (fB2R x / fB2R y) /\ is_finite (fdiv x y) = true.
Proof.
  intros Hx Hy Hb. pose proof (Bdiv_correct fprec femax _ fprec_lt_emax mode_NE x y Hy) as H.
  change (round_mode mode_NE) with ZnearestE in H. change (SpecFloat.fexp fprec femax) with ffexp in H.
  rewrite Rlt_bool_true in H by exact Hb. destruct H as (H & Hf & _). rewrite Hx in Hf. split; assumption.
Qed.
Lemma fformat_int (z : Z) : (Z.abs z <= 2 ^ 53)%Z -> fF (IZR z).
Proof.
  intros Hz. destruct (Z.eq_dec (Z.abs z) (2 ^ 53)) as [E|E].
  - apply generic_format_abs_inv. rewrite <- abs_IZR, E. change (IZR (2 ^ 53)) with (bpow radix2 53). apply generic_format_bpow. cbn. unfold FLT_exp, fprec, femax. lia.
  - apply generic_format_FLT. exists (Float radix2 z 0); cbn [Defs.Fnum Defs.Fexp]; [unfold F2R; cbn; lra| |unfold fprec, femax; lia].
    change (radix2 ^ fprec)%Z with (2 ^ 53)%Z. lia.
Qed.
Lemma fofZ_exact (z : Z) : (Z.abs z <= 2 ^ 53)%Z -> fB2R (fofZ z) = IZR z /\ is_finite (fofZ z) = true.
Proof.
  intros Hz. pose proof (binary_normalize_correct fprec femax fprec_gt_0 fprec_lt_emax mode_NE z 0 false) as H.
  cbv zeta in H. change (round_mode mode_NE) with ZnearestE in H. change (SpecFloat.fexp fprec femax) with ffexp in H.
  assert (E : F2R (Float radix2 z 0) = IZR z) by (unfold F2R; cbn; lra). rewrite E in H.
  rewrite round_generic in H; [|typeclasses eauto|apply fformat_int; assumption].
  rewrite Rlt_bool_true in H.
  - destruct H as (H & Hf & _). split; assumption.
  - apply Rle_lt_trans with (IZR (2 ^ 53)); [rewrite <- abs_IZR; apply IZR_le; assumption|].
    change (IZR (2 ^ 53)) with (bpow radix2 53). apply bpow_lt. reflexivity.
Qed.
Lemma fofZ0 : fB2R (fofZ 0) = 0. Proof. apply fofZ_exact. cbn. lia. Qed.
Lemma fofZ1 : fB2R (fofZ 1) = 1. Proof. apply fofZ_exact. cbn. lia. Qed.

Lemma fleb_le (x y : binary64) : is_finite x = true -> is_finite y = true -> Bleb x y = Rle_bool (fB2R x) (fB2R y).
Proof. intros. apply Bleb_correct; assumption. Qed.

(** A number in [0,1) is finite. *)
Lemma unit_finite (e : binary64) : fnonneg e -> Bltb e (fofZ 1) = true -> is_finite e = true /\ 0 <= fB2R e < 1.
Proof.
  intros H0 H1. assert (Hf : is_finite e = true).
  { destruct e as [s|[]| |s m x Hx]; try reflexivity; try discriminate. }
  split; [assumption|]. unfold fnonneg in H0. rewrite fleb_le in H0 by (reflexivity || assumption).
  unfold Bltb in H1. pose proof (fltb_lt e (fofZ 1) Hf eq_refl). rewrite fofZ0 in H0. rewrite fofZ1 in H.
  apply Rle_bool_true_iff in H0 || (revert H0; case Rle_bool_spec; [intros H0 _|discriminate]). split; [assumption|].
  apply H. assumption.
Qed.

(** The largest number below 1. *)
Lemma below_one (e : R) : fF e -> e < 1 -> e <= 1 - bpow radix2 (-53).
Proof.
  intros He H. change 1 with (bpow radix2 0) in H.
  assert (H' : e <= pred radix2 ffexp (bpow radix2 0)).
  { apply pred_ge_gt; [typeclasses eauto|assumption| |assumption]. apply generic_format_bpow. cbn. unfold FLT_exp, fprec, femax. lia. }
  rewrite pred_bpow in H'. exact H'.
Qed.

Lemma gap_small (t : R) : fF t -> bpow radix2 (-1022) < t ->
  pred radix2 ffexp t < t /\ t - pred radix2 ffexp t < bpow radix2 (-52) * t.
Proof.
  intros Ft Ht. pose proof (bpow_gt_0 radix2 (-1022)) as Hp.
  assert (Hpred : bpow radix2 (-1022) <= pred radix2 ffexp t).
  { apply pred_ge_gt; [typeclasses eauto| |assumption|assumption]. apply generic_format_bpow. cbn. unfold FLT_exp, fprec, femax. lia. }
  assert (Hlt : pred radix2 ffexp t < t) by (apply pred_lt_id; lra). split; [assumption|].
  pose proof (pred_plus_ulp radix2 ffexp t ltac:(lra) Ft) as E.
  pose proof (ulp_FLT_le radix2 femin fprec (pred radix2 ffexp t)) as U.
  rewrite Rabs_pos_eq in U by lra. specialize (U Hpred). change (1 - fprec)%Z with (-52)%Z in U.
  pose proof (bpow_gt_0 radix2 (-52)). nra.
Qed.

Lemma scaled_below (t e : R) : fF t -> bpow radix2 (-1022) < t -> fF e -> 0 <= e < 1 ->
  0 <= frnd (e * t) <= pred radix2 ffexp t.
Proof.
  intros Ft Ht Fe He. pose proof (bpow_gt_0 radix2 (-1022)).
  destruct (gap_small t Ft Ht) as [G1 G2]. pose proof (below_one e Fe (proj2 He)) as B.
  split.
  - replace 0 with (frnd 0) by apply round_0, valid_rnd_N. apply round_le; [typeclasses eauto|typeclasses eauto|]. nra.
  - apply round_N_le_midp; [typeclasses eauto|apply generic_format_pred; [typeclasses eauto|assumption]|].
    rewrite succ_pred by (typeclasses eauto || assumption).
    change (bpow radix2 (-52)) with (2 * bpow radix2 (-53)) in G2 || (replace (bpow radix2 (-52)) with (2 * bpow radix2 (-53)) in G2 by (cbn; lra)).
    nra.
Qed.

Lemma fmul_below (t e : binary64) : is_finite t = true -> bpow radix2 (-1022) < fB2R t ->
  fnonneg e -> Bltb e (fofZ 1) = true ->
  (is_finite (fmul e t) = true /\ 0 <= fB2R (fmul e t) < fB2R t) /\ (is_finite (fmul t e) = true /\ 0 <= fB2R (fmul t e) < fB2R t).
Proof.
  intros Ht Hn H0 H1. destruct (unit_finite e H0 H1) as [Fe He].
  destruct (scaled_below (fB2R t) (fB2R e) (fF_B2R t) Hn (fF_B2R e) He) as [L U].
  destruct (gap_small (fB2R t) (fF_B2R t) Hn) as [G _].
  assert (Hb : Rabs (frnd (fB2R e * fB2R t)) < bpow radix2 femax).
  { rewrite Rabs_pos_eq by assumption. pose proof (fB2R_lt t). lra. }
  destruct (fmul_ok e t Fe Ht Hb) as [E1 F1]. rewrite Rmult_comm in Hb. destruct (fmul_ok t e Ht Fe Hb) as [E2 F2].
  rewrite E1, E2, (Rmult_comm (fB2R t)). split; (split; [assumption|lra]).
Qed.
