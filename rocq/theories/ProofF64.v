(** Lemmas on binary64: comparisons and NaN propagation. *)
From Coq Require Import ZArith Reals Lra Lia Bool List.
From Flocq Require Import Core.Core IEEE754.BinarySingleNaN.
From Verif Require Import Base Num ModelTerm ModelCollide ProofInelastic.
Import ListNotations.

Lemma fltb_lt (x y : binary64) : is_finite x = true -> is_finite y = true ->
  Bltb x y = true <-> (B2R x < B2R y)%R.
Proof.
  intros Hx Hy. rewrite Bltb_correct by assumption.
  destruct (Rlt_bool_spec (B2R x) (B2R y)); split; try tauto; try congruence. lra.
Qed.
Lemma fltb_ge (x y : binary64) : is_finite x = true -> is_finite y = true ->
  Bltb x y = false <-> (B2R y <= B2R x)%R.
Proof.
  intros Hx Hy. rewrite Bltb_correct by assumption.
  destruct (Rlt_bool_spec (B2R x) (B2R y)); split; try tauto; try congruence. lra.
Qed.

Lemma fltb_irrefl (x : binary64) : Bltb x x = false.
Proof.
  destruct (is_finite x) eqn:E.
  - apply fltb_ge; auto. lra.
  - destruct x as [| [] | |]; try discriminate; reflexivity.
Qed.

Lemma fltb_trans (x y z : binary64) : Bltb x y = true -> Bltb y z = true -> Bltb x z = true.
Proof.
  destruct (is_finite x) eqn:Ex, (is_finite y) eqn:Ey, (is_finite z) eqn:Ez.
  - rewrite !fltb_lt by assumption. lra.
  - destruct z as [|[]| |]; try discriminate; destruct y as [[]|[]| |[]]; try discriminate; destruct x as [[]|[]| |[]]; try discriminate; auto.
  - destruct y as [[]|[]| |[]]; try discriminate; destruct x as [[]|[]| |[]], z as [[]|[]| |[]]; try discriminate; auto.
  - destruct y as [[]|[]| |[]]; try discriminate; destruct x as [[]|[]| |[]], z as [[]|[]| |[]]; try discriminate; auto.
  - destruct x as [[]|[]| |[]]; try discriminate; destruct y as [[]|[]| |[]], z as [[]|[]| |[]]; try discriminate; auto.
  - destruct x as [[]|[]| |[]]; try discriminate; destruct y as [[]|[]| |[]], z as [[]|[]| |[]]; try discriminate; auto.
  - destruct x as [[]|[]| |[]]; try discriminate; destruct y as [[]|[]| |[]], z as [[]|[]| |[]]; try discriminate; auto.
  - destruct x as [[]|[]| |[]]; try discriminate; destruct y as [[]|[]| |[]], z as [[]|[]| |[]]; try discriminate; auto.
Qed.

Definition fnan : binary64 := B754_nan.
Lemma fsqrt_neg (x : binary64) : Bltb x (fofZ 0) = true -> fsqrt x = fnan.
Proof. destruct x as [[]|[]| |[] m e H]; cbn; intros; try discriminate; reflexivity. Qed.
Lemma fmul_nan_r x : fmul x fnan = fnan. Proof. destruct x; reflexivity. Qed.
Lemma fmul_nan_l x : fmul fnan x = fnan. Proof. destruct x; reflexivity. Qed.
Lemma fadd_nan_r x : fadd x fnan = fnan. Proof. destruct x as [[]| | |]; reflexivity. Qed.
Lemma fadd_nan_l x : fadd fnan x = fnan. Proof. destruct x; reflexivity. Qed.
Lemma fsub_nan_r x : fsub x fnan = fnan. Proof. destruct x as [[]| | |]; reflexivity. Qed.
Lemma fsub_nan_l x : fsub fnan x = fnan. Proof. destruct x; reflexivity. Qed.

Section WithLibm.
Context (lm : libm).
Notation N := (F64 lm).
Definition vnan : vec N := V3 (N:=N) fnan fnan fnan.

Lemma iso_nan r r' : isoVel (N:=N) r r' fnan = vnan.
Proof. unfold isoVel, vnan. f_equal; apply fmul_nan_r. Qed.
Lemma vscale_nan c : vscale (N:=N) c vnan = vnan.
Proof. unfold vscale, vnan; cbn [vx vy vz]. f_equal; apply fmul_nan_r. Qed.
Lemma vadd_nan_r v : vadd (N:=N) v vnan = vnan.
Proof. unfold vadd, vnan; cbn [vx vy vz]. f_equal; apply fadd_nan_r. Qed.
Lemma vsub_nan_r v : vsub (N:=N) v vnan = vnan.
Proof. unfold vsub, vnan; cbn [vx vy vz]. f_equal; apply fsub_nan_r. Qed.
Lemma vadd_nan_l v : vadd (N:=N) vnan v = vnan.
Proof. unfold vadd, vnan; cbn [vx vy vz]. f_equal; apply fadd_nan_l. Qed.
Lemma vsub_nan_l v : vsub (N:=N) vnan v = vnan.
Proof. unfold vsub, vnan; cbn [vx vy vz]. f_equal; apply fsub_nan_l. Qed.

Lemma vel22_nan (m : inelastic22 N) v1 v2 r r' :
  i2_hasE m = true ->
  Bltb (fadd (vsqr (N:=N) (vsub v1 v2)) (i2_dV2rel m)) (fofZ 0) = true ->
  vel22 m v1 v2 r r' = (vnan, vnan).
Proof.
  intros HE Hlt. unfold vel22. rewrite HE. cbn [CalculateVRel].
  change (nsqrt (nadd (vsqr (vsub v1 v2)) (i2_dV2rel m)))
    with (fsqrt (fadd (vsqr (N:=N) (vsub v1 v2)) (i2_dV2rel m))).
  rewrite (fsqrt_neg _ Hlt), iso_nan, !vscale_nan, vadd_nan_r, vsub_nan_r. reflexivity.
Qed.
Lemma vel23_nan (m : inelastic23 N) v1 v2 q r r' s s' :
  i3_hasE m = true ->
  Bltb (fadd (vsqr (N:=N) (vsub v1 v2)) (i3_dV2rel m)) (fofZ 0) = true ->
  vel23 m v1 v2 q r r' s s' = (vnan, vnan, vnan).
Proof.
  intros HE Hlt. unfold vel23. rewrite HE. cbn [CalculateVRel].
  change (nsqrt (nadd (vsqr (vsub v1 v2)) (i3_dV2rel m)))
    with (fsqrt (fadd (vsqr (N:=N) (vsub v1 v2)) (i3_dV2rel m))).
  rewrite (fsqrt_neg _ Hlt).
  change (nmul (n:=N) fnan (nsqrt q)) with (fmul fnan (fsqrt q)).
  change (nmul (n:=N) fnan (nsqrt (nsub n1 q))) with (fmul fnan (fsqrt (fsub (fofZ 1) q))).
  rewrite !fmul_nan_l, !iso_nan, !vscale_nan, !vadd_nan_r, !vsub_nan_r. reflexivity.
Qed.
End WithLibm.
