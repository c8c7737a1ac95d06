(** Averages over the draws of a collision. *)
From Coq Require Import Reals Lra Lia List ZArith.
From Coquelicot Require Import Coquelicot.
From Verif Require Import Base Num ModelTerm ModelCollide SpecPhys SpecXsec SpecMore ProofCollide ProofGauss.
From Coq Require Import List.
Import ListNotations.
Local Open Scope R_scope.

Local Ltac rg := intros; toR; ring.
Local Ltac fd := intros; toR; field.
(** ** Elementary integrals *)
Lemma int_derive (f df : R -> R) l :
  (forall x, is_derive f x (df x)) -> (forall x, continuous df x) -> l = f 1 - f 0 -> is_RInt df 0 1 l.
Proof. intros H C ->. apply (is_RInt_derive f df 0 1); auto. Qed.
Lemma int_cos : is_RInt (fun x => cos (2 * PI * x)) 0 1 0.
Proof.
  pose proof PI_RGT_0. apply (int_derive (fun x => sin (2 * PI * x) / (2 * PI))).
  - intros x. auto_derive; [trivial|]. field. lra.
  - intros x. apply (ex_derive_continuous (fun x => cos (2 * PI * x))). auto_derive; trivial.
  - replace (2 * PI * 1) with (2 * PI) by ring. replace (2 * PI * 0) with 0 by ring. rewrite sin_2PI, sin_0. field. lra.
Qed.
Lemma int_sin : is_RInt (fun x => sin (2 * PI * x)) 0 1 0.
Proof.
  pose proof PI_RGT_0. apply (int_derive (fun x => - cos (2 * PI * x) / (2 * PI))).
  - intros x. auto_derive; [trivial|]. field. lra.
  - intros x. apply (ex_derive_continuous (fun x => sin (2 * PI * x))). auto_derive; trivial.
  - replace (2 * PI * 1) with (2 * PI) by ring. replace (2 * PI * 0) with 0 by ring. rewrite cos_2PI, cos_0. field. lra.
Qed.
Lemma int_cossin : is_RInt (fun x => cos (2 * PI * x) * sin (2 * PI * x)) 0 1 0.
Proof.
  pose proof PI_RGT_0. apply (int_derive (fun x => sin (2 * PI * x) ^ 2 / (4 * PI))).
  - intros x. auto_derive; [trivial|]. field. lra.
  - intros x. apply (ex_derive_continuous (fun x => cos (2 * PI * x) * sin (2 * PI * x))). auto_derive; trivial.
  - replace (2 * PI * 1) with (2 * PI) by ring. replace (2 * PI * 0) with 0 by ring. rewrite sin_2PI, sin_0. field. lra.
Qed.
Lemma int_cos2 : is_RInt (fun x => cos (2 * PI * x) * cos (2 * PI * x)) 0 1 (1 / 2).
Proof.
  pose proof PI_RGT_0. apply (int_derive (fun x => x / 2 + sin (2 * PI * x) * cos (2 * PI * x) / (4 * PI))).
  - intros x. auto_derive; [trivial|].
    pose proof (sin2_cos2 (2 * PI * x)) as E. unfold Rsqr in E.
    replace (/ 2) with ((sin (2 * PI * x) * sin (2 * PI * x) + cos (2 * PI * x) * cos (2 * PI * x)) / 2) by (rewrite E; field).
    field. lra.
  - intros x. apply (ex_derive_continuous (fun x => cos (2 * PI * x) * cos (2 * PI * x))). auto_derive; trivial.
  - replace (2 * PI * 1) with (2 * PI) by ring. replace (2 * PI * 0) with 0 by ring. rewrite sin_2PI, sin_0. field. lra.
Qed.
Lemma int_sin2 : is_RInt (fun x => sin (2 * PI * x) * sin (2 * PI * x)) 0 1 (1 / 2).
Proof.
  pose proof PI_RGT_0. apply (int_derive (fun x => x / 2 - sin (2 * PI * x) * cos (2 * PI * x) / (4 * PI))).
  - intros x. auto_derive; [trivial|].
    pose proof (sin2_cos2 (2 * PI * x)) as E. unfold Rsqr in E.
    replace (/ 2) with ((sin (2 * PI * x) * sin (2 * PI * x) + cos (2 * PI * x) * cos (2 * PI * x)) / 2) by (rewrite E; field).
    field. lra.
  - intros x. apply (ex_derive_continuous (fun x => sin (2 * PI * x) * sin (2 * PI * x))). auto_derive; trivial.
  - replace (2 * PI * 1) with (2 * PI) by ring. replace (2 * PI * 0) with 0 by ring. rewrite sin_2PI, sin_0. field. lra.
Qed.
Lemma int_poly (a b c l : R) : l = a / 3 + b / 2 + c -> is_RInt (fun x => a * x ^ 2 + b * x + c) 0 1 l.
Proof.
  intros ->. apply (int_derive (fun x => a * x ^ 3 / 3 + b * x ^ 2 / 2 + c * x)).
  - intros x. auto_derive; [trivial|]. field.
  - intros x. apply (ex_derive_continuous (fun x => a * x ^ 2 + b * x + c)). auto_derive; trivial.
  - field.
Qed.
Lemma int_ext (f g : R -> R) l l' : (forall x, 0 <= x <= 1 -> f x = g x) -> l = l' -> is_RInt f 0 1 l -> is_RInt g 0 1 l'.
Proof.
  intros H <- I. apply (is_RInt_ext f g); [|exact I]. intros x Hx. apply H.
  rewrite Rmin_left, Rmax_right in Hx by lra. lra.
Qed.
Lemma int_scal (f : R -> R) k l : is_RInt f 0 1 l -> is_RInt (fun x => k * f x) 0 1 (k * l).
Proof. intros H. apply (is_RInt_scal f 0 1 k l H). Qed.
Lemma int_plus (f g : R -> R) l m : is_RInt f 0 1 l -> is_RInt g 0 1 m -> is_RInt (fun x => f x + g x) 0 1 (l + m).
Proof. intros H I. apply (is_RInt_plus f g 0 1 l m H I). Qed.
Lemma int_const (c : R) : is_RInt (fun _ => c) 0 1 c.
Proof. apply (int_ext (fun x => 0 * x ^ 2 + 0 * x + c) _ (0 / 3 + 0 / 2 + c)); [rg|fd|apply int_poly; reflexivity]. Qed.

(** ** Means *)
Lemma mean_ext f g m m' : (forall r r', 0 <= r <= 1 -> 0 <= r' <= 1 -> f r r' = g r r') -> m = m' -> mean_is f m -> mean_is g m'.
Proof.
  intros H <- (h & A & B). exists h. split; [|exact B]. intros r Hr. apply (int_ext (f r) _ (h r)); auto.
Qed.
Lemma mean_prod (u w : R -> R) (p q : R) m : m = p * q -> is_RInt u 0 1 p -> is_RInt w 0 1 q -> mean_is (fun r r' => u r * w r') m.
Proof.
  intros -> A B. exists (fun r => u r * q). split.
  - intros r _. apply int_scal. exact B.
  - apply (int_ext (fun r => q * u r) _ (q * p)); [rg|rg|]. apply int_scal. exact A.
Qed.
(** When the inner mean vanishes, the outer function does not matter. *)
Lemma mean_zero (u w : R -> R) : is_RInt w 0 1 0 -> mean_is (fun r r' => u r * w r') 0.
Proof.
  intros B. exists (fun _ => 0). split; [|apply int_const].
  intros r _. apply (int_ext (fun x => u r * w x) _ (u r * 0)); [reflexivity|rg|]. apply int_scal. exact B.
Qed.
Lemma mean_affine f m a b m' : m' = a + b * m -> mean_is f m -> mean_is (fun r r' => a + b * f r r') m'.
Proof.
  intros -> (h & A & B). exists (fun r => a + b * h r). split.
  - intros r Hr. apply int_plus; [apply int_const|apply int_scal, A, Hr].
  - apply int_plus; [apply int_const|apply int_scal, B].
Qed.

(** ** The isotropic direction *)
Definition isoR (r r' S : R) : rvec := isoVel (N:=RNum) r r' S.
Lemma iso_comp r r' S : isoR r r' S =
  V3 (N:=RNum) ((2 * r - 1) * S)%R (R_sqrt.sqrt (1 - (2 * r - 1) * (2 * r - 1)) * cos (2 * PI * r') * S)%R
     (R_sqrt.sqrt (1 - (2 * r - 1) * (2 * r - 1)) * sin (2 * PI * r') * S)%R.
Proof. reflexivity. Qed.
Lemma iso_mean S i : mean_is (fun r r' => component i (isoR r r' S)) 0.
Proof.
  destruct i as [|[|i]]; cbn [component].
  - apply (mean_ext (fun r r' => ((2 * r - 1) * S) * 1) _ 0); [intros; rewrite iso_comp; cbn [vx]; toR; ring|reflexivity|].
    apply (mean_prod _ _ 0 1); [rg| |apply int_const].
    apply (int_ext (fun x => 0 * x ^ 2 + (2 * S) * x + - S) _ 0); [rg|reflexivity|]. apply int_poly. fd.
  - apply (mean_ext (fun r r' => (R_sqrt.sqrt (1 - (2 * r - 1) * (2 * r - 1)) * S) * cos (2 * PI * r')) _ 0); [intros; rewrite iso_comp; cbn [vy]; toR; ring|reflexivity|].
    apply mean_zero, int_cos.
  - apply (mean_ext (fun r r' => (R_sqrt.sqrt (1 - (2 * r - 1) * (2 * r - 1)) * S) * sin (2 * PI * r')) _ 0); [intros; rewrite iso_comp; cbn [vz]; toR; ring|reflexivity|].
    apply mean_zero, int_sin.
Qed.
Lemma A_sq r : 0 <= r <= 1 -> R_sqrt.sqrt (1 - (2 * r - 1) * (2 * r - 1)) * R_sqrt.sqrt (1 - (2 * r - 1) * (2 * r - 1)) = 1 - (2 * r - 1) * (2 * r - 1).
Proof. intros H. apply sqrt_sqrt. nra. Qed.
Lemma iso_second S i j : (i < 3)%nat -> (j < 3)%nat ->
  mean_is (fun r r' => component i (isoR r r' S) * component j (isoR r r' S)) (if Nat.eqb i j then S ^ 2 / 3 else 0).
Proof.
  intros Hi Hj.
  set (A := fun r => R_sqrt.sqrt (1 - (2 * r - 1) * (2 * r - 1))).
  set (B := fun r : R => 2 * r - 1).
  assert (H01 : forall w, is_RInt w 0 1 0 -> mean_is (fun r r' => (B r * A r * S ^ 2) * w r') 0) by (intros; apply mean_zero; assumption).
  assert (H12 : mean_is (fun r r' => (A r * A r * S ^ 2) * (cos (2 * PI * r') * sin (2 * PI * r'))) 0) by (apply mean_zero, int_cossin).
  assert (HA : is_RInt (fun r => A r * A r * S ^ 2) 0 1 (2 / 3 * S ^ 2)).
  { apply (int_ext (fun x => (-4 * S ^ 2) * x ^ 2 + (4 * S ^ 2) * x + 0) _ (2 / 3 * S ^ 2)); [|reflexivity|apply int_poly; fd].
    intros x Hx. unfold A. rewrite A_sq by assumption. toR; ring. }
  assert (E : forall r r', isoR r r' S = V3 (N:=RNum) (B r * S)%R (A r * cos (2 * PI * r') * S)%R (A r * sin (2 * PI * r') * S)%R) by reflexivity.
  destruct i as [|[|[|i]]]; [| | |lia]; (destruct j as [|[|[|j]]]; [| | |lia]); cbn [component Nat.eqb].
  - apply (mean_ext (fun r r' => (B r * B r * S ^ 2) * 1) _ (S ^ 2 / 3)); [intros; rewrite E; cbn [vx]; toR; ring|reflexivity|].
    apply (mean_prod _ _ (S ^ 2 / 3) 1); [rg| |apply int_const].
    apply (int_ext (fun x => (4 * S ^ 2) * x ^ 2 + (-4 * S ^ 2) * x + S ^ 2) _ (S ^ 2 / 3)); [intros; unfold B; toR; ring|reflexivity|]. apply int_poly. fd.
  - eapply mean_ext; [| |apply (H01 (fun x => cos (2 * PI * x)) int_cos)]; [intros; rewrite E; cbn [vx vy]; toR; ring|reflexivity].
  - eapply mean_ext; [| |apply (H01 (fun x => sin (2 * PI * x)) int_sin)]; [intros; rewrite E; cbn [vx vz]; toR; ring|reflexivity].
  - eapply mean_ext; [| |apply (H01 (fun x => cos (2 * PI * x)) int_cos)]; [intros; rewrite E; cbn [vx vy]; toR; ring|reflexivity].
  - eapply mean_ext; [| |apply (mean_prod _ _ _ _ _ eq_refl HA int_cos2)]; [intros; rewrite E; cbn [vy]; toR; ring|fd].
  - eapply mean_ext; [| |apply H12]; [intros; rewrite E; cbn [vy vz]; toR; ring|reflexivity].
  - eapply mean_ext; [| |apply (H01 (fun x => sin (2 * PI * x)) int_sin)]; [intros; rewrite E; cbn [vx vz]; toR; ring|reflexivity].
  - eapply mean_ext; [| |apply H12]; [intros; rewrite E; cbn [vy vz]; toR; ring|reflexivity].
  - eapply mean_ext; [| |apply (mean_prod _ _ _ _ _ eq_refl HA int_sin2)]; [intros; rewrite E; cbn [vz]; toR; ring|fd].
Qed.
