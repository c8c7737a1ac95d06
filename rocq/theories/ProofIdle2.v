(** Runs with time steps that are not positive. *)
From Coq Require Import List ZArith Bool Arith Lia Reals Lra.
From Flocq Require Import Core.Core IEEE754.BinarySingleNaN.
From Verif Require Import Base Num ModelTerm ModelCollide ModelXsec ModelSet SpecSet SpecNan SpecIdle SpecIdle2
  ProofInelastic ProofFloat ProofSelect ProofDB ProofDriver ProofNan ProofDraws ProofIdle.
From Coq Require Import List.
Import ListNotations.
Local Open Scope R_scope.

Definition pp (x : binary64) : Prop := nan x \/ Bsign x = false.
Definition np (x : binary64) : Prop := nan x \/ Bsign x = true \/ is_zero x.
Lemma zn_np x : zn x -> np x. Proof. intros [H|H]; [left|right; right]; exact H. Qed.
Lemma over_sign (z : binary64) s : B2SF z = binary_overflow fprec femax mode_NE s -> Bsign z = s.
Proof. intros H. change (B2SF z = SpecFloat.S754_infinity s) in H. destruct z; cbn in *; congruence. Qed.
Lemma mul_sign x y : nan (fmul x y) \/ Bsign (fmul x y) = xorb (Bsign x) (Bsign y).
Proof.
  pose proof (Bmult_correct fprec femax fprec_gt_0 fprec_lt_emax mode_NE x y) as H. fold (fmul x y) in H.
  destruct (Rlt_bool _ _) in H; [|right; exact (over_sign _ _ H)].
  destruct H as (_ & _ & H). unfold nan. destruct (is_nan (fmul x y)) eqn:E; [left|right]; auto.
Qed.
Lemma div_sign x y : B2R y <> 0 -> nan (fdiv x y) \/ Bsign (fdiv x y) = xorb (Bsign x) (Bsign y).
Proof.
  intros Hy. pose proof (Bdiv_correct fprec femax fprec_gt_0 fprec_lt_emax mode_NE x y Hy) as H. fold (fdiv x y) in H.
  destruct (Rlt_bool _ _) in H; [|right; exact (over_sign _ _ H)].
  destruct H as (_ & _ & H). unfold nan. destruct (is_nan (fdiv x y)) eqn:E; [left|right]; auto.
Qed.
Lemma pp_mul x y : pp x -> pp y -> pp (fmul x y).
Proof.
  intros [H|H] [H'|H']; try (left; apply nan_mul_l; assumption); try (left; apply nan_mul_r; assumption).
  destruct (mul_sign x y) as [Q|Q]; [left; exact Q|right]. now rewrite Q, H, H'.
Qed.
Lemma np_mul_r x y : pp x -> np y -> np (fmul x y).
Proof.
  intros [H|H] Hy; [left; apply nan_mul_l, H|]. destruct Hy as [H'|[H'|H']]; [left; apply nan_mul_r, H'| |].
  - destruct (mul_sign x y) as [Q|Q]; [left; exact Q|right; left]. now rewrite Q, H, H'.
  - apply zn_np, zn_mul. right. exact H'.
Qed.
Lemma np_mul_l x y : np x -> fnonneg y \/ pp y -> np (fmul x y).
Proof.
  intros Hx Hy. assert (Q : zn y \/ pp y).
  { destruct Hy as [Hy|Hy]; [|right; exact Hy]. destruct (fnonneg_cases y Hy) as [[s ->]|[->|(m & e & Hm & ->)]]; [left; right; eexists; reflexivity|right; right; reflexivity..]. }
  destruct Q as [Q|Q]; [apply zn_np, zn_mul, Q|]. destruct Hx as [H|[H|H]]; [left; apply nan_mul_l, H| |apply zn_np, zn_mul_l; right; exact H].
  destruct Q as [Q|Q]; [left; apply nan_mul_r, Q|]. destruct (mul_sign x y) as [P|P]; [left; exact P|right; left]. now rewrite P, H, Q.
Qed.
Lemma np_div x y : np x -> pp y -> np (fdiv x y).
Proof.
  intros Hx [Hy|Hy]; [left; apply div_nan, Hy|]. destruct Hx as [H|[H|[s ->]]]; [left; apply div_nan_l, H| |].
  - destruct y as [s|s| |s m e Hb]; cbn in Hy; subst; try (left; destruct x as [[]|[]| |[]]; reflexivity).
    + destruct x as [b|b| |b m e Hb]; cbn in H; subst; [left; reflexivity|right; left; reflexivity|discriminate|right; left; reflexivity].
    + destruct x as [b|b| |b m e Hb]; cbn in H; subst; [right; right; eexists; reflexivity|left; reflexivity|discriminate|right; right; eexists; reflexivity].
    + destruct (div_sign x (B754_finite false m e Hb)) as [P|P]; [|left; exact P|right; left; rewrite P, H; reflexivity].
      intros Z. apply (F2R_neq_0 radix2 (Float radix2 (Z.pos m) e)); [discriminate|exact Z].
  - destruct y as [b|b| |b m e Hb]; cbn in Hy; subst; [left; reflexivity|right; right; eexists; reflexivity|left; reflexivity|right; right; eexists; reflexivity].
Qed.
Lemma pp_ofZ n : pp (fofZ (Z.of_nat n)).
Proof.
  right. pose proof (binary_normalize_correct fprec femax fprec_gt_0 fprec_lt_emax mode_NE (Z.of_nat n) 0 false) as H. cbv zeta in H. fold (fofZ (Z.of_nat n)) in H.
  assert (P : 0 <= F2R (Float radix2 (Z.of_nat n) 0)) by (apply F2R_ge_0; cbn; lia).
  destruct (Rlt_bool _ (bpow _ _)) in H.
  - destruct H as (_ & _ & ->). destruct (Rcompare_spec (F2R (Float radix2 (Z.of_nat n) 0)) 0); [lra|reflexivity..].
  - apply over_sign in H. rewrite H. apply Rlt_bool_false. exact P.
Qed.
Lemma fpos_pp x : fpos x -> pp x.
Proof. unfold fpos. intros H. right. destruct x as [[]|[]| |[]]; cbn in *; try reflexivity; discriminate. Qed.
Lemma not_pos_np x : ~ fpos x -> np x.
Proof.
  unfold fpos. intros H. destruct x as [s|s| |s m e Hb]; [right; right; eexists; reflexivity| |left; reflexivity|].
  - destruct s; [right; left; reflexivity|]. exfalso. apply H. reflexivity.
  - destruct s; [right; left; reflexivity|]. exfalso. apply H. reflexivity.
Qed.
Lemma np_not_above x : np x -> Bltb (fofZ 1) x = false.
Proof.
  intros [H|[H|[s ->]]]; [apply nan_is in H; subst; reflexivity| |destruct s; reflexivity].
  destruct x as [s|s| |s m e Hb]; cbn in H; subst; try discriminate; reflexivity.
Qed.
Lemma np_succ x : np x -> Bltb (fofZ 1) (fadd x (fofZ 1)) = false.
Proof.
  intros [H|[H|[s ->]]]; [apply nan_is in H; subst; reflexivity| |destruct s; vm_compute; reflexivity].
  destruct (is_finite x) eqn:F; [|destruct x as [s|s| |s m e Hb]; cbn in H, F; subst; try discriminate; reflexivity].
  destruct (fofZ_exact 1 ltac:(cbn; lia)) as [E1 F1].
  pose proof (Bplus_correct fprec femax fprec_gt_0 fprec_lt_emax mode_NE x (fofZ 1) F F1) as Q. fold (fadd x (fofZ 1)) in Q.
  assert (X : B2R x <= 0).
  { destruct x as [s|s| |s m e Hb]; cbn in H, F; subst; try discriminate; [cbn; lra|]. apply F2R_le_0. cbn. lia. }
  destruct (Rlt_bool _ _) in Q.
  - destruct Q as (Q1 & Q2 & _). rewrite Bltb_correct by assumption. apply Rlt_bool_false. fold (fB2R (fofZ 1)) in *. rewrite Q1.
    apply round_le_generic; [typeclasses eauto..|apply fF_B2R|].
    match goal with |- ?a + ?b <= ?c => change (fB2R x + fB2R (fofZ 1) <= fB2R (fofZ 1)) end. change (fB2R x <= 0) in X. lra.
  - destruct Q as [_ Q]. rewrite H in Q. discriminate Q.
Qed.

Section Idle2.
Context {lm : libm} (K : F64 lm).
Notation N := (F64 lm).
Lemma estimate_np same (wA wB : N) na nb (dt msv vol : N) : ~ fpos dt -> fpos vol -> fnonneg msv -> fpos wA -> fpos wB ->
  np (estimate (N:=N) same wA wB na nb dt msv vol).
Proof.
  intros Hd Hv Hm HA HB. unfold estimate. cbv zeta.
  assert (Q : np (fdiv (fmul (fmul (fmul (fmul (fmul wA wB) (fofZ (Z.of_nat na))) (fofZ (Z.of_nat nb))) dt) msv) (fmul vol (nmin (N:=N) wA wB)))).
  { apply np_div.
    - apply np_mul_l; [|left; exact Hm]. apply np_mul_r; [|apply not_pos_np, Hd].
      repeat apply pp_mul; try apply pp_ofZ; apply fpos_pp; assumption.
    - apply pp_mul; [apply fpos_pp, Hv|]. unfold nmin. destruct (nltb _ _); apply fpos_pp; assumption. }
  destruct same; [apply (np_mul_l _ (nhalf (N:=N))); [exact Q|left; vm_compute; reflexivity]|exact Q].
Qed.
Lemma promote_np (x d : N) : np x -> nltb (n:=N) n1 (promote (N:=N) x d) = false.
Proof. intros H. unfold promote. destruct (nltb (n:=N) d _); [exact (np_succ x H)|exact (np_not_above x H)]. Qed.
Lemma loop_below fuel inplace sfuel rhs msv A B (x : N) g s s' : nltb (n:=N) n1 x = false -> test_loop K fuel inplace sfuel rhs msv A B x g s = Ok s' -> s' = s.
Proof. intros H E. destruct fuel as [|fuel]; cbn [test_loop] in E; [discriminate|]. rewrite H in E. congruence. Qed.
Lemma pass_below fuel inplace db g (l : list (ctdata N)) : List.Forall (fun ct : ctdata N => nltb (n:=N) n1 (ct_tests ct) = false) l ->
  forall s s', second_pass K fuel inplace db g l s = Ok s' -> s' = s.
Proof.
  unfold second_pass. intros Hn. induction Hn as [|ct l Hc _ IH]; intros s s' H; cbn [ofold] in H; [congruence|].
  apply obind_ok in H as (s1 & H1 & H). apply loop_below in H1; [|exact Hc]. subst s1. exact (IH _ _ H).
Qed.
Lemma run_backwards fuel inplace dt (c : cell N) nprops db res er g k s : ~ fpos dt -> fpos (c_volume c) ->
  (forall p, In p (c_mem c) -> fpos (p_weight p)) ->
  (forall A B msv, findMaxSigmaVProduct K (db A B) (c_maxv c A B) = Ok msv -> fnonneg msv) ->
  driver K fuel inplace dt c nprops db res er g k = Ok s ->
  s_mem s = c_mem c /\ s_ranges s = c_ranges c /\ s_res s = res /\ s_erase s = er /\ s_log s = [].
Proof.
  intros Hd Hv Hw Hm H. unfold driver in H. cbv zeta in H. apply obind_ok in H as ([l k1] & El & H).
  apply pass_below in H; [subst s; auto|]. apply first_from in El. eapply Forall_impl; [|exact El].
  intros ct (ra & rb & wA & wB & d & _ & _ & EA & EB & Em & ->). apply promote_np, estimate_np; try assumption.
  - exact (Hm _ _ _ Em).
  - apply weight_first in EA as (p & E & ->). apply Hw. exact (nth_error_In _ _ E).
  - apply weight_first in EB as (p & E & ->). apply Hw. exact (nth_error_In _ _ E).
Qed.
End Idle2.
