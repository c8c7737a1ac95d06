(** Inelastic collisions with two and three products in binary64. *)
From Coq Require Import Reals Lra Lia ZArith Bool List.
From Flocq Require Import Core.Core IEEE754.BinarySingleNaN Relative.
From Verif Require Import Base Num ModelTerm ModelCollide SpecPhys SpecSet SpecRound ProofF64 ProofFloat ProofRound ProofRound2 ProofRound3 ProofRound4 ProofRound8.
From Coq Require Import List.
Import ListNotations.
Local Open Scope R_scope.

Section Step.
Variables V K : R.
Hypothesis (HV : speed_ok V) (HK : 1 <= K <= bpow radix2 100).
Lemma KV_pos : 0 < V /\ V <= K * V /\ 0 < K * V. Proof. pose proof (V_pos V HV). split; [lra|]. split; nra. Qed.
Lemma KV_big : 1000 * K <= big /\ 1000 * (K * V) <= big.
Proof.
  pose proof (V_pos V HV) as PV. pose proof b1000. destruct HV as [_ V1]. split.
  - change big with (bpow radix2 (10 + 990)). rewrite bpow_plus. apply Rmult_le_compat; try lra. apply Rle_trans with (1 := proj2 HK). apply bp. lia.
  - change big with (bpow radix2 (10 + (100 + 890))). rewrite !bpow_plus. apply Rmult_le_compat; try lra; [apply Rmult_le_pos; lra|].
    apply Rmult_le_compat; try lra. apply Rle_trans with (1 := V1). apply bp. lia.
Qed.
Lemma KV_eta : 1000 * ueta <= ueps * K /\ 1000 * ueta <= ueps * (K * V).
Proof.
  pose proof eta0. pose proof (eta1 V HV). pose proof ueps_pos. pose proof KV_pos. split; [nra|]. assert (ueps * V <= ueps * (K * V)) by (apply Rmult_le_compat_l; lra). lra.
Qed.
Lemma factor_near (o sc : binary64) a : appr o a (4 * ueps) -> 0 <= a <= 1 -> is_finite sc = true -> 0 <= fB2R sc <= 1001 / 1000 * K ->
  appr (fmul o sc) (a * fB2R sc) (52 / 10 * (ueps * K)) /\ Rabs (a * fB2R sc) <= 1001 / 1000 * K.
Proof.
  intros Ho Ha Fs Hs. pose proof KV_big. pose proof KV_eta. destruct (ee K ltac:(lra)) as (E1 & E2 & E3). pose proof ueps_pos. split.
  - apply (appr_mul o a (4 * ueps) sc (fB2R sc) 0 1 (1001 / 1000 * K)); [exact Ho|apply appr_self; exact Fs|rewrite Rabs_pos_eq; lra|rewrite Rabs_pos_eq; lra|lra|lra].
  - rewrite Rabs_pos_eq by nra. nra.
Qed.
Lemma push_near (f u : binary64) ph : appr f ph (52 / 10 * (ueps * K)) -> Rabs ph <= 1001 / 1000 * K -> is_finite u = true -> Rabs (fB2R u) <= 4 * V ->
  appr (fmul f u) (ph * fB2R u) (25 * (ueps * (K * V))) /\ Rabs (ph * fB2R u) <= 4004 / 1000 * (K * V).
Proof.
  intros Hf Hp Fu Hu. pose proof KV_big. pose proof KV_eta. pose proof KV_pos. destruct (ee (K * V) ltac:(lra)) as (E1 & E2 & E3). pose proof ueps_pos. split.
  - apply (appr_mul f ph (52 / 10 * (ueps * K)) u (fB2R u) 0 (1001 / 1000 * K) (4 * V)); [exact Hf|apply appr_self; exact Fu|exact Hp|exact Hu|lra|lra].
  - rewrite Rabs_mult. replace (4004 / 1000 * (K * V)) with (1001 / 1000 * K * (4 * V)) by lra. apply Rmult_le_compat; try apply Rabs_pos; assumption.
Qed.
Variables (c f u : binary64) (C ph k l k' : R).
Hypothesis (Hc : appr c C (k * (ueps * (K * V)))) (LC : Rabs C <= l * (K * V)) (Hk : 0 <= k <= 100) (Hl : 0 <= l <= 100).
Hypothesis (Hf : appr f ph (52 / 10 * (ueps * K))) (Hp : Rabs ph <= 1001 / 1000 * K) (Fu : is_finite u = true) (Hu : Rabs (fB2R u) <= 4 * V).
Hypothesis Hk' : k + l + 295 / 10 <= k'.
Lemma step_arith : let L := l * (K * V) + 4004 / 1000 * (K * V) in let d := k * (ueps * (K * V)) + 25 * (ueps * (K * V)) in
  L + d <= big /\ d + ueps * (L + d) <= k' * (ueps * (K * V)).
Proof.
  pose proof KV_big as [_ B]. pose proof KV_pos as (_ & _ & P). destruct (ee (K * V) ltac:(lra)) as (E1 & E2 & E3). pose proof ueps_pos. cbv zeta. set (X := K * V) in *.
  assert (l * X <= 100 * X) by (apply Rmult_le_compat_r; lra). assert (k * (ueps * X) <= 100 * (ueps * X)) by (apply Rmult_le_compat_r; lra).
  assert ((k + l + 295 / 10) * (ueps * X) <= k' * (ueps * X)) by (apply Rmult_le_compat_r; lra).
  assert (ueps * (k * (ueps * X)) <= ueps * (100 * (ueps * X))) by (apply Rmult_le_compat_l; lra). split; [lra|]. lra.
Qed.
Lemma step_add : appr (fadd c (fmul f u)) (C + ph * fB2R u) (k' * (ueps * (K * V))) /\ Rabs (C + ph * fB2R u) <= (l + 4004 / 1000) * (K * V).
Proof.
  destruct (push_near f u ph Hf Hp Fu Hu) as [Pn Pl]. destruct step_arith as [A1 A2].
  assert (L : Rabs (C + ph * fB2R u) <= l * (K * V) + 4004 / 1000 * (K * V)) by (eapply Rle_trans; [apply Rabs_triang|]; lra).
  split; [exact (appr_add _ _ _ _ _ _ _ _ Hc Pn L A1 A2)|lra].
Qed.
Lemma step_sub : appr (fsub c (fmul f u)) (C - ph * fB2R u) (k' * (ueps * (K * V))) /\ Rabs (C - ph * fB2R u) <= (l + 4004 / 1000) * (K * V).
Proof.
  destruct (push_near f u ph Hf Hp Fu Hu) as [Pn Pl]. destruct step_arith as [A1 A2].
  assert (L : Rabs (C - ph * fB2R u) <= l * (K * V) + 4004 / 1000 * (K * V)) by (unfold Rminus; eapply Rle_trans; [apply Rabs_triang|]; rewrite Rabs_Ropp; lra).
  split; [exact (appr_sub _ _ _ _ _ _ _ _ Hc Pn L A1 A2)|lra].
Qed.
End Step.
