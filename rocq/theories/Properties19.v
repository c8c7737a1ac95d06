(** C92, C93: collisions computed in binary64. *)
From Coq Require Import Reals Lra Lia ZArith Bool List.
From Flocq Require Import Core.Core IEEE754.BinarySingleNaN.
From Verif Require Import Base Num ModelTerm ModelCollide SpecPhys SpecSet SpecRound ProofCollide ProofFloat ProofDriver2 ProofRound ProofRound2 ProofRound3 ProofRound4 ProofRound7.
From Coq Require Import List.
Import ListNotations.
Local Open Scope R_scope.

(** The claim shared by the two models; [c] bounds the growth of the largest velocity component, [em] and [ee]
    are the relative errors of momentum and energy, and the energy claim holds on [ok]. *)
Definition rounded_collision {lm} (model : imodel (F64 lm)) (m1 m2 : F64 lm) (V c em ee : R) (ok : particle (F64 lm) -> particle (F64 lm) -> Prop) : Prop :=
  forall (p1 p2 : particle (F64 lm)) l (g : rng (F64 lm)) k, frng_ok g -> within V (p_vel p1) -> within V (p_vel p2) ->
  exists q1 q2,
    model_interact true model p1 p2 l g k = Ok (q1, q2, l, (k + 2)%nat) /\
    model_interact false model p1 p2 l g k = Ok (p1, p2, l ++ [q1; q2], (k + 2)%nat) /\
    within (c * V) (p_vel q1) /\ within (c * V) (p_vel q2) /\
    close3 (em * (real64 m1 + real64 m2) * V)
      (momentum2 (real64 m1) (realv (p_vel q1)) (real64 m2) (realv (p_vel q2)))
      (momentum2 (real64 m1) (realv (p_vel p1)) (real64 m2) (realv (p_vel p2))) /\
    (ok p1 p2 ->
     Rabs (kinetic (real64 m1) (realv (p_vel q1)) + kinetic (real64 m2) (realv (p_vel q2))
           - (kinetic (real64 m1) (realv (p_vel p1)) + kinetic (real64 m2) (realv (p_vel p2))))
       <= ee * ((real64 m1 + real64 m2) * V ^ 2)).

Lemma draw_ok {lm} (g : rng (F64 lm)) k : frng_ok g -> is_finite (g_rand g k) = true /\ 0 <= real64 (g_rand g k) <= 1.
Proof. intros H. destruct (H k) as (H0 & H1 & _). apply unit_closed; assumption. Qed.

(** C92.  Elastic collisions in binary64: whatever the masses, velocities and draws, all results are finite,
    no component exceeds six times the largest one before, and momentum and energy are conserved to
    2^-47 and 2^-43 (plus the error of sin^2+cos^2) relative to total mass and largest component. *)
Theorem C92_elastic : forall lm kap (m1 m2 : F64 lm) V, speed_ok V -> mass_ok m1 -> mass_ok m2 -> trig_ok lm kap ->
  rounded_collision (MElastic (ReducedMass m1 m2)) m1 m2 V 6 (bpow radix2 (-47)) (bpow radix2 (-43) + 2 * kap) (fun _ _ => True).
Proof.
  intros lm kap m1 m2 V HV M1 M2 TR p1 p2 l g k Hg W1 W2. destruct (draw_ok g k Hg) as [F0 H0]. destruct (draw_ok g (k + 1) Hg) as [F1 H1].
  pose proof (elastic_round lm kap m1 m2 V p1 p2 _ _ HV M1 M2 TR W1 W2 F0 H0 F1 H1) as H. unfold model_interact.
  destruct (elastic_collide (ReducedMass m1 m2) p1 p2 (g_rand g k) (g_rand g (k + 1))) as [q1 q2] eqn:E. exists q1, q2. destruct H as (A & B & C & D).
  split; [reflexivity|]. split; [rewrite collide_last_two_app; rewrite E; reflexivity|]. split; [exact A|]. split; [exact B|]. split; [exact C|]. intros _. exact D.
Qed.
Print Assumptions C92_elastic.

(** C93.  VSS collisions in binary64, for any exponent for which pow maps [0,1] into itself: all results are
    finite and momentum is conserved to 2^-46; energy to 2^-41 when the relative velocity has at least
    2e-6 perpendicular to the x axis. *)
Theorem C93_vss : forall lm kap (al m1 m2 : F64 lm) V, speed_ok V -> mass_ok m1 -> mass_ok m2 -> trig_ok lm kap -> pow_ok lm al ->
  rounded_collision (MVSS (ReducedMass m1 m2) al) m1 m2 V 11 (bpow radix2 (-46)) (bpow radix2 (-41) + 2 * kap)
    (fun p1 p2 => let w1 := realv (p_vel p1) in let w2 := realv (p_vel p2) in
       2 / 1000000 <= R_sqrt.sqrt ((vy w1 - vy w2) ^ 2 + (vz w1 - vz w2) ^ 2)).
Proof.
  intros lm kap al m1 m2 V HV M1 M2 TR PO p1 p2 l g k Hg W1 W2. destruct (draw_ok g k Hg) as [F0 H0]. destruct (draw_ok g (k + 1) Hg) as [F1 H1].
  pose proof (vss_round lm kap al m1 m2 V p1 p2 _ _ HV M1 M2 TR PO W1 W2 F0 H0 F1 H1) as H. unfold model_interact.
  destruct (vss_collide (ReducedMass m1 m2) al p1 p2 (g_rand g k) (g_rand g (k + 1))) as [q1 q2] eqn:E. exists q1, q2. destruct H as (A & B & C & D).
  split; [reflexivity|]. split; [rewrite collide_last_two_app; rewrite E; reflexivity|]. split; [exact A|]. split; [exact B|]. split; [exact C|]. exact D.
Qed.
Print Assumptions C93_vss.

(** A case: two particles of mass 1 and 4 with a library whose sine is 0 and cosine 1. *)
Definition rlm : libm := mkLibm (fun x => x) (fun x => x) (fun x => x) (fun x _ => x) (fun _ => fofZ 0) (fun _ => fofZ 1) (fofZ 3) (fofZ 2).
Definition rA : particle (F64 rlm) := mkParticle (N:=F64 rlm) (V3 (N:=F64 rlm) (fofZ 0) (fofZ 0) (fofZ 0)) (V3 (N:=F64 rlm) (fofZ 3) (fofZ (-2)) (fofZ 4)) 0%Z (fofZ 1).
Definition rB : particle (F64 rlm) := mkParticle (N:=F64 rlm) (V3 (N:=F64 rlm) (fofZ 0) (fofZ 0) (fofZ 0)) (V3 (N:=F64 rlm) (fofZ 1) (fofZ 0) (fofZ (-1))) 1%Z (fofZ 1).
Definition rG : rng (F64 rlm) := mkRng (N:=F64 rlm) (fun k => fofZ (if Nat.even k then 1 else 0)) (fun _ => fofZ 0).
Lemma fofZ_val z : (Z.abs z <= 2 ^ 53)%Z -> real64 (fofZ z) = IZR z. Proof. intros H. apply fofZ_exact, H. Qed.
Lemma fofZ_fin z : (Z.abs z <= 2 ^ 53)%Z -> is_finite (fofZ z) = true. Proof. intros H. apply fofZ_exact, H. Qed.
Lemma rG_ok : frng_ok rG.
Proof. intros k. unfold rG; cbn [g_rand g_exc]. destruct (Nat.even k); (split; [reflexivity|]; split; [reflexivity|]; split; reflexivity). Qed.
Lemma r_trig : trig_ok rlm 0.
Proof.
  split; [split; [apply fofZ_fin; cbn; lia|]; cbn [lm_pi rlm]; rewrite fofZ_val by (cbn; lia); lra|]. intros x _ _. cbn [lm_sin lm_cos rlm].
  rewrite !fofZ_val by (cbn; lia). split; [split; [apply fofZ_fin; cbn; lia|rewrite Rabs_R0; lra]|]. split; [split; [apply fofZ_fin; cbn; lia|rewrite Rabs_pos_eq; lra]|].
  replace (0 ^ 2 + 1 ^ 2 - 1) with 0 by ring. rewrite Rabs_R0. lra.
Qed.
Lemma r_pow : pow_ok rlm (fofZ 2). Proof. intros x F H. split; assumption. Qed.
Lemma r_mass z : (1 <= z <= 1000)%Z -> mass_ok (fofZ z).
Proof.
  intros H. split; [apply fofZ_fin; cbn; lia|]. rewrite fofZ_val by (cbn; lia). destruct H as [H1 H2]. apply IZR_le in H1, H2. split.
  - apply Rle_trans with 1; [change 1 with (bpow radix2 0); apply bpow_le; lia|lra].
  - apply Rle_trans with (bpow radix2 10); [cbn; lra|apply bpow_le; lia].
Qed.
Lemma r_speed : speed_ok 4. Proof. split; [apply Rle_trans with (bpow radix2 2); [apply bpow_le; lia|cbn; lra]|apply Rle_trans with (bpow radix2 2); [cbn; lra|apply bpow_le; lia]]. Qed.
Lemma r_within p : p = rA \/ p = rB -> within 4 (p_vel p).
Proof.
  intros [->| ->]; (split; [|split]); cbn [p_vel rA rB vx vy vz]; (split; [apply fofZ_fin; cbn; lia|rewrite fofZ_val by (cbn; lia); apply Rabs_le; lra]).
Qed.
Example C92_C93_case : (exists q1 q2, model_interact true (MElastic (ReducedMass (N:=F64 rlm) (fofZ 1) (fofZ 4))) rA rB [] rG 0 = Ok (q1, q2, [], 2%nat) /\
    Rabs (kinetic 1 (realv (p_vel q1)) + kinetic 4 (realv (p_vel q2)) - 37 / 2) <= bpow radix2 (-43) * (5 * 16)) /\
  exists q1 q2, model_interact true (MVSS (ReducedMass (N:=F64 rlm) (fofZ 1) (fofZ 4)) (fofZ 2)) rA rB [] rG 0 = Ok (q1, q2, [], 2%nat) /\
    Rabs (kinetic 1 (realv (p_vel q1)) + kinetic 4 (realv (p_vel q2)) - 37 / 2) <= bpow radix2 (-41) * (5 * 16).
Proof.
  assert (K : kinetic 1 (realv (p_vel rA)) + kinetic 4 (realv (p_vel rB)) = 37 / 2).
  { unfold kinetic, norm2, realv. cbn [p_vel rA rB vx vy vz]. rewrite !fofZ_val by (cbn; lia). lra. }
  split.
  - destruct (C92_elastic rlm 0 (fofZ 1) (fofZ 4) 4 r_speed (r_mass 1 ltac:(lia)) (r_mass 4 ltac:(lia)) r_trig rA rB [] rG 0%nat rG_ok (r_within _ (or_introl eq_refl)) (r_within _ (or_intror eq_refl))) as (q1 & q2 & E & _ & _ & _ & _ & H).
    specialize (H I). rewrite !fofZ_val in H by (cbn; lia). exists q1, q2. split; [exact E|]. rewrite K in H. eapply Rle_trans; [exact H|]. right. ring.
  - destruct (C93_vss rlm 0 (fofZ 2) (fofZ 1) (fofZ 4) 4 r_speed (r_mass 1 ltac:(lia)) (r_mass 4 ltac:(lia)) r_trig r_pow rA rB [] rG 0%nat rG_ok (r_within _ (or_introl eq_refl)) (r_within _ (or_intror eq_refl))) as (q1 & q2 & E & _ & _ & _ & _ & H).
    rewrite !fofZ_val in H by (cbn; lia). exists q1, q2. split; [exact E|]. rewrite K in H. eapply Rle_trans; [apply H|right; ring].
    unfold realv. cbn [p_vel rA rB vx vy vz]. rewrite !fofZ_val by (cbn; lia). replace 2 with (R_sqrt.sqrt (2 * 2)) at 1 by (apply sqrt_square; lra).
    apply Rle_trans with 2; [rewrite sqrt_square; lra|]. rewrite <- (sqrt_square 2) at 1 by lra. apply sqrt_le_1_alt. lra.
Qed.
