(** Statement-level lemmas for C01-C06. *)
From Coq Require Import Reals Lra Lia String List ZArith Bool.
From Verif Require Import Base Num ModelTerm ModelCollide SpecTerm SpecPhys ProofCollide ProofInelastic.
Import ListNotations.
Local Open Scope R_scope.

Lemma top_elastic m1 m2 (p1 p2 : rpart) l g k : 0 < m1 -> 0 < m2 ->
  exists q1 q2,
    model_interact true (MElastic (ReducedMass (N:=RNum) m1 m2)) p1 p2 l g k = Ok (q1, q2, l, (k + 2)%nat) /\
    momentum2 m1 (p_vel q1) m2 (p_vel q2) = momentum2 m1 (p_vel p1) m2 (p_vel p2) /\
    (0 <= g_rand g k <= 1 ->
     relspeed (p_vel q1) (p_vel q2) = relspeed (p_vel p1) (p_vel p2) /\
     kinetic m1 (p_vel q1) + kinetic m2 (p_vel q2) = kinetic m1 (p_vel p1) + kinetic m2 (p_vel p2)).
Proof.
  intros H1 H2. destruct (elastic_out_in (ReducedMass (N:=RNum) m1 m2) p1 p2 l g k) as (q1 & q2 & E & _ & _ & _ & _ & _ & _ & _ & Eq).
  exists q1, q2. split; [assumption|].
  pose proof (elastic_momentum m1 m2 p1 p2 (g_rand g k) (g_rand g (k + 1)) H1 H2) as Hm.
  pose proof (elastic_energy m1 m2 p1 p2 (g_rand g k) (g_rand g (k + 1)) H1 H2) as He.
  cbv zeta in *. rewrite <- Eq in *. cbn [fst snd] in *. auto.
Qed.

Lemma top_momentum m1 m2 (p1 p2 : rpart) l g k : 0 < m1 -> 0 < m2 ->
  exists q1 q2,
    model_interact true (MElastic (ReducedMass (N:=RNum) m1 m2)) p1 p2 l g k = Ok (q1, q2, l, (k + 2)%nat) /\
    momentum2 m1 (p_vel q1) m2 (p_vel q2) = momentum2 m1 (p_vel p1) m2 (p_vel p2).
Proof. intros H1 H2. destruct (top_elastic m1 m2 p1 p2 l g k H1 H2) as (q1 & q2 & ? & ? & _). eauto. Qed.
Lemma top_energy m1 m2 (p1 p2 : rpart) l g k : 0 < m1 -> 0 < m2 -> rng_ok g ->
  exists q1 q2,
    model_interact true (MElastic (ReducedMass (N:=RNum) m1 m2)) p1 p2 l g k = Ok (q1, q2, l, (k + 2)%nat) /\
    relspeed (p_vel q1) (p_vel q2) = relspeed (p_vel p1) (p_vel p2) /\
    kinetic m1 (p_vel q1) + kinetic m2 (p_vel q2) = kinetic m1 (p_vel p1) + kinetic m2 (p_vel p2).
Proof.
  intros H1 H2 Hg. destruct (top_elastic m1 m2 p1 p2 l g k H1 H2) as (q1 & q2 & ? & ? & H).
  exists q1, q2. split; [assumption|]. apply H, Hg.
Qed.


Lemma top_iso m1 m2 (p1 p2 : rpart) l (d : rvec) : 0 < m1 -> 0 < m2 -> norm2 d = 1 ->
  exists g, rng_ok g /\ forall k, exists q1 q2,
    model_interact true (MElastic (ReducedMass (N:=RNum) m1 m2)) p1 p2 l g (2 * k) = Ok (q1, q2, l, (2 * k + 2)%nat) /\
    let s := relspeed (p_vel p1) (p_vel p2) in
    relvel q1 q2 = V3 (N:=RNum) (s * vx d)%R (s * vy d)%R (s * vz d)%R.
Proof.
  intros H1 H2 Hd. destruct (elastic_iso m1 m2 p1 p2 d H1 H2 Hd) as (r & r' & Hr & Hr' & E1 & E2 & E3).
  exists (mkRng (N:=RNum) (fun k => if Nat.even k then r else r') (fun _ => 0)). split.
  - intros k; cbn. split; [destruct (Nat.even k); assumption|lra].
  - intros k. destruct (elastic_out_in (ReducedMass (N:=RNum) m1 m2) p1 p2 l
        (mkRng (N:=RNum) (fun k => if Nat.even k then r else r') (fun _ => 0)) (2 * k)) as (q1 & q2 & E & _ & _ & _ & _ & _ & _ & _ & Eq).
    exists q1, q2. split; [assumption|]. cbv zeta in *. cbn [g_rand] in Eq.
    rewrite Nat.even_mul in Eq. cbn [Nat.even orb] in Eq.
    replace (Nat.even (2 * k + 1)) with false in Eq.
    2:{ symmetry. rewrite Nat.even_add, Nat.even_mul. reflexivity. }
    rewrite <- Eq in *. cbn [fst snd] in *. unfold relvel. rewrite E1, E2, E3. reflexivity.
Qed.

(** VSS *)
Lemma top_vss m1 m2 (al : R) (p1 p2 : rpart) l (g : rng RNum) k : 0 < m1 -> 0 < m2 ->
  let v := relvel p1 p2 in
  let D := R_sqrt.sqrt (vy v ^ 2 + vz v ^ 2) in
  let B := 2 * Rpow (g_rand g k) al - 1 in
  exists q1 q2,
    model_interact true (MVSS (ReducedMass (N:=RNum) m1 m2) al) p1 p2 l g k = Ok (q1, q2, l, (k + 2)%nat) /\
    momentum2 m1 (p_vel q1) m2 (p_vel q2) = momentum2 m1 (p_vel p1) m2 (p_vel p2) /\
    (0 <= g_rand g k <= 1 -> 0 <= al ->
      (1 / 1000000 < D \/ D = 0 ->
        norm2 (relvel q1 q2) = norm2 v /\
        kinetic m1 (p_vel q1) + kinetic m2 (p_vel q2) = kinetic m1 (p_vel p1) + kinetic m2 (p_vel p2) /\
        dot3 v (relvel q1 q2) = norm2 v * B) /\
      (D <= 1 / 1000000 ->
        norm2 (relvel q1 q2) = norm2 v - D ^ 2 /\ D ^ 2 <= 1 / 1000000000000)).
Proof.
  intros H1 H2 v D B.
  destruct (vss_out_in (ReducedMass (N:=RNum) m1 m2) al p1 p2 l g k) as (q1 & q2 & E & _ & _ & _ & _ & _ & _ & _ & Eq).
  exists q1, q2. split; [assumption|].
  unfold vss_collide in Eq. apply pair_equal_spec in Eq as [-> ->]. cbn [setVelocity p_vel].
  split; [apply split_momentum; assumption|].
  intros Hr Hal.
  destruct (vss_core al (g_rand g k) (g_rand g (k + 1)) v Hr Hal) as (C1 & C2 & C3).
  change (vsub (p_vel p1) (p_vel p2)) with v.
  set (W := vssVel (N:=RNum) al v (g_rand g k) (g_rand g (k + 1))) in *.
  assert (HW : relvel (setVelocity p1 (vadd (VelCM (ReducedMass (N:=RNum) m1 m2) (p_vel p1) (p_vel p2)) (vscale (over_m1 (ReducedMass (N:=RNum) m1 m2)) W)))
     (setVelocity p2 (vsub (VelCM (ReducedMass (N:=RNum) m1 m2) (p_vel p1) (p_vel p2)) (vscale (over_m2 (ReducedMass (N:=RNum) m1 m2)) W))) = W).
  { exact (split_rel m1 m2 (p_vel p1) (p_vel p2) W H1 H2). }
  rewrite HW. change (Dperp v) with D in *.
  assert (HD0 : 0 <= D) by apply sqrt_pos.
  split.
  - intros HD. rewrite split_energy by assumption. rewrite dist2_vsub. fold v. change (vsub (p_vel p1) (p_vel p2)) with v.
    destruct HD as [HD|HD].
    + destruct (C1 HD) as [N1 N2]. rewrite N1, N2. unR. split; [reflexivity|]. split; [ring|]. reflexivity.
    + assert (HD' : D <= 1 / 1000000) by lra.
      rewrite (C2 HD'), (C3 HD), HD. unR. split; [ring|]. split; [ring|]. reflexivity.
  - intros HD. split; [exact (C2 HD)|]. nra.
Qed.

(** The loss in the cone is real. *)
Lemma top_vss_loss : exists (p1 p2 : rpart) g m1 m2, 0 < m1 /\ 0 < m2 /\ rng_ok g /\
  forall l k, exists q1 q2,
    model_interact true (MVSS (ReducedMass (N:=RNum) m1 m2) 1) p1 p2 l g k = Ok (q1, q2, l, (k + 2)%nat) /\
    kinetic m1 (p_vel q1) + kinetic m2 (p_vel q2) < kinetic m1 (p_vel p1) + kinetic m2 (p_vel p2).
Proof.
  set (v := V3 (N:=RNum) 1%R (/ 1000000)%R 0%R).
  exists (mkParticle (N:=RNum) vzero v 0 1%R), (mkParticle (N:=RNum) vzero vzero 0 1%R), (mkRng (N:=RNum) (fun _ => 1) (fun _ => 0)), 1, 1.
  split; [lra|]. split; [lra|]. split; [intros k; cbn; lra|].
  intros l k.
  destruct (vss_out_in (ReducedMass (N:=RNum) 1 1) 1 (mkParticle (N:=RNum) vzero v 0 1%R) (mkParticle (N:=RNum) vzero vzero 0 1%R) l
     (mkRng (N:=RNum) (fun _ => 1) (fun _ => 0)) k) as (q1 & q2 & E & _ & _ & _ & _ & _ & _ & _ & Eq).
  exists q1, q2. split; [assumption|].
  unfold vss_collide in Eq. cbn [p_vel g_rand] in Eq. apply pair_equal_spec in Eq as [-> ->]. cbn [setVelocity p_vel].
  rewrite split_energy by lra.
  assert (E0 : vsub v vzero = v).
  { unfold v, vsub, vzero; cbn [vx vy vz]; unR. f_equal; ring. }
  rewrite dist2_vsub, E0, rm_val.
  destruct (vss_core 1 1 1 v) as (_ & C2 & _); [lra|lra|].
  assert (HD : Dperp v = / 1000000).
  { unfold Dperp, v; cbn [vx vy vz]. replace ((/ 1000000) ^ 2 + 0 ^ 2) with ((/ 1000000)²) by (unfold Rsqr; ring).
    apply sqrt_Rsqr. lra. }
  rewrite HD in C2. change (T RNum) with R in *. unR. rewrite C2 by lra. nra.
Qed.

Lemma Rpow_1_r r : 0 <= r -> Rpow r 1 = r.
Proof.
  intros. unfold Rpow. destruct (Req_EM_T r 0) as [->|].
  - destruct (Req_EM_T 1 0); lra.
  - apply Rpower_1. lra.
Qed.
