(** Supplements to C06, C20 and C36. *)
From Coq Require Import Reals Lra Lia ZArith Bool List.
From Flocq Require Import Core IEEE754.BinarySingleNaN.
From Verif Require Import Base Num ModelTerm ModelCollide ModelXsec ModelSet SpecPhys SpecXsec SpecSet
  ProofCollide ProofTop1 ProofXsec ProofSelect ProofSet Properties1 Properties2 Properties3.
From Coq Require Import List.
Import ListNotations.
Local Open Scope R_scope.

(** C06.  With exponent 1 and the same draws the deflection cosine of the VSS model is the
    cosine, relative to the x axis, of the isotropic model. *)
Theorem C06_isotropic : forall m1 m2 (p1 p2 : rpart) l (g : rng RNum) k, 0 < m1 -> 0 < m2 -> 0 <= g_rand g k <= 1 ->
  let v := relvel p1 p2 in
  let D := R_sqrt.sqrt (vy v ^ 2 + vz v ^ 2) in
  1 / 1000000 < D \/ D = 0 ->
  exists q1 q2 e1 e2,
    model_interact true (MVSS (ReducedMass (N:=RNum) m1 m2) 1) p1 p2 l g k = Ok (q1, q2, l, (k + 2)%nat) /\
    model_interact true (MElastic (ReducedMass (N:=RNum) m1 m2)) p1 p2 l g k = Ok (e1, e2, l, (k + 2)%nat) /\
    dot3 v (relvel q1 q2) = R_sqrt.sqrt (norm2 v) * vx (relvel e1 e2).
Proof.
  intros m1 m2 p1 p2 l g k H1 H2 Hr v D HD.
  destruct (top_vss m1 m2 1 p1 p2 l g k H1 H2) as (q1 & q2 & E & _ & G). destruct (G Hr ltac:(lra)) as [G1 _]. destruct (G1 HD) as (_ & _ & Hd).
  exists q1, q2. do 2 eexists. split; [exact E|]. split; [reflexivity|]. fold v in Hd. etransitivity; [exact Hd|].
  rewrite Rpow_1_r by apply Hr.
  pose proof (split_rel m1 m2 (p_vel p1) (p_vel p2) (isoVel (N:=RNum) (g_rand g k) (g_rand g (k + 1)) (vabs (vsub (p_vel p1) (p_vel p2)))) H1 H2) as Hs.
  cbv zeta in Hs. apply (f_equal vx) in Hs. unfold relvel. cbn [vx p_vel setVelocity]. rewrite vabs_relspeed in *.
  assert (En : R_sqrt.sqrt (norm2 v) = relspeed (p_vel p1) (p_vel p2)) by reflexivity.
  rewrite En. unfold isoVel at 1 in Hs. cbn [vx] in Hs. etransitivity; [|apply f_equal; symmetry; exact Hs].
  assert (Hn : 0 <= norm2 v) by (unfold norm2; nra). rewrite <- (sqrt_sqrt (norm2 v) Hn) at 1. rewrite En. unfold isoVel. cbn [vx]. unR. ring.
Qed.
Print Assumptions C06_isotropic.
Example C06_isotropic_case : (0 <= 3 / 4 <= 1) /\ exists q1 q2 e1 e2 : rpart,
  let g := mkRng (N:=RNum) (fun _ => 3 / 4) (fun _ => 0) in
  model_interact true (MVSS (ReducedMass (N:=RNum) 1 1) 1) exA exB [] g 0 = Ok (q1, q2, [], 2%nat) /\
  model_interact true (MElastic (ReducedMass (N:=RNum) 1 1)) exA exB [] g 0 = Ok (e1, e2, [], 2%nat) /\
  dot3 (relvel exA exB) (relvel q1 q2) = R_sqrt.sqrt (norm2 (relvel exA exB)) * vx (relvel e1 e2).
Proof.
  split; [lra|]. apply (C06_isotropic 1 1 exA exB [] (mkRng (N:=RNum) (fun _ => 3 / 4) (fun _ => 0)) 0); [lra|lra|cbn; lra|]. left. exact C05_case.
Qed.

(** C20.  The value: a power law in the collision energy, guarded by the smallest normal
    number. *)
Theorem C20_value : forall K fuel allowed inf ninf tol solve (mu : reducedMass RNum) (i : vhsInfo RNum) t v,
  0 < rm_value mu -> 0 < K -> 0 < vhs_Tref i -> let E := declared_threshold mu t in 0 <= E -> 0 <= v -> E <= rm_value mu * v ^ 2 / 2 ->
  exists c s, xs_load (N:=RNum) fuel allowed inf ninf tol solve mu (DVHS i t) = Ok c /\ sigma_is K c v s /\
    s * Rpower (rm_value mu * v ^ 2 / 2 + bpow radix2 (-1023)) (vhs_visc i - 1 / 2)
      = vhs_cs i * vhs_ginv i * Rpower (K * vhs_Tref i) (vhs_visc i - 1 / 2).
Proof.
  intros K fuel allowed inf ninf tol solve mu i t v Hmu HK HT E HE Hv Hle. unfold xs_load. change (@n0 RNum) with 0. rewrite load_thr. fold E.
  rewrite set_thr_ok by assumption. cbn [obind]. do 2 eexists. split; [reflexivity|]. split.
  - unfold sigma_is; cbn [sigma]. unR. apply thr_v in Hle; [|assumption..]. destruct (Rltb_spec v (R_sqrt.sqrt (E / (1 / 2 * rm_value mu)))); [lra|]. reflexivity.
  - unfold vhs_sigma. unX. change (Raux.bpow radix2 (-1022)) with (bpow radix2 (1 + -1023)). rewrite bpow_plus. change (bpow radix2 1) with 2.
    pose proof (bpow_gt_0 radix2 (-1023)) as Hb. set (b := bpow radix2 (-1023)) in *.
    assert (P1 : 0 < rm_value mu * (v * v) + 2 * b) by nra. assert (P2 : 0 < 2 * K * vhs_Tref i) by (apply Rmult_lt_0_compat; lra).
    unfold Rpow. destruct (Req_EM_T _ 0) as [e|_]. { exfalso. assert (0 < 2 * K * vhs_Tref i / (rm_value mu * (v * v) + 2 * b)) by (apply Rdiv_lt_0_compat; assumption). lra. }
    set (p := vhs_visc i - 1 / 2). replace (2 * K * vhs_Tref i / (rm_value mu * (v * v) + 2 * b)) with (K * vhs_Tref i * / (rm_value mu * v ^ 2 / 2 + b)) by (field; nra).
    assert (P3 : 0 < rm_value mu * v ^ 2 / 2 + b) by nra.
    rewrite <- Rpower_mult_distr by (try apply Rinv_0_lt_compat; nra).
    assert (Q : Rpower (/ (rm_value mu * v ^ 2 / 2 + b)) p * Rpower (rm_value mu * v ^ 2 / 2 + b) p = 1).
    { rewrite Rpower_mult_distr by (try apply Rinv_0_lt_compat; assumption). rewrite Rinv_l by lra. unfold Rpower. rewrite ln_1, Rmult_0_r. apply exp_0. }
    transitivity (vhs_cs i * vhs_ginv i * Rpower (K * vhs_Tref i) p * (Rpower (/ (rm_value mu * v ^ 2 / 2 + b)) p * Rpower (rm_value mu * v ^ 2 / 2 + b) p)); [ring|rewrite Q; ring].
Qed.
Print Assumptions C20_value.
Example C20_value_case : exists c s, xs_load (N:=RNum) 0 true 0 0 dtol dsolve mu2 (DVHS (mkVHS (N:=RNum) 5 300 (3 / 4) 1) None) = Ok c /\ sigma_is 1 c 3 s /\
  s * Rpower (rm_value mu2 * 3 ^ 2 / 2 + bpow radix2 (-1023)) (3 / 4 - 1 / 2) = 5 * 1 * Rpower (1 * 300) (3 / 4 - 1 / 2).
Proof.
  apply (C20_value 1 0 true 0 0 dtol dsolve mu2 (mkVHS (N:=RNum) 5 300 (3 / 4) 1) None 3 mu2_pos); cbn [declared_threshold vhs_Tref]; try rewrite mu2_val; unR; lra.
Qed.

(** C36.  The variant that may select a particle twice: each position in its own range, two
    draws, and every pair is possible, equal positions included. *)
Theorem C36_self : forall lm (a b : range), (0 < Z.of_nat (rsize a) < 2 ^ 31)%Z -> (0 < Z.of_nat (rsize b) < 2 ^ 31)%Z ->
  (forall (g : rng (F64 lm)) k, frng_ok g -> exists i j, selectRandomPair_self a b g k = Ok (i, j, (k + 2)%nat) /\ in_range i a /\ in_range j b) /\
  (forall i j, in_range i a -> in_range j b -> exists g : rng (F64 lm), frng_ok g /\ forall k, selectRandomPair_self a b g (2 * k) = Ok (i, j, (2 * k + 2)%nat)).
Proof.
  intros lm a b Ha Hb. split.
  - intros g k Hg. destruct (frand_pos g a Hg ltac:(lia)) as [_ Fa]. destruct (frand_pos g b Hg ltac:(lia)) as [_ Fb].
    destruct (Fa ltac:(lia) k) as (i & Ei & Hi). destruct (Fb ltac:(lia) (k + 1)%nat) as (j & Ej & Hj).
    exists i, j. unfold selectRandomPair_self. rewrite Ei. cbn [obind]. rewrite Ej. auto.
  - intros i j Hi Hj. destruct (frand_reach (lm:=lm) a i Hi ltac:(lia)) as (e & He0 & He1 & He). destruct (frand_reach (lm:=lm) b j Hj ltac:(lia)) as (e' & He0' & He1' & He').
    exists (mkRng (N:=F64 lm) (fun _ => fhalf) (fun n => if Nat.even n then e else e')). split.
    + intros n. cbn [g_rand g_exc]. split; [vm_compute; reflexivity|]. split; [vm_compute; reflexivity|]. destruct (Nat.even n); split; assumption.
    + intros k. unfold selectRandomPair_self. rewrite (He _ (2 * k)%nat) by (cbn [g_exc]; rewrite Nat.even_mul; reflexivity). cbn [obind].
      rewrite (He' _ (2 * k + 1)%nat) by (cbn [g_exc]; rewrite Nat.even_add, Nat.even_mul; reflexivity). reflexivity.
Qed.
Print Assumptions C36_self.
Example C36_self_case : pair_of (selectRandomPair_self (N:=F) (2, 7)%nat (4, 9)%nat fG2 0) = (6, 6, 2)%nat /\ (0 < Z.of_nat (rsize (2, 7)%nat) < 2 ^ 31)%Z.
Proof. split; vm_compute; [reflexivity|split; reflexivity]. Qed.
