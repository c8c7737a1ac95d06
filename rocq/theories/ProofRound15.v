(** VSS collisions in binary64 along the x axis; energy of every VSS collision. *)
From Coq Require Import Reals Lra Lia ZArith Bool List.
From Flocq Require Import Core.Core IEEE754.BinarySingleNaN Relative.
From Verif Require Import Base Num ModelTerm ModelCollide SpecPhys SpecSet SpecRound ProofF64 ProofFloat ProofRound ProofRound2 ProofRound3 ProofRound4 ProofRound5 ProofRound6 ProofRound7.
From Coq Require Import List.
Import ListNotations.
Local Open Scope R_scope.

(** [dir_len] for a factor of either sign. *)
Section Direction.
Variables (V : R) (A B c s S : binary64) (kap : R).
Hypothesis HV : bpow radix2 (-400) <= V <= bpow radix2 400.
Hypothesis (FA : is_finite A = true) (FB : is_finite B = true) (Fc : is_finite c = true) (Fs : is_finite s = true) (FS : is_finite S = true).
Hypothesis (HA : 0 <= fB2R A <= 1) (HB : -1 <= fB2R B <= 1) (AB : Rabs (fB2R A * fB2R A + fB2R B * fB2R B - 1) <= 43 / 10 * ueps).
Hypothesis (Hc : Rabs (fB2R c) <= 1) (Hs : Rabs (fB2R s) <= 1) (HS : Rabs (fB2R S) <= 4 * V).
Hypothesis Hk : Rabs (fB2R s * fB2R s + fB2R c * fB2R c - 1) <= kap.

Lemma dira1 (x : binary64) : is_finite x = true -> Rabs (fB2R x) <= 1 -> is_finite (fmul x S) = true /\ Rabs (fB2R (fmul x S)) <= 4 * V /\
  Rabs (fB2R (fmul x S) - fB2R x * fB2R S) <= 41 / 10 * (ueps * V).
Proof using HV FS HS.
  intros F H. pose proof (V_pos V HV). pose proof (big1 V HV). pose proof (eta1 V HV). destruct (ee V ltac:(lra)) as (E1 & E2 & E3). pose proof ueps_pos.
  destruct (fmul_within x S F FS H) as [F1 L1]. split; [exact F1|]. split; [lra|].
  apply (appr_mul x (fB2R x) 0 S (fB2R S) 0 1 (4 * V) _ (appr_self _ F) (appr_self _ FS) H); [lra|lra|lra].
Qed.
Lemma dira2 (x : binary64) : is_finite x = true -> Rabs (fB2R x) <= 1 ->
  let w := fmul (fmul A x) S in is_finite w = true /\ Rabs (fB2R w) <= 4 * V /\
  Rabs (fB2R w * fB2R w - fB2R A * fB2R x * fB2R S * (fB2R A * fB2R x * fB2R S)) <= 66 * (ueps * (V * V)).
Proof using HV FS HS FA HA.
  intros F H w. pose proof (V_pos V HV). pose proof ueps_pos. destruct (fmul_within A x FA F) as [F1 L1]; [rewrite Rabs_pos_eq; lra|].
  destruct (dira1 (fmul A x) F1 ltac:(lra)) as (F2 & L2 & R2). split; [exact F2|]. split; [exact L2|].
  destruct (ee V ltac:(lra)) as (E1 & E2 & E3).
  assert (R1 : Rabs (fB2R (fmul A x) - fB2R A * fB2R x) <= 1001 / 1000 * ueps).
  { apply (appr_mul A (fB2R A) 0 x (fB2R x) 0 1 1 _ (appr_self _ FA) (appr_self _ F)); [rewrite Rabs_pos_eq; lra|exact H|pose proof big0; lra|pose proof eta0; lra]. }
  assert (R3 : Rabs (fB2R w - fB2R A * fB2R x * fB2R S) <= 82 / 10 * (ueps * V)).
  { unfold w. replace (fB2R (fmul (fmul A x) S) - fB2R A * fB2R x * fB2R S) with ((fB2R (fmul (fmul A x) S) - fB2R (fmul A x) * fB2R S) + (fB2R (fmul A x) - fB2R A * fB2R x) * fB2R S) by ring.
    eapply Rle_trans; [apply Rabs_triang|]. rewrite (Rabs_mult (_ - _)).
    assert (Rabs (fB2R (fmul A x) - fB2R A * fB2R x) * Rabs (fB2R S) <= 1001 / 1000 * ueps * (4 * V)) by (apply Rmult_le_compat; [apply Rabs_pos|apply Rabs_pos|lra|lra]). lra. }
  eapply Rle_trans; [apply (sq_diff _ _ _ (4 * V) R3 L2)|].
  - rewrite !Rabs_mult, (Rabs_pos_eq (fB2R A)) by lra. pose proof (Rabs_pos (fB2R x)). pose proof (Rabs_pos (fB2R S)). assert (fB2R A * Rabs (fB2R x) <= 1) by nra. nra.
  - assert (0 <= ueps * (V * V)) by nra. lra.
Qed.
Lemma dira_len : let ux := fB2R (fmul B S) in let uy := fB2R (fmul (fmul A c) S) in let uz := fB2R (fmul (fmul A s) S) in
  Rabs (ux * ux + uy * uy + uz * uz - fB2R S * fB2R S) <= 235 * (ueps * (V * V)) + 16 * (kap * (V * V)).
Proof.
  intros ux uy uz. pose proof (V_pos V HV). pose proof ueps_pos. destruct (dira1 B FB ltac:(apply Rabs_le; lra)) as (_ & L1 & R1). fold ux in L1, R1.
  destruct (dira2 c Fc Hc) as (_ & _ & R2). destruct (dira2 s Fs Hs) as (_ & _ & R3). fold uy in R2. fold uz in R3.
  assert (R0 : Rabs (ux * ux - fB2R B * fB2R S * (fB2R B * fB2R S)) <= 33 * (ueps * (V * V))).
  { eapply Rle_trans; [apply (sq_diff _ _ _ (4 * V) R1 L1)|].
    - rewrite Rabs_mult. assert (Rabs (fB2R B) <= 1) by (apply Rabs_le; lra). pose proof (Rabs_pos (fB2R B)). pose proof (Rabs_pos (fB2R S)). nra.
    - assert (0 <= ueps * (V * V)) by nra. lra. }
  set (a := fB2R A) in *. set (b := fB2R B) in *. set (c' := fB2R c) in *. set (s' := fB2R s) in *. set (S' := fB2R S) in *.
  assert (S2 : 0 <= S' * S' <= 16 * (V * V)) by (apply Rabs_le_inv in HS; split; nra).
  assert (Q : Rabs (S' * S' * (b * b + a * a * (s' * s' + c' * c')) - S' * S') <= 69 * (ueps * (V * V)) + 16 * (kap * (V * V))).
  { replace (S' * S' * (b * b + a * a * (s' * s' + c' * c')) - S' * S') with (S' * S' * ((a * a + b * b - 1) + a * a * (s' * s' + c' * c' - 1))) by ring.
    rewrite Rabs_mult, (Rabs_pos_eq (S' * S')) by lra.
    assert (Rabs (a * a + b * b - 1 + a * a * (s' * s' + c' * c' - 1)) <= 43 / 10 * ueps + kap).
    { eapply Rle_trans; [apply Rabs_triang|]. apply Rplus_le_compat; [exact AB|]. rewrite Rabs_mult, (Rabs_pos_eq (a * a)) by nra. assert (a * a <= 1) by nra. pose proof (Rabs_pos (s' * s' + c' * c' - 1)). assert (0 <= a * a) by nra. nra. }
    apply Rle_trans with (16 * (V * V) * (43 / 10 * ueps + kap)); [apply Rmult_le_compat; [lra|apply Rabs_pos|lra|assumption]|]. assert (0 <= ueps * (V * V)) by nra. lra. }
  apply Rabs_le_inv in Q, R0, R2, R3. apply Rabs_le. lra.
Qed.
End Direction.

Section Vss.
Variables (lm : libm) (V kap : R) (al : F64 lm) (v1 v2 : vec (F64 lm)) (r r' : F64 lm).
Hypothesis (HV : speed_ok V) (TR : trig_ok lm kap) (PO : pow_ok lm al) (W1 : within V v1) (W2 : within V v2).
Hypothesis (Fr : is_finite r = true) (Hr : 0 <= real64 r <= 1) (Fr' : is_finite r' = true) (Hr' : 0 <= real64 r' <= 1).
(** Whatever branch is taken, the relative speed is kept up to rounding and the perpendicular speed of a millionth. *)
Lemma vss_norm : Rabs (norm2 (realv (vssVel al (vsub v1 v2) r r')) - dist2 (realv v1) (realv v2)) <= 3000 * (ueps * (V * V)) + 16 * (kap * (V * V)) + 11 / 10000000000000.
Proof.
  destruct (vss_cases lm V kap al v1 v2 r r' HV TR PO W1 W2 Fr Hr Fr' Hr') as [_ Hb].
  destruct (vss_parts lm kap al v1 v2 r r' TR PO Fr Hr Fr' Hr') as (A & B & c & s & (FA & FB & Fc & Fs) & HA & HB & EA & Lc & Ls & Hk & Eu).
  destruct (perp_ok lm V v1 v2 HV W1 W2) as (FD & _ & HD).
  destruct (Bltb tol6 _) eqn:EB in Eu; [specialize (Hb EB); lra|]. rewrite EB in HD. clear Hb.
  destruct W1 as (X1 & Y1 & Z1), W2 as (X2 & Y2 & Z2). pose proof (V_pos V HV) as PV.
  destruct (rel_ok V HV _ _ X1 X2) as (Fx & Lx & Ex & _). destruct (rel_ok V HV _ _ Y1 Y2) as (Fy & Ly & Ey & _). destruct (rel_ok V HV _ _ Z1 Z2) as (Fz & Lz & Ez & _).
  destruct (D_near V _ _ HV Fy Fz Ly Lz) as (_ & HP & HN).
  cbn [vx vy vz vsub] in *. change (@nsub (F64 lm)) with fsub in *.
  set (x := fsub (vx v1) (vx v2)) in *. set (y := fsub (vy v1) (vy v2)) in *. set (z := fsub (vz v1) (vz v2)) in *.
  pose proof ueps_pos as HE. assert (VV : 0 < V * V) by (apply Rmult_lt_0_compat; lra). assert (EVV : 0 < ueps * (V * V)) by (apply Rmult_lt_0_compat; lra).
  pose proof (dira_len V A B c s x kap HV FA FB Fc Fs Fx HA HB EA Lc Ls ltac:(lra) Hk) as N. cbv zeta in N.
  set (D := fsqrt _) in *. assert (ND : fB2R D <= fB2R tol6). { destruct (Rle_dec (fB2R D) (fB2R tol6)) as [|Q]; [assumption|]. apply Rnot_le_lt in Q. discriminate (HD Q). }
  destruct tol6_ok as [_ HT]. assert (DD : fB2R D * fB2R D <= 101 / 100000000 * (101 / 100000000)) by (apply Rmult_le_compat; lra).
  set (rho := fB2R y * fB2R y + fB2R z * fB2R z) in *. assert (R0 : 0 <= rho) by (unfold rho; pose proof (Rle_0_sqr (fB2R y)) as q1; pose proof (Rle_0_sqr (fB2R z)) as q2; unfold Rsqr in *; lra).
  destruct (ee rho R0) as (U1 & U2 & U3). pose proof eta_tiny. pose proof ueta_pos. apply Rabs_le_inv in HN.
  assert (RR : rho <= 105 / 100000000000000) by lra.
  rewrite Eu. unfold norm2, dist2, realv. cbn [vx vy vz]. unfold real64 in *. apply Rabs_le_inv in N, Ex, Ey, Ez. apply Rabs_le. unfold rho in *. lra.
Qed.
End Vss.

(** The energy of any VSS collision. *)
Lemma vss_energy lm kap (al m1 m2 : F64 lm) V (p1 p2 : particle (F64 lm)) (r r' : F64 lm) : speed_ok V -> mass_ok m1 -> mass_ok m2 -> trig_ok lm kap -> pow_ok lm al ->
  within V (p_vel p1) -> within V (p_vel p2) -> is_finite r = true -> 0 <= real64 r <= 1 -> is_finite r' = true -> 0 <= real64 r' <= 1 ->
  let (q1, q2) := vss_collide (ReducedMass m1 m2) al p1 p2 r r' in
   Rabs (kinetic (real64 m1) (realv (p_vel q1)) + kinetic (real64 m2) (realv (p_vel q2))
        - (kinetic (real64 m1) (realv (p_vel p1)) + kinetic (real64 m2) (realv (p_vel p2))))
    <= (bpow radix2 (-41) + 2 * kap) * ((real64 m1 + real64 m2) * V ^ 2) + (real64 m1 + real64 m2) / 5000000000000.
Proof.
  intros HV M1 M2 TR PO W1 W2 Fr Hr Fr' Hr'. unfold vss_collide. cbn [p_vel setVelocity].
  pose proof (V_pos V HV) as PV. destruct (vss_cases lm V kap al _ _ r r' HV TR PO W1 W2 Fr Hr Fr' Hr') as [Wu _].
  pose proof (vss_norm lm V kap al _ _ r r' HV TR PO W1 W2 Fr Hr Fr' Hr') as Eu.
  set (u := vssVel al (vsub (p_vel p1) (p_vel p2)) r r') in *.
  pose proof (pair_energy lm m1 m2 V (9 * V) _ _ u HV M1 M2 W1 W2 Wu ltac:(lra)) as En.
  pose proof (x1_pos lm m1 M1) as P1. pose proof (x1_pos lm m2 M2) as P2.
  set (x1 := real64 m1) in *. set (x2 := real64 m2) in *. pose proof ueps_pos as HE.
  assert (EVV : 0 <= ueps * (V * V)) by (apply Rmult_le_pos; nra).
  assert (B41 : bpow radix2 (-41) = 4096 * ueps) by (unfold ueps; change (-41)%Z with (12 + -53)%Z; rewrite bpow_plus; reflexivity).
  rewrite B41. destruct (mu_le x1 x2 P1 P2) as [Mu0 Mu1]. set (m := x1 * x2 / (x1 + x2)) in *. set (N := norm2 (realv u) - dist2 _ _) in *.
  assert (HN : Rabs (m / 2 * N) <= (x1 + x2) / 8 * (3000 * (ueps * (V * V)) + 16 * (kap * (V * V)) + 11 / 10000000000000)).
  { rewrite Rabs_mult, (Rabs_pos_eq (m / 2)) by lra. apply Rmult_le_compat; [lra|apply Rabs_pos|lra|exact Eu]. }
  assert (0 <= (x1 + x2) * (ueps * (V * V))) by (apply Rmult_le_pos; lra).
  apply Rabs_le_inv in En, HN. apply Rabs_le. simpl pow. rewrite Rmult_1_r. lra.
Qed.
