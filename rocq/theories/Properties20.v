(** C94, C95: inelastic collisions computed in binary64. *)
From Coq Require Import Reals Lra Lia ZArith Bool List String.
From Flocq Require Import Core.Core IEEE754.BinarySingleNaN.
From Verif Require Import Base Num ModelTerm ModelCollide ModelFactories SpecTerm SpecPhys SpecSet SpecRound ProofRound14 Properties1 Properties19.
From Coq Require Import List.
Import ListNotations.
Local Open Scope R_scope.

(** C94.  A loaded reaction with two products in binary64.  [V] bounds the velocity components, [K]^2 the ratio of the
    reduced masses; masses balance up to 2^-50 and the energy change leaves 2^-47 mu V^2.  Then no velocity is NaN or
    infinite or exceeds 6 K V, momentum is that of the reactants to 2^-47 K, and kinetic energy that of the reactants
    plus the declared change to 2^-43 K^2, relative to total mass and V. *)
Theorem C94_two_products : forall lm kap db spf parse fcm fcq kec thrE (e : eqcore (F64 lm)) model mA mB M0 M1 V K inplace (p1 p2 : particle (F64 lm)) l g k,
  reaction (N:=F64 lm) mass_ok db e mA mB [M0; M1] -> hasExpressions (e_products e) = false ->
  inelastic_new_load db spf parse fcm fcq kec thrE e = Ok model ->
  trig_ok lm kap -> speed_ok V -> 1 <= K <= bpow radix2 99 -> frng_ok g -> within V (p_vel p1) -> within V (p_vel p2) ->
  match kec with Some d => is_finite d = true | None => is_finite thrE = true end ->
  let xA := real64 mA in let xB := real64 mB in
  let dE := match kec with Some d => real64 d | None => - real64 thrE end in
  gain_ok V (rmass xA xB) (dist2 (realv (p_vel p1)) (realv (p_vel p2))) dE ->
  balanced (xA + xB) (real64 M0 + real64 M1) -> rmass xA xB <= K ^ 2 * rmass (real64 M0) (real64 M1) ->
  exists q1 q2, model_interact inplace model p1 p2 l g k = Ok (p1, p2, l ++ [q1; q2], (k + 2)%nat) /\
    within (6 * (K * V)) (p_vel q1) /\ within (6 * (K * V)) (p_vel q2) /\
    close3 (bpow radix2 (-47) * (K * ((xA + xB) * V)))
      (momentum2 (real64 M0) (realv (p_vel q1)) (real64 M1) (realv (p_vel q2))) (momentum2 xA (realv (p_vel p1)) xB (realv (p_vel p2))) /\
    Rabs (kinetic (real64 M0) (realv (p_vel q1)) + kinetic (real64 M1) (realv (p_vel q2))
          - (kinetic xA (realv (p_vel p1)) + kinetic xB (realv (p_vel p2)) + dE)) <= (bpow radix2 (-43) * K ^ 2 + 2 * kap) * ((xA + xB) * V ^ 2).
Proof. exact react22_round. Qed.
Print Assumptions C94_two_products.

(** C95.  The same with three products. *)
Theorem C95_three_products : forall lm kap db spf parse fcm fcq kec thrE (e : eqcore (F64 lm)) model mA mB M0 M1 M2 V K inplace (p1 p2 : particle (F64 lm)) l g k,
  reaction (N:=F64 lm) mass_ok db e mA mB [M0; M1; M2] -> hasExpressions (e_products e) = false ->
  inelastic_new_load db spf parse fcm fcq kec thrE e = Ok model ->
  trig_ok lm kap -> speed_ok V -> 1 <= K <= bpow radix2 99 -> frng_ok g -> within V (p_vel p1) -> within V (p_vel p2) ->
  match kec with Some d => is_finite d = true | None => is_finite thrE = true end ->
  let xA := real64 mA in let xB := real64 mB in
  let dE := match kec with Some d => real64 d | None => - real64 thrE end in
  gain_ok V (rmass xA xB) (dist2 (realv (p_vel p1)) (realv (p_vel p2))) dE -> real64 M1 + real64 M2 <= bpow radix2 300 ->
  balanced (xA + xB) (real64 M0 + real64 M1 + real64 M2) ->
  rmass xA xB <= K ^ 2 * rmass (real64 M0) (real64 M1 + real64 M2) -> rmass xA xB <= K ^ 2 * rmass (real64 M1) (real64 M2) ->
  exists q1 q2 q3, model_interact inplace model p1 p2 l g k = Ok (p1, p2, l ++ [q1; q2; q3], (k + 5)%nat) /\
    within (11 * (K * V)) (p_vel q1) /\ within (11 * (K * V)) (p_vel q2) /\ within (11 * (K * V)) (p_vel q3) /\
    close3 (bpow radix2 (-46) * (K * ((xA + xB) * V)))
      (momentum3 (real64 M0) (realv (p_vel q1)) (real64 M1) (realv (p_vel q2)) (real64 M2) (realv (p_vel q3))) (momentum2 xA (realv (p_vel p1)) xB (realv (p_vel p2))) /\
    Rabs (kinetic (real64 M0) (realv (p_vel q1)) + kinetic (real64 M1) (realv (p_vel q2)) + kinetic (real64 M2) (realv (p_vel q3))
          - (kinetic xA (realv (p_vel p1)) + kinetic xB (realv (p_vel p2)) + dE)) <= (bpow radix2 (-41) * K ^ 2 + 4 * kap) * ((xA + xB) * V ^ 2).
Proof. exact react23_round. Qed.
Print Assumptions C95_three_products.

(** Cases: 2 + 3 -> 1 + 4 and 2 + 3 -> 1 + 1 + 3 with threshold energy 1. *)
Definition idb (s : Z) : outcome (F64 rlm * F64 rlm) :=
  match s with
  | 0%Z => Ok (fofZ 2, fofZ 0) | 1%Z => Ok (fofZ 3, fofZ 1) | 2%Z => Ok (fofZ 1, fofZ 0)
  | 3%Z => Ok (fofZ 4, fofZ 1) | _ => UB end.
Definition ieq : eqcore (F64 rlm) :=
  mkEq (N:=F64 rlm) (mkInput (term_sp 0) (term_sp 1)) [term_sp 2; term_sp 3] (ReducedMass (N:=F64 rlm) (fofZ 2) (fofZ 3)).
Definition ieq3 : eqcore (F64 rlm) :=
  mkEq (N:=F64 rlm) (mkInput (term_sp 0) (term_sp 1)) [term_sp 2; term_sp 2; mkTerm 1 1 [0%Z] [""%string]] (ReducedMass (N:=F64 rlm) (fofZ 2) (fofZ 3)).
Definition iload (e : eqcore (F64 rlm)) := inelastic_new_load idb (setParticleFactories (N:=F64 rlm) finf) (fun _ => Ok []) false false None (fofZ 1) e.
Lemma i_pow99 : 2 <= bpow radix2 99. Proof. change 2 with (bpow radix2 1). apply bpow_le. lia. Qed.
Lemma i_gain : gain_ok 4 (rmass (real64 (fofZ 2)) (real64 (fofZ 3))) (dist2 (realv (p_vel rA)) (realv (p_vel rB))) (- real64 (fofZ 1)).
Proof.
  unfold gain_ok, rmass, dist2, realv. cbn [p_vel rA rB vx vy vz]. rewrite !fofZ_val by (cbn; lia). split; [rewrite Rabs_Ropp, Rabs_pos_eq; lra|right].
  assert (bpow radix2 (-47) <= / 2) by (change (/ 2) with (bpow radix2 (-1)); apply bpow_le; lia). nra.
Qed.
Lemma i_bal a b : a = b -> 0 <= a -> balanced a b.
Proof. intros -> H. unfold balanced. rewrite Rminus_diag_eq, Rabs_R0 by reflexivity. apply Rmult_le_pos; [apply bpow_ge_0|exact H]. Qed.
Lemma i_kin : kinetic 2 (realv (p_vel rA)) + kinetic 3 (realv (p_vel rB)) = 32.
Proof. unfold kinetic, norm2, realv. cbn [p_vel rA rB vx vy vz]. rewrite !fofZ_val by (cbn; lia). lra. Qed.
Lemma loads_ok {A} (o : outcome A) : loads o = true -> exists a, o = Ok a. Proof. destruct o; try discriminate. intros _. eexists. reflexivity. Qed.
Lemma i_react : reaction (N:=F64 rlm) mass_ok idb ieq (fofZ 2) (fofZ 3) [fofZ 1; fofZ 4].
Proof.
  split; [exists (fofZ 0); reflexivity|]. split; [exists (fofZ 1); reflexivity|]. split; [reflexivity|]. split; [split; [fall ltac:(cbn; lia)|vm_compute; reflexivity]|].
  split; [constructor; [exists (fofZ 0); reflexivity|]; constructor; [exists (fofZ 1); reflexivity|]; constructor|]. split; [apply r_mass; lia|]. split; [apply r_mass; lia|]. fall ltac:(apply r_mass; lia).
Qed.
Lemma i_react3 : reaction (N:=F64 rlm) mass_ok idb ieq3 (fofZ 2) (fofZ 3) [fofZ 1; fofZ 1; fofZ 3].
Proof.
  split; [exists (fofZ 0); reflexivity|]. split; [exists (fofZ 1); reflexivity|]. split; [reflexivity|]. split; [split; [fall ltac:(cbn; lia)|vm_compute; reflexivity]|].
  split; [constructor; [exists (fofZ 0); reflexivity|]; constructor; [exists (fofZ 0); reflexivity|]; constructor; [exists (fofZ 1); reflexivity|]; constructor|]. split; [apply r_mass; lia|]. split; [apply r_mass; lia|]. fall ltac:(apply r_mass; lia).
Qed.
Example C94_case : exists model q1 q2, iload ieq = Ok model /\ model_interact false model rA rB [] rG 0 = Ok (rA, rB, [q1; q2], 2%nat) /\
  Rabs (kinetic 1 (realv (p_vel q1)) + kinetic 4 (realv (p_vel q2)) - (32 + - (1))) <= bpow radix2 (-43) * 2 ^ 2 * (5 * 4 ^ 2).
Proof.
  assert (HL : loads (iload ieq) = true) by (vm_compute; reflexivity). destruct (loads_ok _ HL) as [model E]. exists model. unfold iload in E.
  assert (HK : 1 <= 2 <= bpow radix2 99) by (pose proof i_pow99; lra).
  assert (HB : balanced (real64 (fofZ 2) + real64 (fofZ 3)) (real64 (fofZ 1) + real64 (fofZ 4))) by (rewrite !fofZ_val by (cbn; lia); apply i_bal; lra).
  assert (HM : rmass (real64 (fofZ 2)) (real64 (fofZ 3)) <= 2 ^ 2 * rmass (real64 (fofZ 1)) (real64 (fofZ 4))) by (unfold rmass; rewrite !fofZ_val by (cbn; lia); lra).
  destruct (C94_two_products rlm 0 idb (setParticleFactories (N:=F64 rlm) finf) (fun _ => Ok []) false false None (fofZ 1) ieq model (fofZ 2) (fofZ 3) (fofZ 1) (fofZ 4) 4 2 false rA rB [] rG 0%nat
    i_react eq_refl E r_trig r_speed HK rG_ok (r_within _ (or_introl eq_refl)) (r_within _ (or_intror eq_refl)) eq_refl i_gain HB HM) as (q1 & q2 & Hm & _ & _ & _ & Hk).
  exists q1, q2. split; [exact E|]. split; [exact Hm|]. rewrite !fofZ_val in Hk by (cbn; lia). rewrite i_kin in Hk. eapply Rle_trans; [exact Hk|]. right. ring.
Qed.
Example C95_case : exists model q1 q2 q3, iload ieq3 = Ok model /\ model_interact false model rA rB [] rG 0 = Ok (rA, rB, [q1; q2; q3], 5%nat) /\
  Rabs (kinetic 1 (realv (p_vel q1)) + kinetic 1 (realv (p_vel q2)) + kinetic 3 (realv (p_vel q3)) - (32 + - (1))) <= bpow radix2 (-41) * 2 ^ 2 * (5 * 4 ^ 2).
Proof.
  assert (HL : loads (iload ieq3) = true) by (vm_compute; reflexivity). destruct (loads_ok _ HL) as [model E]. exists model. unfold iload in E.
  assert (HK : 1 <= 2 <= bpow radix2 99) by (pose proof i_pow99; lra).
  assert (HS : real64 (fofZ 1) + real64 (fofZ 3) <= bpow radix2 300) by (rewrite !fofZ_val by (cbn; lia); apply Rle_trans with (bpow radix2 3); [cbn; lra|apply bpow_le; lia]).
  assert (HB : balanced (real64 (fofZ 2) + real64 (fofZ 3)) (real64 (fofZ 1) + real64 (fofZ 1) + real64 (fofZ 3))) by (rewrite !fofZ_val by (cbn; lia); apply i_bal; lra).
  assert (HM : rmass (real64 (fofZ 2)) (real64 (fofZ 3)) <= 2 ^ 2 * rmass (real64 (fofZ 1)) (real64 (fofZ 1) + real64 (fofZ 3))) by (unfold rmass; rewrite !fofZ_val by (cbn; lia); lra).
  assert (HN : rmass (real64 (fofZ 2)) (real64 (fofZ 3)) <= 2 ^ 2 * rmass (real64 (fofZ 1)) (real64 (fofZ 3))) by (unfold rmass; rewrite !fofZ_val by (cbn; lia); lra).
  destruct (C95_three_products rlm 0 idb (setParticleFactories (N:=F64 rlm) finf) (fun _ => Ok []) false false None (fofZ 1) ieq3 model (fofZ 2) (fofZ 3) (fofZ 1) (fofZ 1) (fofZ 3) 4 2 false rA rB [] rG 0%nat
    i_react3 eq_refl E r_trig r_speed HK rG_ok (r_within _ (or_introl eq_refl)) (r_within _ (or_intror eq_refl)) eq_refl i_gain HS HB HM HN) as (q1 & q2 & q3 & Hm & _ & _ & _ & _ & Hk).
  exists q1, q2, q3. split; [exact E|]. split; [exact Hm|]. rewrite !fofZ_val in Hk by (cbn; lia). rewrite i_kin in Hk. eapply Rle_trans; [exact Hk|]. right. ring.
Qed.
