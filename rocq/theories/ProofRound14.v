(** Loaded inelastic models in binary64. *)
From Coq Require Import Reals Lra Lia ZArith Bool List.
From Flocq Require Import Core.Core IEEE754.BinarySingleNaN Relative.
From Verif Require Import Base Num ModelTerm ModelCollide SpecTerm SpecPhys SpecSet SpecRound ProofF64 ProofFloat ProofInelastic ProofReact ProofDriver2 ProofRound ProofRound2 ProofRound3 ProofRound4 ProofRound8 ProofRound9 ProofRound10 ProofRound11 ProofRound12 ProofRound13.
From Coq Require Import List.
Import ListNotations.
Local Open Scope R_scope.

Definition rdE (kec : option binary64) (thrE : binary64) : R := match kec with Some d => real64 d | None => - real64 thrE end.
Definition fin_dE (kec : option binary64) (thrE : binary64) : Prop := match kec with Some d => is_finite d = true | None => is_finite thrE = true end.
Lemma dE_val lm (kec : option (F64 lm)) (thrE : F64 lm) : fin_dE kec thrE -> is_finite (energy_change (N:=F64 lm) kec thrE) = true /\ real64 (energy_change (N:=F64 lm) kec thrE) = rdE kec thrE.
Proof.
  unfold fin_dE, energy_change, rdE. destruct kec as [d|]; intros F; [split; [exact F|reflexivity]|].
  assert (E0 : frnd (fB2R (fofZ 0) - fB2R thrE) = - fB2R thrE).
  { rewrite fofZ0. replace (0 - fB2R thrE) with (- fB2R thrE) by ring. apply round_generic; [typeclasses eauto|]. apply generic_format_opp, fF_B2R. }
  destruct (fsub_ok (fofZ 0) thrE) as [E Ff]; [apply fofZ_exact; cbn; lia|exact F|rewrite E0, Rabs_Ropp; apply abs_B2R_lt_emax|]. split; [exact Ff|].
  unfold real64. change (B2R (nsub (n:=F64 lm) n0 thrE)) with (fB2R (fsub (fofZ 0) thrE)). rewrite E. exact E0.
Qed.
Lemma gain_split V m D2 d : 0 < m -> gain_ok V m D2 d -> Rabs d <= 3 / 2 * m * (V * V) /\ (d = 0 \/ bpow radix2 (-46) * (V * V) <= D2 + 2 * d / m).
Proof.
  intros Pm [H1 H2]. split; [eapply Rle_trans; [exact H1|right; ring]|]. destruct H2 as [H2|H2]; [left; exact H2|right].
  assert (B : bpow radix2 (-46) = 2 * bpow radix2 (-47)) by (change (-46)%Z with (1 + -47)%Z; rewrite bpow_plus; reflexivity). rewrite B.
  apply Rmult_le_reg_r with (m / 2); [lra|]. replace ((D2 + 2 * d / m) * (m / 2)) with (m / 2 * D2 + d) by (field; lra). eapply Rle_trans; [|exact H2]. right. field.
Qed.
Lemma unit_draw {lm} (g : rng (F64 lm)) k : frng_ok g -> is_finite (g_rand g k) = true /\ 0 <= real64 (g_rand g k) <= 1.
Proof. intros H. destruct (H k) as (H0 & H1 & _). apply unit_closed; assumption. Qed.
Lemma close3_weak d d' a b : close3 d a b -> d <= d' -> close3 d' a b.
Proof. unfold close3. destruct a as [[a1 a2] a3], b as [[b1 b2] b3]. lra. Qed.

Lemma react22_round lm kap db spf parse fcm fcq kec thrE (e : eqcore (F64 lm)) model mA mB M0 M1 V K inplace (p1 p2 : particle (F64 lm)) l g k :
  reaction (N:=F64 lm) mass_ok db e mA mB [M0; M1] -> hasExpressions (e_products e) = false ->
  inelastic_new_load db spf parse fcm fcq kec thrE e = Ok model ->
  trig_ok lm kap -> speed_ok V -> 1 <= K <= bpow radix2 99 -> frng_ok g -> within V (p_vel p1) -> within V (p_vel p2) -> fin_dE kec thrE ->
  let xA := real64 mA in let xB := real64 mB in let dE := rdE kec thrE in
  gain_ok V (rmass xA xB) (dist2 (realv (p_vel p1)) (realv (p_vel p2))) dE ->
  balanced (xA + xB) (real64 M0 + real64 M1) -> rmass xA xB <= K ^ 2 * rmass (real64 M0) (real64 M1) ->
  exists q1 q2, model_interact inplace model p1 p2 l g k = Ok (p1, p2, l ++ [q1; q2], (k + 2)%nat) /\
    within (6 * (K * V)) (p_vel q1) /\ within (6 * (K * V)) (p_vel q2) /\
    close3 (bpow radix2 (-47) * (K * ((xA + xB) * V)))
      (momentum2 (real64 M0) (realv (p_vel q1)) (real64 M1) (realv (p_vel q2))) (momentum2 xA (realv (p_vel p1)) xB (realv (p_vel p2))) /\
    Rabs (kinetic (real64 M0) (realv (p_vel q1)) + kinetic (real64 M1) (realv (p_vel q2))
          - (kinetic xA (realv (p_vel p1)) + kinetic xB (realv (p_vel p2)) + dE)) <= (bpow radix2 (-43) * K ^ 2 + 2 * kap) * ((xA + xB) * V ^ 2).
Proof.
  intros (HA & HB & Hmu & Hok & HF & HmA & HmB & Hms) Hx Hload TR HV HK Hg W1 W2 Hfin xA xB dE Hgain Hbal HKm.
  apply Forall2_two in HF as (s0 & s1 & Hexp & (q0 & Hd0) & (q1 & Hd1)).
  apply Forall_cons_iff in Hms as [HM0 Hms]. apply Forall_cons_iff in Hms as [HM1 _].
  destruct (load22 _ _ _ _ _ _ _ _ _ _ _ Hok Hexp Hload)
    as (m & M0' & Q0 & M1' & Q1 & -> & E0 & E1 & Em1 & Esc & EdV & EhE & EuX & Hcl & _).
  rewrite Hd0 in E0. injection E0 as <- <-. rewrite Hd1 in E1. injection E1 as <- <-.
  destruct Hcl as [Hcmu Hnf Hne _ _].
  destruct (interact22_shape inplace m p1 p2 l g k) as (f0 & f1 & _ & ->); [congruence|assumption|assumption|].
  destruct (dE_val lm kec thrE Hfin) as [Fd Ed]. destruct (unit_draw g k Hg) as [Fr Hr]. destruct (unit_draw g (k + 1) Hg) as [Fr' Hr'].
  destruct (rmass_pos xA xB (mass_pos _ HmA) (mass_pos _ HmB)) as [Pm _]. destruct (gain_split _ _ _ _ Pm Hgain) as [G1 G2]. unfold dE in *. rewrite <- Ed in *.
  assert (HK' : 1 <= K <= bpow radix2 100) by (split; [lra|apply Rle_trans with (1 := proj2 HK); apply bp; lia]).
  pose proof (two_round lm kap mA mB (energy_change (N:=F64 lm) kec thrE) V K _ _ HV HK' TR HmA HmB W1 W2 Fd G1 G2 M0 M1 HM0 HM1 HKm _ _ Fr Hr Fr' Hr' Hbal) as R.
  cbv zeta. eexists _, _. split; [reflexivity|]. unfold built, setVelocity; cbn [p_vel].
  unfold vel22. rewrite Hcmu, Em1, Esc, EdV, EhE, Hmu. cbn [fst snd]. exact R.
Qed.

Lemma react23_round lm kap db spf parse fcm fcq kec thrE (e : eqcore (F64 lm)) model mA mB M0 M1 M2 V K inplace (p1 p2 : particle (F64 lm)) l g k :
  reaction (N:=F64 lm) mass_ok db e mA mB [M0; M1; M2] -> hasExpressions (e_products e) = false ->
  inelastic_new_load db spf parse fcm fcq kec thrE e = Ok model ->
  trig_ok lm kap -> speed_ok V -> 1 <= K <= bpow radix2 99 -> frng_ok g -> within V (p_vel p1) -> within V (p_vel p2) -> fin_dE kec thrE ->
  let xA := real64 mA in let xB := real64 mB in let dE := rdE kec thrE in
  gain_ok V (rmass xA xB) (dist2 (realv (p_vel p1)) (realv (p_vel p2))) dE -> real64 M1 + real64 M2 <= bpow radix2 300 ->
  balanced (xA + xB) (real64 M0 + real64 M1 + real64 M2) ->
  rmass xA xB <= K ^ 2 * rmass (real64 M0) (real64 M1 + real64 M2) -> rmass xA xB <= K ^ 2 * rmass (real64 M1) (real64 M2) ->
  exists q1 q2 q3, model_interact inplace model p1 p2 l g k = Ok (p1, p2, l ++ [q1; q2; q3], (k + 5)%nat) /\
    within (11 * (K * V)) (p_vel q1) /\ within (11 * (K * V)) (p_vel q2) /\ within (11 * (K * V)) (p_vel q3) /\
    close3 (bpow radix2 (-46) * (K * ((xA + xB) * V)))
      (momentum3 (real64 M0) (realv (p_vel q1)) (real64 M1) (realv (p_vel q2)) (real64 M2) (realv (p_vel q3))) (momentum2 xA (realv (p_vel p1)) xB (realv (p_vel p2))) /\
    Rabs (kinetic (real64 M0) (realv (p_vel q1)) + kinetic (real64 M1) (realv (p_vel q2)) + kinetic (real64 M2) (realv (p_vel q3))
          - (kinetic xA (realv (p_vel p1)) + kinetic xB (realv (p_vel p2)) + dE)) <= (bpow radix2 (-41) * K ^ 2 + 4 * kap) * ((xA + xB) * V ^ 2).
Proof.
  intros (HA & HB & Hmu & Hok & HF & HmA & HmB & Hms) Hx Hload TR HV HK Hg W1 W2 Hfin xA xB dE Hgain H12 Hbal HK1 HK2.
  apply Forall2_three in HF as (s0 & s1 & s2 & Hexp & (q0 & Hd0) & (q1 & Hd1) & (q2 & Hd2)).
  apply Forall_cons_iff in Hms as [HM0 Hms]. apply Forall_cons_iff in Hms as [HM1 Hms]. apply Forall_cons_iff in Hms as [HM2 _].
  destruct (load23 _ _ _ _ _ _ _ _ _ _ _ _ Hok Hexp Hload)
    as (m & M0' & Q0 & M1' & Q1 & M2' & Q2 & -> & E0 & E1 & E2 & Em1 & Em2 & Es1 & Es2 & EdV & EhE & EuX & Hcl & _).
  rewrite Hd0 in E0. injection E0 as <- <-. rewrite Hd1 in E1. injection E1 as <- <-. rewrite Hd2 in E2. injection E2 as <- <-.
  destruct Hcl as [Hcmu Hnf Hne _ _].
  destruct (interact23_shape inplace m p1 p2 l g k) as (f0 & f1 & f2 & _ & ->); [congruence|assumption|assumption|].
  destruct (dE_val lm kec thrE Hfin) as [Fd Ed]. destruct (unit_draw g k Hg) as [Fq Hq]. destruct (unit_draw g (k + 1) Hg) as [Fr Hr]. destruct (unit_draw g (k + 2) Hg) as [Fr' Hr'].
  destruct (unit_draw g (k + 3) Hg) as [Fs Hs]. destruct (unit_draw g (k + 4) Hg) as [Fs' Hs'].
  pose proof (mass_pos _ HmA) as PA. pose proof (mass_pos _ HmB) as PB. pose proof (mass_pos _ HM0) as P0. pose proof (mass_pos _ HM1) as P1. pose proof (mass_pos _ HM2) as P2.
  destruct (rmass_pos xA xB PA PB) as [Pm _]. destruct (gain_split _ _ _ _ Pm Hgain) as [G1 G2]. unfold dE in *. rewrite <- Ed in *.
  pose proof ueps_pos as HE. set (L := (1 + 2 * ueps) * K).
  assert (HL : 1 <= L <= bpow radix2 100).
  { unfold L. assert (0 <= ueps * K) by (apply Rmult_le_pos; lra). assert (ueps * K <= / 1000 * K) by (apply Rmult_le_compat_r; lra). split; [lra|]. change 100%Z with (1 + 99)%Z. rewrite bpow_plus. change (bpow radix2 1) with 2. lra. }
  assert (LK : L <= 1001 / 1000 * K). { unfold L. apply Rmult_le_compat_r; lra. }
  destruct (sum_ok M1 M2 HM1 HM2 H12) as [OK12 N12]. destruct (rmass_near (real64 M0) _ _ P0 (Rplus_lt_0_compat _ _ P1 P2) N12) as [R12 _].
  assert (K2 : 0 <= K ^ 2) by apply pow2_ge_0.
  assert (HL1 : rmass xA xB <= L ^ 2 * rmass (real64 M0) (real64 (fadd M1 M2))).
  { destruct (rmass_pos (real64 M0) (real64 (fadd M1 M2)) P0 (mass_pos _ OK12)) as [Pr _]. eapply Rle_trans; [exact HK1|].
    eapply Rle_trans; [apply Rmult_le_compat_l; [exact K2|exact R12]|]. replace (L ^ 2 * rmass (real64 M0) (real64 (fadd M1 M2))) with (K ^ 2 * ((1 + 2 * ueps) * ((1 + 2 * ueps) * rmass (real64 M0) (real64 (fadd M1 M2))))) by (unfold L; ring).
    apply Rmult_le_compat_l; [exact K2|]. apply Rmult_le_compat_l; [lra|]. assert (0 <= ueps * rmass (real64 M0) (real64 (fadd M1 M2))) by (apply Rmult_le_pos; lra). lra. }
  assert (HL2 : rmass xA xB <= L ^ 2 * rmass (real64 M1) (real64 M2)).
  { destruct (rmass_pos (real64 M1) (real64 M2) P1 P2) as [Pr _]. eapply Rle_trans; [exact HK2|]. apply Rmult_le_compat_r; [lra|]. apply pow_incr. unfold L. assert (0 <= ueps * K) by (apply Rmult_le_pos; lra). lra. }
  pose proof (three_round lm kap mA mB (energy_change (N:=F64 lm) kec thrE) V L _ _ HV HL TR HmA HmB W1 W2 Fd G1 G2 M0 M1 M2 HM0 HM1 HM2 H12 HL1 HL2 Hbal _ _ _ _ _ Fq Hq Fr Hr Fr' Hr' Fs Hs Fs' Hs') as R.
  cbv zeta. eexists _, _, _. split; [reflexivity|]. unfold built, setVelocity; cbn [p_vel].
  unfold vel23. rewrite Hcmu, Em1, Em2, Es1, Es2, EdV, EhE, Hmu. cbn [fst snd].
  pose proof (V_pos V HV) as PV.
  assert (LKV : L * V <= 1001 / 1000 * (K * V)). { replace (1001 / 1000 * (K * V)) with (1001 / 1000 * K * V) by ring. apply Rmult_le_compat_r; lra. }
  assert (PKV : 0 <= K * V) by (apply Rmult_le_pos; lra).
  assert (Wk : forall w : vec (F64 lm), within (10 * (L * V)) w -> within (11 * (K * V)) w).
  { intros w ((Fx & Lx) & (Fy & Ly) & (Fz & Lz)). split; [split; [exact Fx|lra]|]. split; (split; [assumption|lra]). }
  destruct R as (R1 & R2 & R3 & R4 & R5).
  split; [exact (Wk _ R1)|]. split; [exact (Wk _ R2)|]. split; [exact (Wk _ R3)|]. clear R1 R2 R3 Wk. fold xA xB in R4, R5. assert (PAB : 0 < xA + xB) by (unfold xA, xB; lra). split.
  - eapply close3_weak; [exact R4|]. rewrite b46. replace (128 * ueps * (K * ((xA + xB) * V))) with (128 * (ueps * ((xA + xB) * (K * V)))) by ring. replace (126 * ueps * (L * ((xA + xB) * V))) with (126 * (ueps * ((xA + xB) * (L * V)))) by ring.
    assert (ueps * ((xA + xB) * (L * V)) <= ueps * ((xA + xB) * (1001 / 1000 * (K * V)))) by (apply Rmult_le_compat_l; [lra|apply Rmult_le_compat_l; lra]).
    assert (0 <= ueps * ((xA + xB) * (K * V))) by (apply Rmult_le_pos; [lra|apply Rmult_le_pos; lra]). lra.
  - eapply Rle_trans; [exact R5|]. apply Rmult_le_compat_r; [apply Rmult_le_pos; [lra|apply pow2_ge_0]|].
    assert (B41 : bpow radix2 (-41) = 4096 * ueps) by (unfold ueps; change (-41)%Z with (12 + -53)%Z; rewrite bpow_plus; reflexivity). rewrite B41.
    assert (LL : L ^ 2 <= (1001 / 1000 * K) ^ 2) by (apply pow_incr; lra). replace ((1001 / 1000 * K) ^ 2) with (1002001 / 1000000 * K ^ 2) in LL by field.
    assert (ueps * L ^ 2 <= ueps * (1002001 / 1000000 * K ^ 2)) by (apply Rmult_le_compat_l; lra). assert (0 <= ueps * K ^ 2) by (apply Rmult_le_pos; lra). lra.
Qed.
