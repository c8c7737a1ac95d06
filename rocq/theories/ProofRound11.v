(** Inelastic collisions with two products in binary64: the whole collision. *)
From Coq Require Import Reals Lra Lia ZArith Bool List.
From Flocq Require Import Core.Core IEEE754.BinarySingleNaN Relative.
From Verif Require Import Base Num ModelTerm ModelCollide SpecPhys SpecSet SpecRound ProofF64 ProofFloat ProofRound ProofRound2 ProofRound3 ProofRound4 ProofRound8 ProofRound9 ProofRound10.
From Coq Require Import List.
Import ListNotations.
Local Open Scope R_scope.

(** The setting of a collision: reactant masses [m1], [m2], energy change [dE]. *)
Section Setting.
Variables (lm : libm) (kap : R) (m1 m2 dE : F64 lm) (V K : R) (v1 v2 : vec (F64 lm)).
Hypothesis (HV : speed_ok V) (HK : 1 <= K <= bpow radix2 100) (TR : trig_ok lm kap) (A1 : mass_ok m1) (A2 : mass_ok m2) (W1 : within V v1) (W2 : within V v2).
Let x1 := real64 m1. Let x2 := real64 m2. Let mu := ReducedMass m1 m2.
Hypothesis (Fd : is_finite dE = true) (Hd : Rabs (real64 dE) <= 3 / 2 * rmass x1 x2 * (V * V)).
Hypothesis (Hm : real64 dE = 0 \/ bpow radix2 (-46) * (V * V) <= dist2 (realv v1) (realv v2) + 2 * real64 dE / rmass x1 x2).
Let S : F64 lm := CalculateVRel (N:=F64 lm) (negb (Beqb dE (fofZ 0))) v1 v2 (fdiv (if negb (Beqb dE (fofZ 0)) then dE else fofZ 0) (fmul fhalf (rm_value mu))).
Lemma S_ok : is_finite S = true /\ 0 <= real64 S <= 4 * V /\
  Rabs (real64 S * real64 S - (dist2 (realv v1) (realv v2) + 2 * real64 dE / rmass x1 x2)) <= 135 * (ueps * (V * V)).
Proof. apply vrel_near; try assumption; [apply rm_near; assumption|apply rmass_range; [apply A1|apply A2]]. Qed.

Variables (M0 M1 : F64 lm).
Hypothesis (B0 : mass_ok M0) (B1 : mass_ok M1).
Let y0 := real64 M0. Let y1 := real64 M1. Let nu := ReducedMass M0 M1.
Hypothesis HKm : rmass x1 x2 <= K ^ 2 * rmass y0 y1.
Let sc : F64 lm := fsqrt (fdiv (rm_value mu) (rm_value nu)).
Lemma sc_ok : is_finite sc = true /\ 0 <= real64 sc <= 1001 / 1000 * K /\ Rabs (rmass y0 y1 * (real64 sc * real64 sc) - rmass x1 x2) <= 11 * ueps * rmass x1 x2.
Proof using A1 A2 B0 B1 HKm HK.
  pose proof (mass_pos _ A1) as P1. pose proof (mass_pos _ A2) as P2. pose proof (mass_pos _ B0) as Q0. pose proof (mass_pos _ B1) as Q1.
  destruct (rmass_pos x1 x2 P1 P2) as [Pm _]. destruct (rmass_pos y0 y1 Q0 Q1) as [Pn _].
  destruct (scale_near _ _ _ _ (rm_near lm m1 m2 A1 A2) (rm_near lm M0 M1 B0 B1) (rmass_range _ _ (proj2 A1) (proj2 A2)) (rmass_range _ _ (proj2 B0) (proj2 B1))) as (F & P & E).
  fold mu nu x1 x2 y0 y1 in F, P, E. fold sc in F, P, E. set (a := rmass x1 x2) in *. set (b := rmass y0 y1) in *.
  assert (Pq : 0 < a / b) by (apply Rdiv_lt_0_compat; assumption). assert (Lq : a / b <= K * K). { apply Rmult_le_reg_r with b; [exact Pn|]. replace (a / b * b) with a by (field; lra). replace (K * K) with (K ^ 2) by ring. exact HKm. }
  split; [exact F|]. split; [split; [exact P|]|].
  - apply (scale_le K _ (a / b)); try assumption; lra.
  - replace (b * (real64 sc * real64 sc) - a) with (b * (real64 sc * real64 sc - a / b)) by (field; lra). rewrite Rabs_mult, (Rabs_pos_eq b) by lra.
    replace (11 * ueps * a) with (b * (11 * ueps * (a / b))) by (field; lra). apply Rmult_le_compat_l; [lra|exact E].
Qed.

Variables (r r' : F64 lm).
Hypothesis (Fr : is_finite r = true) (Hr : 0 <= real64 r <= 1) (Fr' : is_finite r' = true) (Hr' : 0 <= real64 r' <= 1).
Hypothesis Hb : Rabs (y0 + y1 - (x1 + x2)) <= bpow radix2 (-50) * (x1 + x2).
Let u : vec (F64 lm) := isoVel r r' S.
Let q1 : vec (F64 lm) := vadd (VelCM mu v1 v2) (vscale (nmul (over_m1 nu) sc) u).
Let q2 : vec (F64 lm) := vsub (VelCM mu v1 v2) (vscale (nmul (over_m2 nu) sc) u).
Lemma b50 : bpow radix2 (-50) = 8 * ueps. Proof. unfold ueps. change (-50)%Z with (3 + -53)%Z. rewrite bpow_plus. reflexivity. Qed.
Lemma Msum : y0 + y1 <= 1001 / 1000 * (x1 + x2) /\ 0 < x1 + x2 /\ 0 < y0 + y1.
Proof.
  pose proof (mass_pos _ A1) as P1. pose proof (mass_pos _ A2) as P2. pose proof (mass_pos _ B0) as Q0. pose proof (mass_pos _ B1) as Q1. fold x1 in P1. fold x2 in P2. fold y0 in Q0. fold y1 in Q1.
  pose proof Hb as H. rewrite b50 in H. apply Rabs_le_inv in H. pose proof ueps_pos. assert (8 * ueps * (x1 + x2) <= / 1000 * (x1 + x2)) by (apply Rmult_le_compat_r; lra). lra.
Qed.
Lemma two_round : within (6 * (K * V)) q1 /\ within (6 * (K * V)) q2 /\
  close3 (bpow radix2 (-47) * (K * ((x1 + x2) * V))) (momentum2 y0 (realv q1) y1 (realv q2)) (momentum2 x1 (realv v1) x2 (realv v2)) /\
  Rabs (kinetic y0 (realv q1) + kinetic y1 (realv q2) - (kinetic x1 (realv v1) + kinetic x2 (realv v2) + real64 dE)) <= (bpow radix2 (-43) * K ^ 2 + 2 * kap) * ((x1 + x2) * V ^ 2).
Proof.
  destruct S_ok as (FS & HS & ES). destruct sc_ok as (Fs & Hs & Es). destruct (iso_of lm V kap r r' S HV TR Fr Hr Fr' Hr' FS HS) as [Wu Eu]. fold u in Wu, Eu.
  destruct Msum as (MS & PS & QS). pose proof Hb as Hb8. rewrite b50 in Hb8. pose proof ueps_pos as HE. destruct (KV_pos V K HV HK) as (PV & LK & PK).
  pose proof (mass_pos _ A1) as P1. pose proof (mass_pos _ A2) as P2. pose proof (mass_pos _ B0) as Q0. pose proof (mass_pos _ B1) as Q1. fold x1 in P1. fold x2 in P2. fold y0 in Q0. fold y1 in Q1.
  destruct W1 as (X1 & Y1 & Z1), W2 as (X2 & Y2 & Z2), Wu as (Xu & Yu & Zu).
  destruct (comp22 lm m1 m2 M0 M1 sc V K HV HK A1 A2 B0 B1 Fs Hs _ _ _ X1 X2 Xu) as ((Nyx & Lyx) & (Nzx & Lzx) & Wyx & Wzx & Cx).
  destruct (comp22 lm m1 m2 M0 M1 sc V K HV HK A1 A2 B0 B1 Fs Hs _ _ _ Y1 Y2 Yu) as ((Nyy & Lyy) & (Nzy & Lzy) & Wyy & Wzy & Cy).
  destruct (comp22 lm m1 m2 M0 M1 sc V K HV HK A1 A2 B0 B1 Fs Hs _ _ _ Z1 Z2 Zu) as ((Nyz & Lyz) & (Nzz & Lzz) & Wyz & Wzz & Cz).
  assert (L6 : forall t, t <= (1 + 4004 / 1000) * (K * V) -> t <= 6 * (K * V)) by (intros; lra).
  apply L6 in Lzx, Lzy, Lzz.
  split; [split; [exact Wyx|split; [exact Wyy|exact Wyz]]|]. split; [split; [exact Wzx|split; [exact Wzy|exact Wzz]]|].
  assert (EKV : 0 <= ueps * (K * V)) by (apply Rmult_le_pos; lra).
  split.
  - pose proof (mom22_real x1 x2 y0 y1 _ _ _ _ _ _ _ V P1 P2 Q0 Q1 Hb8 Cx (proj2 Nyx) (proj2 Nzx)) as Mx.
    pose proof (mom22_real x1 x2 y0 y1 _ _ _ _ _ _ _ V P1 P2 Q0 Q1 Hb8 Cy (proj2 Nyy) (proj2 Nzy)) as My.
    pose proof (mom22_real x1 x2 y0 y1 _ _ _ _ _ _ _ V P1 P2 Q0 Q1 Hb8 Cz (proj2 Nyz) (proj2 Nzz)) as Mz.
    assert (B47 : bpow radix2 (-47) = 64 * ueps) by (unfold ueps; change (-47)%Z with (6 + -53)%Z; rewrite bpow_plus; reflexivity).
    assert (L : (y0 + y1) * (43 * (ueps * (K * V))) + 8 * ueps * ((x1 + x2) * V) <= bpow radix2 (-47) * (K * ((x1 + x2) * V))).
    { rewrite B47. assert (I1 : (y0 + y1) * (43 * (ueps * (K * V))) <= 1001 / 1000 * (x1 + x2) * (43 * (ueps * (K * V)))) by (apply Rmult_le_compat_r; lra).
      assert (I2 : 8 * ueps * ((x1 + x2) * V) <= 8 * ueps * ((x1 + x2) * (K * V))) by (apply Rmult_le_compat_l; [lra|apply Rmult_le_compat_l; lra]).
      assert (0 <= (x1 + x2) * (ueps * (K * V))) by (apply Rmult_le_pos; lra). lra. }
    unfold close3, momentum2, realv; cbn [vx vy vz]. split; [|split]; (eapply Rle_trans; [|exact L]); assumption.
  - pose proof (ke22_real x1 x2 y0 y1 _ _ _ _ _ _ _ V (6 * (K * V)) P1 P2 Q0 Q1 Hb8 Cx (proj2 Nyx) (proj2 Nzx) Lyx Lzx (proj2 Wyx) (proj2 Wzx)) as Ex.
    pose proof (ke22_real x1 x2 y0 y1 _ _ _ _ _ _ _ V (6 * (K * V)) P1 P2 Q0 Q1 Hb8 Cy (proj2 Nyy) (proj2 Nzy) Lyy Lzy (proj2 Wyy) (proj2 Wzy)) as Ey.
    pose proof (ke22_real x1 x2 y0 y1 _ _ _ _ _ _ _ V (6 * (K * V)) P1 P2 Q0 Q1 Hb8 Cz (proj2 Nyz) (proj2 Nzz) Lyz Lzz (proj2 Wyz) (proj2 Wzz)) as Ez.
    destruct (rmass_pos x1 x2 P1 P2) as [Pm Lm]. set (n := rmass y0 y1) in *. set (m := rmass x1 x2) in *. set (s2 := real64 sc * real64 sc) in *.
    set (Er := (y0 + y1) * (43 * (ueps * (K * V)) * (2 * (6 * (K * V)))) + 8 * ueps * ((x1 + x2) * (V * V))) in *.
    set (T := (x1 + x2) * (ueps * (V * V))). assert (HVV : 0 < V * V) by nra. assert (T0 : 0 <= T) by (apply Rmult_le_pos; [lra|apply Rmult_le_pos; lra]).
    assert (K1 : 1 <= K * K) by nra. assert (TK : T <= K * K * T) by (assert (1 * T <= K * K * T) by (apply Rmult_le_compat_r; lra); lra).
    assert (LEr : 3 / 2 * Er <= 775 * (K * K * T) + 12 * T).
    { unfold Er, T. assert (I1 : (y0 + y1) * (43 * (ueps * (K * V)) * (2 * (6 * (K * V)))) <= 1001 / 1000 * (x1 + x2) * (43 * (ueps * (K * V)) * (2 * (6 * (K * V))))).
      { apply Rmult_le_compat_r; [|lra]. apply Rmult_le_pos; [lra|lra]. }
      fold T in TK. unfold T in TK, T0. assert (0 <= K * K * ((x1 + x2) * (ueps * (V * V)))) by lra. lra. }
    (* the length of u *)
    assert (Lu : 0 <= norm2 (realv u) <= 48 * (V * V)).
    { unfold norm2, realv. cbn [vx vy vz]. assert (Sq : forall t : R, Rabs t <= 4 * V -> 0 <= t ^ 2 <= 16 * (V * V)) by (intros t Ht; apply Rabs_le_inv in Ht; split; nra).
      pose proof (Sq _ (proj2 Xu)). pose proof (Sq _ (proj2 Yu)). pose proof (Sq _ (proj2 Zu)). lra. }
    assert (G1 : Rabs ((n * s2 - m) * norm2 (realv u)) <= 132 * T).
    { rewrite Rabs_mult, (Rabs_pos_eq (norm2 _)) by lra. apply Rle_trans with (11 * ueps * ((x1 + x2) / 4) * (48 * (V * V))).
      - apply Rmult_le_compat; [apply Rabs_pos|lra| |lra]. eapply Rle_trans; [exact Es|]. apply Rmult_le_compat_l; lra.
      - unfold T. lra. }
    assert (G2 : Rabs (m * (norm2 (realv u) - (dist2 (realv v1) (realv v2) + 2 * real64 dE / m))) <= (x1 + x2) / 4 * (370 * (ueps * (V * V)) + 16 * (kap * (V * V)))).
    { rewrite Rabs_mult, (Rabs_pos_eq m) by lra. apply Rmult_le_compat; [lra|apply Rabs_pos|exact Lm|]. apply Rabs_le_inv in Eu, ES. apply Rabs_le. lra. }
    assert (EG : m * (2 * real64 dE / m) = 2 * real64 dE) by (field; lra).
    assert (B43 : bpow radix2 (-43) = 1024 * ueps) by (unfold ueps; change (-43)%Z with (10 + -53)%Z; rewrite bpow_plus; reflexivity). rewrite B43.
    assert (Fin : (1024 * ueps * K ^ 2 + 2 * kap) * ((x1 + x2) * V ^ 2) = 1024 * (K * K * T) + 2 * kap * ((x1 + x2) * (V * V))) by (unfold T; ring). rewrite Fin.
    rewrite Rmult_minus_distr_l, Rmult_plus_distr_l, EG in G2. rewrite Rmult_minus_distr_r in G1.
    apply Rabs_le_inv in Ex, Ey, Ez, G1, G2. unfold kinetic, norm2, dist2, realv in *. cbn [vx vy vz] in *.
    change (vx q1) with (fadd (fadd (fmul (over_m2 mu) (vx v1)) (fmul (over_m1 mu) (vx v2))) (fmul (fmul (over_m1 nu) sc) (vx u))).
    change (vy q1) with (fadd (fadd (fmul (over_m2 mu) (vy v1)) (fmul (over_m1 mu) (vy v2))) (fmul (fmul (over_m1 nu) sc) (vy u))).
    change (vz q1) with (fadd (fadd (fmul (over_m2 mu) (vz v1)) (fmul (over_m1 mu) (vz v2))) (fmul (fmul (over_m1 nu) sc) (vz u))).
    change (vx q2) with (fsub (fadd (fmul (over_m2 mu) (vx v1)) (fmul (over_m1 mu) (vx v2))) (fmul (fmul (over_m2 nu) sc) (vx u))).
    change (vy q2) with (fsub (fadd (fmul (over_m2 mu) (vy v1)) (fmul (over_m1 mu) (vy v2))) (fmul (fmul (over_m2 nu) sc) (vy u))).
    change (vz q2) with (fsub (fadd (fmul (over_m2 mu) (vz v1)) (fmul (over_m1 mu) (vz v2))) (fmul (fmul (over_m2 nu) sc) (vz u))).
    change fB2R with real64 in Ex, Ey, Ez. fold mu nu in Ex, Ey, Ez. set (a1 := real64 (fadd _ (fmul _ (vx u)))) in *. set (a2 := real64 (fadd _ (fmul _ (vy u)))) in *. set (a3 := real64 (fadd _ (fmul _ (vz u)))) in *.
    set (b1 := real64 (fsub _ (fmul _ (vx u)))) in *. set (b2 := real64 (fsub _ (fmul _ (vy u)))) in *. set (b3 := real64 (fsub _ (fmul _ (vz u)))) in *.
    assert (TT : (x1 + x2) / 4 * (370 * (ueps * (V * V)) + 16 * (kap * (V * V))) = 925 / 10 * T + 4 * kap * ((x1 + x2) * (V * V))) by (unfold T; lra). rewrite TT in G2. clear TT Fin.
    set (KT := K * K * T) in *. clearbody KT Er T a1 a2 a3 b1 b2 b3. set (kk := 2 * kap * ((x1 + x2) * (V * V))) in *. replace (4 * kap * ((x1 + x2) * (V * V))) with (2 * kk) in G2 by (unfold kk; ring). clearbody kk.
    apply Rabs_le. lra.
Qed.
End Setting.
