(** Inelastic collisions with three products in binary64: the whole collision. *)
From Coq Require Import Reals Lra Lia ZArith Bool List.
From Flocq Require Import Core.Core IEEE754.BinarySingleNaN Relative.
From Verif Require Import Base Num ModelTerm ModelCollide SpecPhys SpecSet SpecRound ProofF64 ProofFloat ProofRound ProofRound2 ProofRound3 ProofRound4 ProofRound8 ProofRound9 ProofRound10 ProofRound11 ProofRound12.
From Coq Require Import List.
Import ListNotations.
Local Open Scope R_scope.

Lemma sum_ok (a b : binary64) : mass_ok a -> mass_ok b -> real64 a + real64 b <= bpow radix2 300 -> mass_ok (fadd a b) /\ Rabs (real64 (fadd a b) - (real64 a + real64 b)) <= ueps * (real64 a + real64 b).
Proof.
  intros [Fa Ha] [Fb Hbb] L. pose proof (massR_pos _ Ha) as Pa. pose proof (massR_pos _ Hbb) as Pb. unfold real64 in *.
  assert (B : bpow radix2 300 <= bpow radix2 1000) by (apply bp; lia).
  destruct (fadd_err a b Fa Fb) as [F E]; [rewrite Rabs_pos_eq; lra|]. rewrite (Rabs_pos_eq (_ + _)) in E by lra. split; [|exact E].
  destruct (fadd_ok a b Fa Fb) as [E2 _]; [apply rnd_fits; rewrite Rabs_pos_eq; lra|]. split; [exact F|]. unfold real64. change (B2R (fadd a b)) with (fB2R (fadd a b)). rewrite E2.
  split; [apply round_ge_generic|apply round_le_generic]; try typeclasses eauto; try (apply generic_format_bpow; cbn; unfold FLT_exp, fprec, femin; lia); try assumption. lra.
Qed.

Lemma sq16 V t : Rabs t <= 4 * V -> 0 <= t ^ 2 <= 16 * (V * V).
Proof. intros Ht. apply Rabs_le_inv in Ht. split; nra. Qed.
Lemma pos_sq V : 0 < V -> 0 < V * V. Proof. intros. nra. Qed.
Lemma one_sq K : 1 <= K -> 1 <= K * K. Proof. intros. nra. Qed.

Section Three.
Variables (lm : libm) (kap : R) (m1 m2 dE : F64 lm) (V K : R) (v1 v2 : vec (F64 lm)).
Hypothesis (HV : speed_ok V) (HK : 1 <= K <= bpow radix2 100) (TR : trig_ok lm kap) (A1 : mass_ok m1) (A2 : mass_ok m2) (W1 : within V v1) (W2 : within V v2).
Let x1 := real64 m1. Let x2 := real64 m2. Let mu := ReducedMass m1 m2.
Hypothesis (Fd : is_finite dE = true) (Hd : Rabs (real64 dE) <= 3 / 2 * rmass x1 x2 * (V * V)).
Hypothesis (Hm : real64 dE = 0 \/ bpow radix2 (-46) * (V * V) <= dist2 (realv v1) (realv v2) + 2 * real64 dE / rmass x1 x2).
Let S : F64 lm := CalculateVRel (N:=F64 lm) (negb (Beqb dE (fofZ 0))) v1 v2 (fdiv (if negb (Beqb dE (fofZ 0)) then dE else fofZ 0) (fmul fhalf (rm_value mu))).
Variables (M0 M1 M2 : F64 lm).
Let M12 : F64 lm := fadd M1 M2.
Hypothesis (B0 : mass_ok M0) (B1 : mass_ok M1) (B2 : mass_ok M2) (B12 : real64 M1 + real64 M2 <= bpow radix2 300).
Let y0 := real64 M0. Let y1 := real64 M1. Let y2 := real64 M2. Let y12 := real64 M12.
Let nu := ReducedMass M0 M12. Let ka := ReducedMass M1 M2.
Hypothesis (HK1 : rmass x1 x2 <= K ^ 2 * rmass y0 y12) (HK2 : rmass x1 x2 <= K ^ 2 * rmass y1 y2).
Hypothesis Hb : Rabs (y0 + y1 + y2 - (x1 + x2)) <= bpow radix2 (-50) * (x1 + x2).
Let sc : F64 lm := fsqrt (fdiv (rm_value mu) (rm_value nu)).
Let sd : F64 lm := fsqrt (fdiv (rm_value mu) (rm_value ka)).
Variables (q r r' s s' : F64 lm).
Hypothesis (Fq : is_finite q = true) (Hq : 0 <= real64 q <= 1).
Hypothesis (Fr : is_finite r = true) (Hr : 0 <= real64 r <= 1) (Fr' : is_finite r' = true) (Hr' : 0 <= real64 r' <= 1).
Hypothesis (Fs : is_finite s = true) (Hs : 0 <= real64 s <= 1) (Fs' : is_finite s' = true) (Hs' : 0 <= real64 s' <= 1).
Let S1 : F64 lm := fmul S (fsqrt q). Let S2 : F64 lm := fmul S (fsqrt (fsub (fofZ 1) q)).
Let u : vec (F64 lm) := isoVel r r' S1. Let u' : vec (F64 lm) := isoVel s s' S2.
Let cm := VelCM mu v1 v2.
Let cm' : vec (F64 lm) := vsub cm (vscale (nmul (over_m2 nu) sc) u).
Let w1 : vec (F64 lm) := vadd cm (vscale (nmul (over_m1 nu) sc) u).
Let w2 : vec (F64 lm) := vadd cm' (vscale (nmul (over_m1 ka) sd) u').
Let w3 : vec (F64 lm) := vsub cm' (vscale (nmul (over_m2 ka) sd) u').

Lemma M12_ok : mass_ok M12 /\ Rabs (y12 - (y1 + y2)) <= ueps * (y1 + y2).
Proof using B1 B2 B12. apply sum_ok; assumption. Qed.
Lemma Msum3 : y0 + y1 + y2 <= 1001 / 1000 * (x1 + x2) /\ 0 < x1 /\ 0 < x2 /\ 0 < y0 /\ 0 < y1 /\ 0 < y2 /\ 0 < y12.
Proof using A1 A2 B0 B1 B2 B12 Hb.
  pose proof (mass_pos _ A1) as P1. pose proof (mass_pos _ A2) as P2. pose proof (mass_pos _ B0) as Q0. pose proof (mass_pos _ B1) as Q1. pose proof (mass_pos _ B2) as Q2. pose proof (mass_pos _ (proj1 M12_ok)) as Q12. fold x1 in P1. fold x2 in P2. fold y0 in Q0. fold y1 in Q1. fold y2 in Q2. fold y12 in Q12.
  pose proof Hb as H. rewrite b50 in H. apply Rabs_le_inv in H. pose proof ueps_pos. assert (8 * ueps * (x1 + x2) <= / 1000 * (x1 + x2)) by (apply Rmult_le_compat_r; lra). lra.
Qed.
Lemma scs : (is_finite sc = true /\ 0 <= real64 sc <= 1001 / 1000 * K /\ Rabs (rmass y0 y12 * (real64 sc * real64 sc) - rmass x1 x2) <= 11 * ueps * rmass x1 x2) /\
  (is_finite sd = true /\ 0 <= real64 sd <= 1001 / 1000 * K /\ Rabs (rmass y1 y2 * (real64 sd * real64 sd) - rmass x1 x2) <= 11 * ueps * rmass x1 x2).
Proof using A1 A2 B0 B1 B2 B12 HK HK1 HK2.
  split; [exact (sc_ok lm m1 m2 K HK A1 A2 M0 M12 B0 (proj1 M12_ok) HK1)|exact (sc_ok lm m1 m2 K HK A1 A2 M1 M2 B1 B2 HK2)].
Qed.
Lemma comp23 (a b w x : binary64) : is_finite a = true /\ Rabs (real64 a) <= V -> is_finite b = true /\ Rabs (real64 b) <= V -> is_finite w = true /\ Rabs (real64 w) <= 4 * V -> is_finite x = true /\ Rabs (real64 x) <= 4 * V ->
  let c := fadd (fmul (over_m2 mu) a) (fmul (over_m1 mu) b) in let C := share x1 x2 * real64 a + share x2 x1 * real64 b in
  let y := fadd c (fmul (fmul (over_m1 nu) sc) w) in let c' := fsub c (fmul (fmul (over_m2 nu) sc) w) in let C' := C - share y0 y12 * real64 sc * real64 w in
  let z := fadd c' (fmul (fmul (over_m1 ka) sd) x) in let z' := fsub c' (fmul (fmul (over_m2 ka) sd) x) in
  (Rabs (real64 y - (C + share y12 y0 * real64 sc * real64 w)) <= 78 * (ueps * (K * V)) /\ Rabs (C + share y12 y0 * real64 sc * real64 w) <= 10 * (K * V)) /\
  (Rabs (real64 z - (C' + share y2 y1 * real64 sd * real64 x)) <= 78 * (ueps * (K * V)) /\ Rabs (C' + share y2 y1 * real64 sd * real64 x) <= 10 * (K * V)) /\
  (Rabs (real64 z' - (C' - share y1 y2 * real64 sd * real64 x)) <= 78 * (ueps * (K * V)) /\ Rabs (C' - share y1 y2 * real64 sd * real64 x) <= 10 * (K * V)) /\
  (is_finite y = true /\ Rabs (real64 y) <= 10 * (K * V)) /\ (is_finite z = true /\ Rabs (real64 z) <= 10 * (K * V)) /\ (is_finite z' = true /\ Rabs (real64 z') <= 10 * (K * V)) /\
  Rabs C <= V /\ Rabs C' <= 10 * (K * V).
Proof using HV HK A1 A2 B0 B1 B2 B12 HK1 HK2.
  intros Ha Hbb Hw [Fx Lx] c C y c' C' z z'. destruct scs as ((Fc & Hc & _) & (Fe & He & _)). destruct (KV_pos V K HV HK) as (PV & LK & PK). pose proof ueps_pos as HE.
  destruct (comp22 lm m1 m2 M0 M12 sc V K HV HK A1 A2 B0 (proj1 M12_ok) Fc Hc a b w Ha Hbb Hw) as ((Ny & Ly) & (Nz & Lz) & Wy & Wz & LC).
  destruct (factors lm M1 M2 sd V K HV HK B1 B2 Fe He) as (N1 & L1 & N2 & L2).
  destruct (step_add V K HV HK c' (fmul (over_m1 ka) sd) x C' _ 43 (1 + 4004 / 1000) 78 Nz Lz ltac:(lra) ltac:(lra) N1 L1 Fx Lx ltac:(lra)) as [Nz1 Lz1].
  destruct (step_sub V K HV HK c' (fmul (over_m2 ka) sd) x C' _ 43 (1 + 4004 / 1000) 78 Nz Lz ltac:(lra) ltac:(lra) N2 L2 Fx Lx ltac:(lra)) as [Nz2 Lz2].
  destruct (appr_within _ _ _ _ _ Nz1 Lz1 ltac:(lra) ltac:(lra)) as [F1 W1']. destruct (appr_within _ _ _ _ _ Nz2 Lz2 ltac:(lra) ltac:(lra)) as [F2 W2'].
  assert (EK : 0 <= ueps * (K * V)) by (apply Rmult_le_pos; lra). destruct Wy as [Fy Wy].
  split; [split; [eapply Rle_trans; [exact (proj2 Ny)|lra]|eapply Rle_trans; [exact Ly|lra]]|]. split; [split; [exact (proj2 Nz1)|eapply Rle_trans; [exact Lz1|lra]]|].
  split; [split; [exact (proj2 Nz2)|eapply Rle_trans; [exact Lz2|lra]]|]. split; [split; [exact Fy|eapply Rle_trans; [exact Wy|lra]]|].
  split; [split; [exact F1|eapply Rle_trans; [exact W1'|lra]]|]. split; [split; [exact F2|eapply Rle_trans; [exact W2'|lra]]|]. split; [exact LC|eapply Rle_trans; [exact Lz|lra]].
Qed.
Lemma three_round : within (10 * (K * V)) w1 /\ within (10 * (K * V)) w2 /\ within (10 * (K * V)) w3 /\
  close3 (126 * ueps * (K * ((x1 + x2) * V))) (momentum3 y0 (realv w1) y1 (realv w2) y2 (realv w3)) (momentum2 x1 (realv v1) x2 (realv v2)) /\
  Rabs (kinetic y0 (realv w1) + kinetic y1 (realv w2) + kinetic y2 (realv w3) - (kinetic x1 (realv v1) + kinetic x2 (realv v2) + real64 dE)) <= (4000 * ueps * K ^ 2 + 4 * kap) * ((x1 + x2) * V ^ 2).
Proof.
  destruct (S_ok lm m1 m2 dE V v1 v2 HV A1 A2 W1 W2 Fd Hd Hm) as (FS & HS & ES). fold mu in FS, HS, ES. fold S x1 x2 in FS, HS, ES. destruct scs as ((Fc & Hc & Ec) & (Fe & He & Ee)).
  destruct (split_speed V S q HV FS HS Fq Hq) as ((F1 & H1) & (F2 & H2) & E12). fold S1 S2 in F1, H1, F2, H2, E12.
  destruct (iso_of lm V kap r r' S1 HV TR Fr Hr Fr' Hr' F1 H1) as [Wu Eu]. fold u in Wu, Eu. destruct (iso_of lm V kap s s' S2 HV TR Fs Hs Fs' Hs' F2 H2) as [Wu' Eu']. fold u' in Wu', Eu'.
  destruct Msum3 as (MS & P1 & P2 & Q0 & Q1 & Q2 & Q12). destruct M12_ok as [_ HM]. pose proof Hb as Hb8. rewrite b50 in Hb8. pose proof ueps_pos as HE. destruct (KV_pos V K HV HK) as (PV & LK & PK).
  destruct W1 as (X1 & Y1 & Z1), W2 as (X2 & Y2 & Z2), Wu as (Xu & Yu & Zu), Wu' as (Xu' & Yu' & Zu').
  destruct (comp23 _ _ _ _ X1 X2 Xu Xu') as ((Nax & Lax) & (Nbx & Lbx) & (Ncx & Lcx) & Wax & Wbx & Wcx & Cx & Cx').
  destruct (comp23 _ _ _ _ Y1 Y2 Yu Yu') as ((Nay & Lay) & (Nby & Lby) & (Ncy & Lcy) & Way & Wby & Wcy & Cy & Cy').
  destruct (comp23 _ _ _ _ Z1 Z2 Zu Zu') as ((Naz & Laz) & (Nbz & Lbz) & (Ncz & Lcz) & Waz & Wbz & Wcz & Cz & Cz').
  split; [split; [exact Wax|split; [exact Way|exact Waz]]|]. split; [split; [exact Wbx|split; [exact Wby|exact Wbz]]|]. split; [split; [exact Wcx|split; [exact Wcy|exact Wcz]]|].
  assert (EKV : 0 <= ueps * (K * V)) by (apply Rmult_le_pos; lra). assert (LV : V <= 10 * (K * V)) by lra.
  split.
  - pose proof (mom23_real x1 x2 y0 y1 y2 y12 _ _ _ _ _ _ _ _ _ _ V _ P1 P2 Q0 Q1 Q2 Q12 HM Hb8 Cx Cx' LV Nax Nbx Ncx) as Mx.
    pose proof (mom23_real x1 x2 y0 y1 y2 y12 _ _ _ _ _ _ _ _ _ _ V _ P1 P2 Q0 Q1 Q2 Q12 HM Hb8 Cy Cy' LV Nay Nby Ncy) as My.
    pose proof (mom23_real x1 x2 y0 y1 y2 y12 _ _ _ _ _ _ _ _ _ _ V _ P1 P2 Q0 Q1 Q2 Q12 HM Hb8 Cz Cz' LV Naz Nbz Ncz) as Mz.
    assert (L : (y0 + y1 + y2) * (78 * (ueps * (K * V)) + 2 * (ueps * (10 * (K * V)))) + 8 * ueps * ((x1 + x2) * V) <= 126 * ueps * (K * ((x1 + x2) * V))).
    { assert (I1 : (y0 + y1 + y2) * (78 * (ueps * (K * V)) + 2 * (ueps * (10 * (K * V)))) <= 1001 / 1000 * (x1 + x2) * (78 * (ueps * (K * V)) + 2 * (ueps * (10 * (K * V))))) by (apply Rmult_le_compat_r; lra).
      assert (I2 : 8 * ueps * ((x1 + x2) * V) <= 8 * ueps * ((x1 + x2) * (K * V))) by (apply Rmult_le_compat_l; [lra|apply Rmult_le_compat_l; lra]).
      assert (0 <= (x1 + x2) * (ueps * (K * V))) by (apply Rmult_le_pos; lra). lra. }
    unfold close3, momentum2, momentum3, realv; cbn [vx vy vz]. split; [|split]; (eapply Rle_trans; [|exact L]); assumption.
  - pose proof (ke23_real x1 x2 y0 y1 y2 y12 _ _ _ _ _ _ _ _ _ _ V _ P1 P2 Q0 Q1 Q2 Q12 HM Hb8 Cx Cx' LV Nax Nbx Ncx Lax Lbx Lcx (proj2 Wax) (proj2 Wbx) (proj2 Wcx)) as Ex.
    pose proof (ke23_real x1 x2 y0 y1 y2 y12 _ _ _ _ _ _ _ _ _ _ V _ P1 P2 Q0 Q1 Q2 Q12 HM Hb8 Cy Cy' LV Nay Nby Ncy Lay Lby Lcy (proj2 Way) (proj2 Wby) (proj2 Wcy)) as Ey.
    pose proof (ke23_real x1 x2 y0 y1 y2 y12 _ _ _ _ _ _ _ _ _ _ V _ P1 P2 Q0 Q1 Q2 Q12 HM Hb8 Cz Cz' LV Naz Nbz Ncz Laz Lbz Lcz (proj2 Waz) (proj2 Wbz) (proj2 Wcz)) as Ez.
    destruct (rmass_pos x1 x2 P1 P2) as [Pm Lm]. set (n := rmass y0 y12) in *. set (n' := rmass y1 y2) in *. set (m := rmass x1 x2) in *. set (s2 := real64 sc * real64 sc) in *. set (d2 := real64 sd * real64 sd) in *.
    set (Er := (y0 + y1 + y2) * _ + _) in Ex, Ey, Ez.
    set (T := (x1 + x2) * (ueps * (V * V))). pose proof (pos_sq V PV) as HVV. assert (T0 : 0 <= T) by (apply Rmult_le_pos; [lra|apply Rmult_le_pos; lra]).
    pose proof (one_sq K (proj1 HK)) as K1. assert (TK : T <= K * K * T) by (assert (1 * T <= K * K * T) by (apply Rmult_le_compat_r; lra); lra).
    assert (LEr : 3 / 2 * Er <= 2500 * (K * K * T) + 12 * T).
    { unfold Er. match goal with |- 3 / 2 * ((y0 + y1 + y2) * ?X + _) <= _ => assert (I0 : 0 <= X) by (apply Rplus_le_le_0_compat; apply Rmult_le_pos; try apply Rmult_le_pos; lra); assert (I1 : (y0 + y1 + y2) * X <= 1001 / 1000 * (x1 + x2) * X) by (apply Rmult_le_compat_r; lra) end.
      unfold T in *. lra. }
    assert (Sq : forall t : R, Rabs t <= 4 * V -> 0 <= t ^ 2 <= 16 * (V * V)) by exact (sq16 V).
    assert (Lu : 0 <= norm2 (realv u) <= 48 * (V * V)) by (unfold norm2, realv; cbn [vx vy vz]; pose proof (Sq _ (proj2 Xu)); pose proof (Sq _ (proj2 Yu)); pose proof (Sq _ (proj2 Zu)); lra).
    assert (Lu' : 0 <= norm2 (realv u') <= 48 * (V * V)) by (unfold norm2, realv; cbn [vx vy vz]; pose proof (Sq _ (proj2 Xu')); pose proof (Sq _ (proj2 Yu')); pose proof (Sq _ (proj2 Zu')); lra).
    assert (GG : forall d nn, Rabs d <= 11 * ueps * m -> 0 <= nn <= 48 * (V * V) -> Rabs (d * nn) <= 132 * T).
    { intros d nn Hdd Hn. rewrite Rabs_mult, (Rabs_pos_eq nn) by lra. apply Rle_trans with (11 * ueps * ((x1 + x2) / 4) * (48 * (V * V))).
      - apply Rmult_le_compat; [apply Rabs_pos|lra| |lra]. eapply Rle_trans; [exact Hdd|]. apply Rmult_le_compat_l; lra.
      - unfold T. lra. }
    pose proof (GG _ _ Ec Lu) as G1. pose proof (GG _ _ Ee Lu') as G1'. clear GG.
    assert (G2 : Rabs (m * (norm2 (realv u) + norm2 (realv u') - (dist2 (realv v1) (realv v2) + 2 * real64 dE / m))) <= (x1 + x2) / 4 * (752 * (ueps * (V * V)) + 32 * (kap * (V * V)))).
    { rewrite Rabs_mult, (Rabs_pos_eq m) by lra. apply Rmult_le_compat; [lra|apply Rabs_pos|exact Lm|]. change fB2R with real64 in E12. apply Rabs_le_inv in Eu, Eu', ES, E12. apply Rabs_le. lra. }
    assert (EG : m * (2 * real64 dE / m) = 2 * real64 dE) by (field; lra).
    assert (Fin : (4000 * ueps * K ^ 2 + 4 * kap) * ((x1 + x2) * V ^ 2) = 4000 * (K * K * T) + 4 * kap * ((x1 + x2) * (V * V))) by (unfold T; ring). rewrite Fin.
    rewrite Rmult_minus_distr_l, !Rmult_plus_distr_l, EG in G2. rewrite Rmult_minus_distr_r in G1, G1'.
    apply Rabs_le_inv in Ex, Ey, Ez, G1, G1', G2. unfold kinetic, norm2, dist2, realv in *. cbn [vx vy vz] in *.
    change (vx w1) with (fadd (fadd (fmul (over_m2 mu) (vx v1)) (fmul (over_m1 mu) (vx v2))) (fmul (fmul (over_m1 nu) sc) (vx u))).
    change (vy w1) with (fadd (fadd (fmul (over_m2 mu) (vy v1)) (fmul (over_m1 mu) (vy v2))) (fmul (fmul (over_m1 nu) sc) (vy u))).
    change (vz w1) with (fadd (fadd (fmul (over_m2 mu) (vz v1)) (fmul (over_m1 mu) (vz v2))) (fmul (fmul (over_m1 nu) sc) (vz u))).
    change (vx w2) with (fadd (fsub (fadd (fmul (over_m2 mu) (vx v1)) (fmul (over_m1 mu) (vx v2))) (fmul (fmul (over_m2 nu) sc) (vx u))) (fmul (fmul (over_m1 ka) sd) (vx u'))).
    change (vy w2) with (fadd (fsub (fadd (fmul (over_m2 mu) (vy v1)) (fmul (over_m1 mu) (vy v2))) (fmul (fmul (over_m2 nu) sc) (vy u))) (fmul (fmul (over_m1 ka) sd) (vy u'))).
    change (vz w2) with (fadd (fsub (fadd (fmul (over_m2 mu) (vz v1)) (fmul (over_m1 mu) (vz v2))) (fmul (fmul (over_m2 nu) sc) (vz u))) (fmul (fmul (over_m1 ka) sd) (vz u'))).
    change (vx w3) with (fsub (fsub (fadd (fmul (over_m2 mu) (vx v1)) (fmul (over_m1 mu) (vx v2))) (fmul (fmul (over_m2 nu) sc) (vx u))) (fmul (fmul (over_m2 ka) sd) (vx u'))).
    change (vy w3) with (fsub (fsub (fadd (fmul (over_m2 mu) (vy v1)) (fmul (over_m1 mu) (vy v2))) (fmul (fmul (over_m2 nu) sc) (vy u))) (fmul (fmul (over_m2 ka) sd) (vy u'))).
    change (vz w3) with (fsub (fsub (fadd (fmul (over_m2 mu) (vz v1)) (fmul (over_m1 mu) (vz v2))) (fmul (fmul (over_m2 nu) sc) (vz u))) (fmul (fmul (over_m2 ka) sd) (vz u'))).
    set (a1 := real64 (fadd _ (fmul _ (vx u)))) in *. set (a2 := real64 (fadd _ (fmul _ (vy u)))) in *. set (a3 := real64 (fadd _ (fmul _ (vz u)))) in *.
    set (b1 := real64 (fadd _ (fmul _ (vx u')))) in *. set (b2 := real64 (fadd _ (fmul _ (vy u')))) in *. set (b3 := real64 (fadd _ (fmul _ (vz u')))) in *.
    set (c1 := real64 (fsub _ (fmul _ (vx u')))) in *. set (c2 := real64 (fsub _ (fmul _ (vy u')))) in *. set (c3 := real64 (fsub _ (fmul _ (vz u')))) in *.
    assert (TT : (x1 + x2) / 4 * (752 * (ueps * (V * V)) + 32 * (kap * (V * V))) = 188 * T + 8 * kap * ((x1 + x2) * (V * V))) by (unfold T; lra).
    rewrite <- Rmult_plus_distr_l, TT in G2. clear TT Fin.
    set (KT := K * K * T) in *. clearbody KT Er T a1 a2 a3 b1 b2 b3 c1 c2 c3. set (kk := 4 * kap * ((x1 + x2) * (V * V))) in *. replace (8 * kap * ((x1 + x2) * (V * V))) with (2 * kk) in G2 by (unfold kk; ring). clearbody kk.
    apply Rabs_le. lra.
Qed.
End Three.
