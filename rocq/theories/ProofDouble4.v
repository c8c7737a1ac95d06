(** Which channel is chosen in binary64. *)
From Coq Require Import Reals Lra Lia ZArith Bool List Psatz.
From Flocq Require Import Core.Core IEEE754.BinarySingleNaN.
From Verif Require Import Base Num ModelTerm ModelCollide ModelXsec ModelSet SpecPhys SpecXsec SpecSet SpecRound SpecDouble ProofF64 ProofFloat ProofSelect ProofRound3 ProofRound ProofDouble ProofDouble2 ProofDouble3.
From Coq Require Import List.
Import ListNotations.
Local Open Scope R_scope.

Lemma pick_partial {N : Num} (cs : list N) r : forall tot j0 j c, pick cs r tot j0 = (j, c) -> (0 <= j0)%Z -> (0 <= j)%Z ->
  exists i, j = (j0 + Z.of_nat i)%Z /\ nth_error cs i = Some c /\
    (r <? fold_left (fun s c => s + c) (firstn (S i) cs) tot)%num = true /\ (i = 0%nat \/ (r <? fold_left (fun s c => s + c) (firstn i cs) tot)%num = false).
Proof.
  induction cs as [|d cs IH]; intros tot j0 j c H H0 Hj; cbn [pick] in H; [injection H as <- <-; lia|]. destruct (r <? tot + d)%num eqn:E.
  - injection H as <- <-. exists 0%nat. split; [lia|]. split; [reflexivity|]. split; [exact E|left; reflexivity].
  - destruct (IH _ _ _ _ H ltac:(lia) Hj) as (i & Ej & En & A & B). exists (S i). split; [lia|]. split; [exact En|]. split; [exact A|]. right.
    destruct B as [->|B]; [exact E|]. exact B.
Qed.
Lemma channels_fun K rhs v cs cs' : channels K rhs v cs -> channels K rhs v cs' -> cs = cs'.
Proof.
  intros H. revert cs'. induction H as [|e s rhs cs He H IH]; intros cs' H'; inversion H' as [|? s' ? cs2 He' Ht']; subst; [reflexivity|].
  unfold sigma_is in *. rewrite He in He'. injection He' as <-. f_equal. apply IH, Ht'.
Qed.
Lemma Forall2_firstn {A B} (P : A -> B -> Prop) l l' n : Forall2 P l l' -> Forall2 P (firstn n l) (firstn n l').
Proof. intros H. revert n. induction H as [|x y l l' Hx H IH]; intros [|n]; cbn [firstn]; constructor; auto. Qed.
Lemma Forall2_nth {A B} (P : A -> B -> Prop) l l' n x : Forall2 P l l' -> nth_error l n = Some x -> exists y, nth_error l' n = Some y /\ P x y.
Proof. intros H. revert n. induction H as [|a b l l' Hx H IH]; intros [|n] E; cbn [nth_error] in *; try discriminate; [injection E as <-; eauto|eauto]. Qed.
Lemma Rsum_firstn_le (l : list R) n : Forall (fun x => 0 <= x) l -> 0 <= Rsum (firstn n l) <= Rsum l.
Proof. intros H. revert n. induction H as [|x l Hx H IH]; intros [|n]; cbn [firstn Rsum]; try lra; [specialize (IH 0%nat); cbn [firstn Rsum] in IH; lra|specialize (IH n); lra]. Qed.

Lemma choice_arith a u eta d w S T P1 Q1 P2 Q2 r n : 0 < a <= 1 -> 0 < u -> 0 <= eta <= u * S -> 0 <= w <= 1 -> 0 <= S -> 1 - n * u <= a * a -> 0 <= n -> d = (n + 4) * u ->
  S * a <= T -> T * a <= S -> Rabs (r - w * T) <= u * (w * T) + eta ->
  0 <= P1 <= S -> 0 <= P2 <= S -> P1 * a <= Q1 -> Q2 * a <= P2 -> Q1 <= r \/ P1 = 0 -> r < Q2 ->
  P1 - d * S <= w * S /\ w * S <= P2 + d * S.
Proof.
  intros Ha Hu He Hw HS Hn Hn0 -> T1 T2 Hr HP1 HP2 A1 A2 B1 B2. apply Rabs_le_inv in Hr. assert (T0 : 0 <= T) by nra. assert (wT : 0 <= w * T) by nra.
  assert (wTa : w * T * a <= w * S) by (rewrite Rmult_assoc; apply Rmult_le_compat_l; lra). assert (wSa : w * S * a <= w * T) by (rewrite Rmult_assoc; apply Rmult_le_compat_l; lra).
  assert (wS : 0 <= w * S <= S) by (split; nra). assert (uS : 0 <= u * S) by nra. assert (nuS : 0 <= n * u * S) by (apply Rmult_le_pos; [apply Rmult_le_pos; lra|lra]). split.
  - destruct B1 as [B1|B1]; [|rewrite B1; nra].
    assert (E1 : P1 * a * a <= (w * T + (u * (w * T) + eta)) * a) by (apply Rmult_le_compat_r; lra).
    assert (E2 : (w * T + (u * (w * T) + eta)) * a <= w * S + u * (w * S) + eta). { replace ((w * T + (u * (w * T) + eta)) * a) with (w * T * a + u * (w * T * a) + eta * a) by ring. assert (eta * a <= eta) by nra. assert (u * (w * T * a) <= u * (w * S)) by (apply Rmult_le_compat_l; lra). lra. }
    assert (E3 : P1 * (1 - n * u) <= P1 * a * a) by (rewrite Rmult_assoc; apply Rmult_le_compat_l; lra).
    assert (E4 : P1 * (n * u) <= S * (n * u)) by (apply Rmult_le_compat_r; [nra|lra]).
    assert (E5 : u * (w * S) <= u * S) by (apply Rmult_le_compat_l; lra). lra.
  - assert (E1 : (w * T - (u * (w * T) + eta)) * a <= Q2 * a) by (apply Rmult_le_compat_r; lra).
    assert (F : w * T * a * u <= w * S * u) by (apply Rmult_le_compat_r; lra).
    assert (E2 : w * S * (a * a) <= w * T * a) by (rewrite <- Rmult_assoc; apply Rmult_le_compat_r; lra).
    assert (E3 : w * S * (1 - n * u) <= w * S * (a * a)) by (apply Rmult_le_compat_l; lra).
    assert (E4 : w * S * (n * u) <= S * (n * u)) by (apply Rmult_le_compat_r; [nra|lra]). assert (E5 : u * (w * S) <= u * S) by (apply Rmult_le_compat_l; lra). assert (eta * a <= eta) by nra.
    replace ((w * T - (u * (w * T) + eta)) * a) with (w * T * a - w * T * a * u - eta * a) in E1 by ring. lra.
Qed.

Section Choice.
Context {lm : libm}.
Variables (K : F64 lm) (K' : R) (m : nat).
Hypothesis Lm : (Z.of_nat m <= 2 ^ 20)%Z.
Lemma partial_near (cs : list (F64 lm)) cs' i : Forall2 (ap 686 m) cs cs' -> (Z.of_nat (length cs) <= 2 ^ 20)%Z ->
  let t := fold_left (fun s c => nadd (n:=F64 lm) s c) (firstn i cs) (fofZ 0) in is_finite t = true /\ near (m + length cs) (real64 t) (Rsum (firstn i cs')).
Proof using Lm.
  intros A L. assert (Li : (@length binary64 (firstn i cs) <= length cs)%nat) by (change (@length binary64 (firstn i cs)) with (length (firstn i cs)); rewrite firstn_length; lia).
  destruct (total_double (lm:=lm) m Lm (firstn i cs) (firstn i cs') (Forall2_firstn _ _ _ i A) 0%nat (fofZ 0) 0 (acc_0 686 m)) as [[F N] _]; [lia|].
  split; [exact F|]. rewrite Rplus_0_l in N. eapply near_weak; [|exact N]. lia.
Qed.
Lemma choice_double rhs rhs' (v M : F64 lm) (g : rng (F64 lm)) k j c k' cs' : Forall2 (pair_xs K K' m) rhs rhs' -> num64 v -> 0 < real64 v -> (Z.of_nat (length rhs) <= 2 ^ 20)%Z -> frng_ok g ->
  calculateOutPath K rhs M v g k = Ok (j, c, k') -> channels K' rhs' (real64 v) cs' -> (0 <= j)%Z -> 0 < Rsum cs' ->
  exists i c', j = Z.of_nat i /\ nth_error cs' i = Some c' /\ 0 < c' /\ approx64 m c c' /\
    let d := INR (2 * length rhs + 2 * m + 4) * bpow radix2 (-53) in frac cs' i - d <= real64 (g_exc g (k + 1)) <= frac cs' (S i) + d.
Proof using Lm.
  intros H Hv P L Hg EO C Hj Sp. pose proof EO as EO1. apply outpath_valid in EO1 as (cs & Ec & EO1). destruct (channels_double K K' m Lm rhs rhs' v cs H Hv P Ec) as (cs2 & C2 & A & Lc).
  rewrite <- (channels_fun _ _ _ _ _ C C2) in A. clear cs2 C2. destruct EO1 as [(_ & Q & _)|(_ & _ & EP)]; [lia|].
  assert (Nn : Forall (fun x : F64 lm => fnonneg x) cs).
  { clear - A. induction A as [|s s' cs cs' [[F N] _] H IH]; constructor; [|exact IH]. unfold fnonneg. rewrite fleb_le by (reflexivity || exact F). apply Rle_bool_true. rewrite fofZ0. exact (near_nonneg _ _ _ N). }
  assert (Nr : Forall (fun x => 0 <= x) cs'). { clear - A. induction A as [|s s' cs cs' [[F N] _] H IH]; constructor; [apply N|exact IH]. }
  destruct (foutpath_valid K rhs M v g k j c k' cs Hg Ec Nn EO) as [Q|(i0 & Hi0 & En0 & Hc)]; [lia|].
  destruct (pick_partial cs _ _ _ _ _ EP ltac:(lia) Hj) as (i & Ej & En & B2 & B1). assert (i0 = i) by lia. subst i0. 
  destruct (Forall2_nth _ _ _ _ _ A En) as (c' & Ec' & Ac). exists i, c'. split; [lia|]. split; [exact Ec'|]. destruct Ac as [[Fc Ncc] Sc].
  split. { apply fltb_lt in Hc; [|reflexivity|exact Fc]. change (real64 (fofZ 0) < real64 c) in Hc. rewrite real0 in Hc. destruct (Rle_lt_dec c' 0) as [Q|Q]; [|exact Q]. assert (c' = 0) by (pose proof (proj1 Ncc); lra). subst c'. apply near_zero in Ncc. lra. }
  split; [split; assumption|]. cbv zeta.
  assert (Lcs : (Z.of_nat (length cs) <= 2 ^ 20)%Z) by (rewrite Lc; exact L).
  destruct (partial_near cs cs' i A Lcs) as [F1 N1]. destruct (partial_near cs cs' (S i) A Lcs) as [F2 N2]. destruct (partial_near cs cs' (length cs) A Lcs) as [FT NT]. rewrite firstn_all in FT, NT.
  assert (Ls : length cs = length cs') by (clear - A; induction A; cbn [length]; congruence). rewrite Ls in NT at 2. rewrite firstn_all in NT. change (fold_left (fun s c0 => nadd (n:=F64 lm) s c0) cs (fofZ 0)) with (cs_total (N:=F64 lm) cs) in *. cbv zeta in F1, N1, F2, N2, FT, NT. rewrite Lc in *.
  destruct (Hg (k + 1)%nat) as (_ & _ & U0 & U1). destruct (unit_finite _ U0 U1) as [Fu Hu]. change (fB2R (g_exc g (k + 1))) with (real64 (g_exc g (k + 1))) in Hu. set (w := real64 (g_exc g (k + 1))) in *.
  set (S := Rsum cs') in *. set (n := length rhs) in *. pose proof (uqn_pos (m + n)) as Up. pose proof (uqn_half (m + n) ltac:(cbn [Nat.add]; lia)) as Uh.
  destruct (sum_low m cs cs' A) as [_ [S1|S1]]; [change (S = 0) in S1; lra|]. change (bpow radix2 (-686) <= S) in S1.
  pose proof (Rsum_firstn_le cs' i Nr) as PI. pose proof (Rsum_firstn_le cs' (Datatypes.S i) Nr) as PS. change (Rsum cs') with S in PI, PS.
  assert (Fm : is_finite (fmul (g_exc g (k + 1)) (cs_total cs)) = true /\ Rabs (real64 (fmul (g_exc g (k + 1)) (cs_total cs)) - w * real64 (cs_total cs)) <= ueps * (w * real64 (cs_total cs)) + ueta).
  { assert (T0 : 0 <= real64 (cs_total cs)) by exact (near_nonneg _ _ _ NT). destruct (total_double (lm:=lm) m Lm cs cs' A 0%nat (fofZ 0) 0 (acc_0 686 m)) as [[_ _] BT]; [cbn [Nat.add]; change (@length binary64 cs) with (@length (T (F64 lm)) cs); rewrite Lc; exact L|].
    rewrite Rplus_0_l in BT. cbn [Nat.add] in BT. change (Rsum cs') with S in BT. change (@length binary64 cs) with (@length (T (F64 lm)) cs) in BT. rewrite Lc in BT.
    assert (B20 : INR n <= bpow radix2 20). { rewrite INR_IZR_INZ. change (bpow radix2 20) with (IZR (2 ^ 20)). apply IZR_le. exact L. }
    assert (Tb : real64 (cs_total cs) <= 2 * S) by (destruct NT as (_ & _ & D); nra).
    assert (wT : 0 <= w * real64 (cs_total cs) <= real64 (cs_total cs)) by (split; nra).
    destruct (fmul_err (g_exc g (k + 1)) (cs_total cs) Fu FT) as [Fm Em].
    - change (Rabs (w * real64 (cs_total cs)) <= bpow radix2 1000). rewrite Rabs_pos_eq by apply wT. apply Rle_trans with (2 * (bpow radix2 20 * bpow radix2 686)).
      + eapply Rle_trans; [apply wT|]. eapply Rle_trans; [exact Tb|]. apply Rmult_le_compat_l; [lra|]. eapply Rle_trans; [exact BT|]. apply Rmult_le_compat_r; [apply bpow_ge_0|exact B20].
      + change 2 with (bpow radix2 1) at 1. rewrite <- !bpow_plus. apply bpow_le. lia.
    - split; [exact Fm|]. change (Rabs (real64 (fmul (g_exc g (k + 1)) (cs_total cs)) - w * real64 (cs_total cs)) <= ueps * Rabs (w * real64 (cs_total cs)) + ueta) in Em. rewrite (Rabs_pos_eq (w * real64 (cs_total cs))) in Em by apply wT. exact Em. }
  destruct Fm as [Fm Em]. set (r := fmul (g_exc g (k + 1)) (cs_total cs)) in *.
  assert (Eta : 0 <= ueta <= ueps * S). { split; [left; exact ueta_pos|]. apply Rle_trans with (ueps * bpow radix2 (-686)); [unfold ueta, ueps; rewrite <- bpow_plus; apply bpow_le; lia|apply Rmult_le_compat_l; [left; apply ueps_pos|exact S1]]. }
  assert (Bn : 1 - INR (2 * n + 2 * m) * ueps <= uq ^ (m + n) * uq ^ (m + n)). { rewrite <- pow_add. replace (m + n + (m + n))%nat with (2 * n + 2 * m)%nat by lia. apply uqn_bernoulli. }
  assert (Ed : INR (2 * n + 2 * m + 4) * bpow radix2 (-53) = (INR (2 * n + 2 * m) + 4) * ueps). { replace (2 * n + 2 * m + 4)%nat with (2 * n + 2 * m + 4)%nat by lia. rewrite (plus_INR (2 * n + 2 * m) 4). replace (INR 4) with 4 by (cbn; ring). reflexivity. }
  assert (R2 : real64 r < real64 (fold_left (fun s c0 => nadd (n:=F64 lm) s c0) (firstn (Datatypes.S i) cs) (fofZ 0))) by (apply (fltb_lt r _ Fm F2) in B2; exact B2).
  assert (R1 : real64 (fold_left (fun s c0 => nadd (n:=F64 lm) s c0) (firstn i cs) (fofZ 0)) <= real64 r \/ Rsum (firstn i cs') = 0).
  { destruct B1 as [->|B1]; [right; reflexivity|left]. apply (fltb_ge r _ Fm F1) in B1. exact B1. }
  destruct (choice_arith _ ueps ueta _ w S (real64 (cs_total cs)) _ _ _ _ (real64 r) (INR (2 * n + 2 * m)) Up (proj1 ueps_pos) Eta ltac:(lra) ltac:(lra) Bn (pos_INR _) Ed
    (proj1 (proj2 NT)) (proj2 (proj2 NT)) Em PI PS (proj1 (proj2 N1)) (proj2 (proj2 N2)) R1 R2) as [G1 G2].
  unfold frac. change (Rsum cs') with S. set (d := INR (2 * n + 2 * m + 4) * bpow radix2 (-53)) in *. split.
  - apply Rmult_le_reg_r with S; [exact Sp|]. replace ((Rsum (firstn i cs') / S - d) * S) with (Rsum (firstn i cs') - d * S) by (field; lra). exact G1.
  - apply Rmult_le_reg_r with S; [exact Sp|]. replace ((Rsum (firstn (Datatypes.S i) cs') / S + d) * S) with (Rsum (firstn (Datatypes.S i) cs') + d * S) by (field; lra). exact G2.
Qed.
End Choice.
