(** Sets of channels and acceptance in binary64. *)
From Coq Require Import Reals Lra Lia ZArith Bool List Psatz.
From Flocq Require Import Core.Core IEEE754.BinarySingleNaN.
From Verif Require Import Base Num ModelTerm ModelCollide ModelXsec ModelSet SpecPhys SpecXsec SpecSet SpecRound SpecDouble ProofF64 ProofFloat ProofSelect ProofRound3 ProofRound ProofDouble ProofDouble2.
From Coq Require Import List.
Import ListNotations.
Local Open Scope R_scope.

Lemma accept_arith a u eta d r M' M x X Y w : 0 < a <= 1 -> 0 < u < 1 / 2 -> 0 <= eta -> eta <= u * w -> w <= x -> 1 - d + u <= a * a * (1 - u) -> 0 <= r <= 1 -> 0 <= M' ->
  M' * a <= M -> M * a <= M' -> x * a <= X -> X * a <= x -> Y <= r * M + (u * (r * M) + eta) -> r * M - (u * (r * M) + eta) <= Y ->
  (r * M' <= x * (1 - d) -> Y <= X) /\ (x < r * M' * (1 - d) -> X < Y).
Proof.
  intros Ha Hu He Hw Hx Hd Hr HM A1 A2 B1 B2 C1 C2.
  assert (E1 : eta <= u * x) by nra.
  assert (M0 : 0 <= M) by nra. assert (RM : 0 <= r * M) by nra. assert (RM' : 0 <= r * M') by nra.
  assert (D1 : r * M * a <= r * M') by (rewrite Rmult_assoc; apply Rmult_le_compat_l; lra).
  assert (D2 : r * M' * a <= r * M) by (rewrite Rmult_assoc; apply Rmult_le_compat_l; lra).
  assert (x0 : 0 <= x). { destruct (Rle_lt_dec 0 x); [assumption|]. assert (eta < 0) by nra. lra. }
  set (P := r * M) in *. set (Q := r * M') in *. split; intros H.
  - apply Rmult_le_reg_r with (a * (1 - u)); [nra|].
    apply Rle_trans with ((P + (u * P + eta)) * (a * (1 - u))); [apply Rmult_le_compat_r; [nra|lra]|].
    apply Rle_trans with (x * (a * a * (1 - u))).
    + assert (T1 : P * a * ((1 + u) * (1 - u)) <= Q). { apply Rle_trans with (P * a * 1); [apply Rmult_le_compat_l; nra|lra]. }
      assert (T2 : eta * (a * (1 - u)) <= eta * 1). { apply Rmult_le_compat_l; [lra|nra]. }
      assert (T3 : x * (1 - d + u) <= x * (a * a * (1 - u))) by (apply Rmult_le_compat_l; lra).
      replace ((P + (u * P + eta)) * (a * (1 - u))) with (P * a * ((1 + u) * (1 - u)) + eta * (a * (1 - u))) by ring. lra.
    + replace (x * (a * a * (1 - u))) with (x * a * (a * (1 - u))) by ring. apply Rmult_le_compat_r; [nra|exact B1].
  - apply Rmult_lt_reg_r with a; [lra|]. apply Rle_lt_trans with x; [exact B2|]. eapply Rlt_le_trans; [exact H|].
    apply Rle_trans with ((P - (u * P + eta)) * a); [|apply Rmult_le_compat_r; lra].
    assert (aa : a * a <= 1) by nra. assert (Q0 : 0 < Q). { destruct RM' as [RM'|RM']; [exact RM'|]. rewrite <- RM' in H. lra. }
    assert (D0 : 0 <= 1 - d). { destruct (Rle_lt_dec 0 (1 - d)); [assumption|]. assert (Q * (1 - d) < 0) by nra. lra. }
    assert (xQ : x <= Q). { assert (Q * (1 - d) <= Q * 1). { apply Rmult_le_compat_l; [lra|]. nra. } lra. }
    assert (T1 : Q * (1 - d + u) <= Q * (a * a * (1 - u))) by (apply Rmult_le_compat_l; lra).
    assert (T2 : Q * a * (a * (1 - u)) <= P * (a * (1 - u))) by (apply Rmult_le_compat_r; [nra|exact D2]).
    assert (T3 : eta * a <= eta * 1) by (apply Rmult_le_compat_l; lra).
    assert (T4 : eta <= u * Q) by (eapply Rle_trans; [exact E1|apply Rmult_le_compat_l; lra]).
    replace ((P - (u * P + eta)) * a) with (P * (a * (1 - u)) - eta * a) by ring. replace (Q * (a * a * (1 - u))) with (Q * a * (a * (1 - u))) in T1 by ring. lra.
Qed.
Lemma accept_bern m n : 1 - INR (2 * n + 2 * m + 4) * bpow radix2 (-53) + ueps <= uq ^ (m + 1 + n) * uq ^ (m + 1 + n) * (1 - ueps).
Proof.
  replace (2 * n + 2 * m + 4)%nat with (Datatypes.S (m + 1 + n + (m + 1 + n) + 1)) by lia. set (a := (m + 1 + n)%nat).
  pose proof (uqn_bernoulli (a + a + 1)) as B. rewrite (pow_add uq (a + a) 1), (pow_add uq a a), pow_1 in B. change (1 - ueps) with uq. rewrite S_INR. fold ueps. lra.
Qed.
Section Set64.
Context {lm : libm}.
Variables (K : F64 lm) (K' : R).

Lemma ap_quarter : ap 2 1 (fdiv (fofZ 1) (fofZ 4)) (1 / 4).
Proof.
  assert (A4 : ap 2 0 (fofZ 4) 4). { split; [|right; cbn; lra]. split; [reflexivity|]. replace (real64 (fofZ 4)) with 4 by (symmetry; apply fofZ_exact; cbn; lia). apply near_refl. lra. }
  exact (ap_div _ _ _ _ _ _ _ _ ap_1 A4 ltac:(unfold few; lia) ltac:(unfold few; lia) ltac:(lra) ltac:(lia)).
Qed.
Lemma ap_sqrt2 e k x y : ap (2 * e) k x y -> (0 <= e)%Z -> ap e (k + 1) (fsqrt x) (R_sqrt.sqrt y).
Proof.
  intros H He. destruct (ap_sqrt _ _ _ _ H ltac:(lia)) as [A _]. split; [exact A|]. destruct H as [[_ [Y0 _]] [->|[B C]]]; [left; apply sqrt_0|right].
  assert (Q : forall z, bpow radix2 (2 * z) = bpow radix2 z * bpow radix2 z) by (intros z; rewrite <- bpow_plus; f_equal; lia).
  replace (- (2 * e))%Z with (2 * - e)%Z in B by lia. rewrite Q in B, C. split.
  - rewrite <- (sqrt_square (bpow radix2 (- e))) by apply bpow_ge_0. apply sqrt_le_1_alt, B.
  - rewrite <- (sqrt_square (bpow radix2 e)) by apply bpow_ge_0. apply sqrt_le_1_alt, C.
Qed.
Lemma mean_ap k (s0 s1 : F64 lm) s0' s1' : (Z.of_nat k <= 2 ^ 20)%Z -> ap 680 k s0 s0' -> ap 680 k s1 s1' -> ap 686 (2 * k + 7) (mean_sigma s0 s1) (mean_sigma (N:=RNum) s0' s1').
Proof.
  intros Lk A0 A1. pose proof (ap_sqrt2 340 _ _ _ A0 ltac:(lia)) as Q0. pose proof (ap_sqrt2 340 _ _ _ A1 ltac:(lia)) as Q1.
  pose proof (ap_add _ _ _ _ _ _ _ _ Q0 Q1 ltac:(unfold few; lia) ltac:(unfold few; lia) eq_refl ltac:(lia)) as S.
  pose proof (ap_mul _ _ _ _ _ _ _ _ S S ltac:(unfold few; lia) ltac:(unfold few; lia) ltac:(lia)) as P.
  pose proof (ap_mul _ _ _ _ _ _ _ _ ap_quarter P ltac:(unfold few; lia) ltac:(unfold few; lia) ltac:(lia)) as R.
  replace (1 + (Nat.max (k + 1) (k + 1) + 1 + (Nat.max (k + 1) (k + 1) + 1) + 1) + 1)%nat with (2 * k + 7)%nat in R by lia.
  exact (ap_weak _ _ _ _ R 686 (2 * k + 7) ltac:(lia) ltac:(lia)).
Qed.
Lemma agr_weak e k e2 k2 o o' : (e <= e2)%Z -> (k <= k2)%nat -> agr e k o o' -> agr e2 k2 o o'.
Proof. intros E L. destruct o, o'; cbn [agr]; auto. intros A. exact (ap_weak e k _ _ A e2 k2 E L). Qed.
Variable m : nat.
Hypothesis Lm : (Z.of_nat m <= 2 ^ 20)%Z.
Lemma sigma_agr c c' v : double_xs K K' m c c' -> num64 v -> 0 < real64 v -> agr 686 m (sigma K c v) (sigma (N:=RNum) K' c' (real64 v)).
Proof using Lm.
  intros D Hv P. destruct D as [k c c' D Lk|d d' D L6|d d' c0 c1 c0' c1' D L6|k0 k1 c0 c1 c0' c1' D0 D1 Lk].
  - destruct (simple_sigma K K' k c c' v D ltac:(lia) Hv P) as (s & s' & -> & -> & A). apply (agr_weak 680 k); [lia|lia|exact A].
  - apply (agr_weak 557 6); [lia|lia|]. exact (data_eval_agr d d' v D Hv).
  - apply (agr_weak 557 6); [lia|lia|]. exact (data_eval_agr d d' v D Hv).
  - destruct (simple_sigma K K' k0 c0 c0' v D0 ltac:(lia) Hv P) as (s & s' & E0 & E0' & A0). destruct (simple_sigma K K' k1 c1 c1' v D1 ltac:(lia) Hv P) as (t & t' & E1 & E1' & A1).
    cbn [sigma]. rewrite E0, E1, E0', E1'. cbn [obind]. apply (agr_weak 686 (2 * Nat.max k0 k1 + 7)); [lia|exact Lk|]. cbn [agr].
    apply (mean_ap (Nat.max k0 k1)); [lia|apply (ap_weak _ _ _ _ A0); lia|apply (ap_weak _ _ _ _ A1); lia].
Qed.
Lemma ap_pos e k x y : ap e k x y -> nltb (n:=F64 lm) n0 x = nltb (n:=RNum) n0 y.
Proof.
  intros [[F N] S]. rewrite (cmp_lt (fofZ 0) x fin0 F), real0. cbn [nltb RNum]. unfold Rltb. change (@n0 RNum) with 0.
  destruct (Rlt_dec 0 (real64 x)) as [L|L], (Rlt_dec 0 y) as [M|M]; try reflexivity; exfalso.
  - assert (y = 0) by (destruct N as (Z & _); lra). subst y. apply near_zero in N. lra.
  - destruct N as (_ & A & _). pose proof (uqn_pos k) as U. pose proof (Rmult_lt_0_compat _ _ M (proj1 U)). lra.
Qed.
Lemma max_agr c c' v : double_xs K K' m c c' -> num64 v -> 0 < real64 v -> agr 836 (m + 1) (omapf fst (findMaxSigmaV K c v)) (omapf fst (findMaxSigmaV (N:=RNum) K' c' (real64 v))).
Proof using Lm.
  intros D Hv P. pose proof (sigma_agr c c' v D Hv P) as A. destruct D as [k c c' D Lk|d d' D L6|d d' c0 c1 c0' c1' D L6|k0 k1 c0 c1 c0' c1' D0 D1 Lk].
  - destruct D as [s e t Hs Ht|s e t Hs Ht|p s Tref w g e t mu mu' Hpow Hs HT Fw Hw Hg Ht Hmu Emu HK EK]; cbn [findMaxSigmaV].
    + rewrite (cmp_le t v (proj1 Ht) (proj1 Hv)). destruct (nleb (n:=RNum) (real64 t) (real64 v)); [|exact (ap_0 836 (m + 1))]. cbn [omapf fst agr].
      refine (ap_weak 300 1 (fmul s v) (real64 s * real64 v) _ 836 (m + 1) _ _); [|lia|lia]. exact (ap_mul _ _ _ _ _ _ _ _ (ap_num _ Hs) (ap_num _ Hv) ltac:(unfold few; lia) ltac:(unfold few; lia) ltac:(lia)).
    + rewrite (cmp_le t v (proj1 Ht) (proj1 Hv)). destruct (nleb (n:=RNum) (real64 t) (real64 v)); [|exact (ap_0 836 (m + 1))]. cbn [omapf fst agr].
      refine (ap_weak 150 0 s (real64 s) (ap_num _ Hs) 836 (m + 1) _ _); lia.
    + rewrite (cmp_le t v (proj1 Ht) (proj1 Hv)). destruct (nleb (n:=RNum) (real64 t) (real64 v)); [|exact (ap_0 836 (m + 1))].
      match type of A with agr _ _ ?o ?o' => destruct o as [x| | |], o' as [x'| | |]; cbn [agr] in A; try contradiction; try exact I end.
      cbn [obind omapf fst agr]. refine (ap_weak _ _ _ _ (ap_mul _ _ _ _ _ _ _ _ A (ap_num _ Hv) ltac:(unfold few; lia) ltac:(unfold few; lia) ltac:(lia)) 836 (m + 1) _ _); lia.
  - apply (agr_weak 707 7); [lia|lia|]. exact (data_max_agr d d' v D Hv).
  - apply (agr_weak 707 7); [lia|lia|]. exact (data_max_agr d d' v D Hv).
  - cbn [findMaxSigmaV]. destruct (sigma K (XAvgEasy c0 c1) v) as [s| | |], (sigma (N:=RNum) K' (XAvgEasy c0' c1') (real64 v)) as [s'| | |]; cbn [agr] in A; try contradiction; try exact I.
    cbn [obind omapf agr]. rewrite (ap_pos _ _ _ _ A). destruct (nltb (n:=RNum) n0 s'); [|exact (ap_0 836 (m + 1))]. cbn [fst].
    refine (ap_weak _ _ _ _ (ap_mul _ _ _ _ _ _ _ _ A (ap_num _ Hv) ltac:(unfold few; lia) ltac:(unfold few; lia) ltac:(lia)) 836 (m + 1) _ _); lia.
Qed.

(** Running sums. *)
Definition acc (e : Z) (k i : nat) (x : binary64) (y : R) : Prop := approx64 (k + i) x y /\ y <= INR i * bpow radix2 e.
Lemma acc_0 e k : acc e k 0 (fofZ 0) 0.
Proof. split; [split; [reflexivity|]; rewrite real0; apply near_refl; lra|]. cbn [INR]. lra. Qed.
Lemma acc_add e k i x y s s' : acc e k i x y -> ap e k s s' -> (0 <= e <= 960)%Z -> (Z.of_nat k <= 2 ^ 21)%Z -> (Z.of_nat (S i) <= 2 ^ 20)%Z -> acc e k (S i) (fadd x s) (y + s').
Proof using Lm.
  intros [[F N] B] [[F' N'] S] He Hk Hm. apply (near_weak k (k + i) _ _ ltac:(lia)) in N'. pose proof (near_add _ _ _ _ _ N N') as NM.
  assert (Bs : s' <= bpow radix2 e) by (destruct S as [->|[_ S]]; [apply bpow_ge_0|exact S]).
  assert (BM : y + s' <= INR (Datatypes.S i) * bpow radix2 e) by (rewrite S_INR; lra).
  assert (B20 : INR (Datatypes.S i) <= bpow radix2 20). { rewrite INR_IZR_INZ. change (bpow radix2 20) with (IZR (2 ^ 20)). apply IZR_le. exact Hm. }
  assert (U : Rabs (fB2R x + fB2R s) <= bpow radix2 1000).
  { change (Rabs (real64 x + real64 s) <= bpow radix2 1000). pose proof (near_nonneg _ _ _ NM). rewrite Rabs_pos_eq by assumption.
    pose proof (uqn_half (k + i) ltac:(lia)) as Hh. destruct NM as (Z & _ & C). assert (real64 x + real64 s <= 2 * (y + s')) by nra.
    eapply Rle_trans; [exact H0|]. apply Rle_trans with (2 * (bpow radix2 20 * bpow radix2 e)).
    - apply Rmult_le_compat_l; [lra|]. eapply Rle_trans; [exact BM|]. apply Rmult_le_compat_r; [apply bpow_ge_0|exact B20].
    - change 2 with (bpow radix2 1) at 1. rewrite <- !bpow_plus. apply bpow_le. lia. }
  destruct (fadd_err x s F F' U) as [FF E]. split; [|exact BM]. split; [exact FF|]. replace (k + Datatypes.S i)%nat with (1 + (k + i))%nat by lia.
  eapply near_trans; [|exact NM]. apply near_round; [apply (near_nonneg _ _ _ NM)|exact E].
Qed.
Definition pair_xs (e : equation (F64 lm)) (e' : equation RNum) : Prop := double_xs K K' m (q_cs e) (q_cs e').

Lemma set_max_fold rhs rhs' v : Forall2 pair_xs rhs rhs' -> num64 v -> 0 < real64 v -> forall i x y, acc 836 (m + 1) i x y -> (Z.of_nat (i + length rhs) <= 2 ^ 20)%Z -> forall M,
  ofold (fun sum i => do mm <- findMaxSigmaV K (q_cs i) v; Ok (nadd (n:=F64 lm) sum (fst mm))) x rhs = Ok M ->
  exists M', ofold (fun sum i => do mm <- findMaxSigmaV (N:=RNum) K' (q_cs i) (real64 v); Ok (nadd (n:=RNum) sum (fst mm))) y rhs' = Ok M' /\ acc 836 (m + 1) (i + length rhs) M M'.
Proof using Lm.
  intros H Hv P. induction H as [|e e' rhs rhs' He H IH]; intros i x y A L M E; cbn [ofold] in *.
  - injection E as <-. exists y. split; [reflexivity|]. cbn [length]. rewrite Nat.add_0_r. exact A.
  - pose proof (max_agr _ _ v He Hv P) as G. destruct (findMaxSigmaV K (q_cs e) v) as [mm| | |], (findMaxSigmaV (N:=RNum) K' (q_cs e') (real64 v)) as [mm'| | |]; cbn [omapf agr] in G; try contradiction; cbn [obind] in *; try discriminate.
    cbn [length] in L. destruct (IH (S i) _ _ (acc_add _ _ _ _ _ _ _ A G ltac:(lia) ltac:(lia) ltac:(lia)) ltac:(lia) M E) as (M' & E' & A').
    exists M'. split; [exact E'|]. cbn [length]. replace (i + S (length rhs))%nat with (S i + length rhs)%nat by lia. exact A'.
Qed.
Lemma set_max_double rhs rhs' v M : Forall2 pair_xs rhs rhs' -> num64 v -> 0 < real64 v -> (Z.of_nat (length rhs) <= 2 ^ 20)%Z -> findMaxSigmaVProduct K rhs v = Ok M ->
  exists M', findMaxSigmaVProduct (N:=RNum) K' rhs' (real64 v) = Ok M' /\ acc 836 (m + 1) (length rhs) M M'.
Proof using Lm. intros H Hv P L E. exact (set_max_fold rhs rhs' v H Hv P 0%nat _ _ (acc_0 836 (m + 1)) L M E). Qed.
Lemma channels_double rhs rhs' v cs : Forall2 pair_xs rhs rhs' -> num64 v -> 0 < real64 v -> channel_cs K rhs v = Ok cs ->
  exists cs', channels K' rhs' (real64 v) cs' /\ Forall2 (ap 686 m) cs cs' /\ length cs = length rhs.
Proof using Lm.
  intros H Hv P. unfold channel_cs. revert cs. induction H as [|e e' rhs rhs' He H IH]; intros cs E; cbn [omap] in E.
  - injection E as <-. exists []. repeat constructor.
  - pose proof (sigma_agr _ _ v He Hv P) as G. destruct (sigma K (q_cs e) v) as [s| | |]; cbn [obind] in E; try discriminate.
    destruct (sigma (N:=RNum) K' (q_cs e') (real64 v)) as [s'| | |] eqn:E'; cbn [agr] in G; try contradiction.
    destruct (omap (fun i => sigma K (q_cs i) v) rhs) as [ss| | |]; cbn [obind] in E; try discriminate. injection E as <-. destruct (IH ss eq_refl) as (ss' & C & A & L).
    exists (s' :: ss'). split; [constructor; [exact E'|exact C]|]. split; [constructor; assumption|]. cbn [length]. lia.
Qed.
Lemma total_double cs cs' : Forall2 (ap 686 m) cs cs' -> forall i x y, acc 686 m i x y -> (Z.of_nat (i + length cs) <= 2 ^ 20)%Z ->
  acc 686 m (i + length cs) (fold_left (fun s c => nadd (n:=F64 lm) s c) cs x) (y + Rsum cs').
Proof using Lm.
  induction 1 as [|s s' cs cs' A H IH]; intros i x y X L; cbn [fold_left Rsum length] in *; [rewrite Rplus_0_r, Nat.add_0_r; exact X|].
  replace (i + S (length cs))%nat with (S i + length cs)%nat by lia. replace (y + (s' + Rsum cs')) with (y + s' + Rsum cs') by ring. apply IH; [|lia]. apply acc_add; [exact X|exact A|lia|lia|lia].
Qed.
Lemma sum_low cs cs' : Forall2 (ap 686 m) cs cs' -> 0 <= Rsum cs' /\ (Rsum cs' = 0 \/ bpow radix2 (-686) <= Rsum cs').
Proof.
  induction 1 as [|s s' cs cs' A H [IH0 IH]]; cbn [Rsum]; [split; [lra|left; reflexivity]|]. destruct A as [[_ (Z & _)] S]. pose proof (bpow_gt_0 radix2 (-686)). split; [lra|].
  destruct S as [->|[S _]]; [rewrite Rplus_0_l; exact IH|right; change (- (686))%Z with (-686)%Z in S; lra].
Qed.
Lemma accept_double rhs rhs' (V v M : F64 lm) (g : rng (F64 lm)) k j c k' : Forall2 pair_xs rhs rhs' -> num64 V -> num64 v -> 0 < real64 v -> 0 < real64 V -> (Z.of_nat (length rhs) <= 2 ^ 20)%Z -> frng_ok g ->
  findMaxSigmaVProduct K rhs V = Ok M -> calculateOutPath K rhs M v g k = Ok (j, c, k') ->
  exists M' cs', findMaxSigmaVProduct (N:=RNum) K' rhs' (real64 V) = Ok M' /\ channels K' rhs' (real64 v) cs' /\ 0 <= M' /\ 0 <= Rsum cs' /\
    let d := INR (2 * length rhs + 2 * m + 4) * bpow radix2 (-53) in
    (0 < Rsum cs' -> real64 (g_rand g k) * M' <= Rsum cs' * real64 v * (1 - d) -> (0 <= j)%Z) /\
    (Rsum cs' * real64 v < real64 (g_rand g k) * M' * (1 - d) -> j = (-1)%Z) /\
    (Rsum cs' = 0 -> j = (-1)%Z).
Proof using Lm.
  intros H HV Hv P PV L Hg EM EO. destruct (set_max_double rhs rhs' V M H HV PV L EM) as (M' & EM' & [[FM NM] BM]). pose proof EO as EO'. unfold calculateOutPath in EO'.
  destruct (channel_cs K rhs v) as [cs| | |] eqn:Ec; cbn [obind] in EO'; try discriminate. clear EO'. destruct (channels_double rhs rhs' v cs H Hv P Ec) as (cs' & C & A & Lc).
  assert (L' : (Z.of_nat (0 + @length binary64 cs) <= 2 ^ 20)%Z) by (cbn [Nat.add]; change (@length binary64 cs) with (@length (T (F64 lm)) cs); rewrite Lc; exact L).
  pose proof (total_double cs cs' A 0%nat (fofZ 0) 0 (acc_0 686 m) L') as TD. change (fold_left (fun s c0 => nadd (n:=F64 lm) s c0) cs (fofZ 0)) with (cs_total (N:=F64 lm) cs) in TD. rewrite Rplus_0_l in TD. cbn [Nat.add] in TD.
  change (@length binary64 cs) with (@length (T (F64 lm)) cs) in TD. rewrite Lc in TD. destruct TD as [[FT NT] BT].
  destruct (sum_low cs cs' A) as [S0 S1]. set (n := length rhs) in *. set (S := Rsum cs') in *. exists M', cs'. split; [exact EM'|]. split; [exact C|]. split; [apply NM|]. split; [exact S0|].
  assert (Hzero : S = 0 -> j = (-1)%Z).
  { intros Z0. assert (Az : Forall (fun c : F64 lm => is_finite c = true /\ real64 c = 0) cs).
    { assert (G : Rsum cs' = 0) by exact Z0. clear - A G. induction A as [|s s' cs cs' A H IH]; [constructor|]. cbn [Rsum] in G. destruct (sum_low cs cs' H) as [G0 _]. destruct A as [[F N] _]. pose proof (proj1 N).
      assert (s' = 0) by lra. subst s'. constructor; [split; [exact F|exact (near_zero _ _ N)]|]. apply IH. lra. }
    destruct (foutpath_valid K rhs M v g k j c k' cs Hg Ec) as [Q|(i & _ & Hi & Hc)]; [|exact EO|exact Q|].
    - eapply Forall_impl; [|exact Az]. intros a [Fa Ra]. unfold fnonneg. rewrite fleb_le by (reflexivity || exact Fa). apply Rle_bool_true. rewrite fofZ0. change (0 <= real64 a). lra.
    - exfalso. rewrite Forall_forall in Az. destruct (Az c (nth_error_In _ _ Hi)) as [Fc Rc]. apply fltb_lt in Hc; [|reflexivity|exact Fc]. change (real64 (fofZ 0) < real64 c) in Hc. rewrite real0 in Hc. lra. }
  cbv zeta. 
  destruct S1 as [S1|S1].
  { split; [intros Q; exfalso; change (0 < S) in Q; lra|]. split; [|exact Hzero]. intros _. exact (Hzero S1). }
  assert (Sp : 0 < S) by (pose proof (bpow_gt_0 radix2 (-686)); lra).
  assert (nk : (Z.of_nat (m + 1 + n) <= 2 ^ 50)%Z) by (cbn [Nat.add]; lia). pose proof (uqn_half (m + 1 + n) nk) as Uh. pose proof (uqn_pos (m + 1 + n)) as Up.
  (* the product of total and speed *)
  assert (Sv : bpow radix2 (-836) <= S * real64 v). { change (-836)%Z with (-686 + -150)%Z. rewrite bpow_plus. apply Rmult_le_compat; [apply bpow_ge_0|apply bpow_ge_0|exact S1|]. destruct Hv as [_ [Q|[Q _]]]; [lra|exact Q]. }
  assert (Su : S * real64 v <= bpow radix2 856).
  { change 856%Z with ((20 + 686) + 150)%Z. rewrite bpow_plus. apply Rmult_le_compat; [lra|lra| |destruct Hv as [_ [Q|[_ Q]]]; [rewrite Q; apply bpow_ge_0|exact Q]].
    eapply Rle_trans; [exact BT|]. rewrite bpow_plus. apply Rmult_le_compat_r; [apply bpow_ge_0|]. rewrite INR_IZR_INZ. change (bpow radix2 20) with (IZR (2 ^ 20)). apply IZR_le. exact L. }
  assert (Apv : ap 856 (m + n + 0 + 1) (fmul (cs_total cs) v) (S * real64 v)).
  { refine (ap_eq _ _ _ _ _ _ eq_refl eq_refl (ap_weak 856 (m + n + 0 + 1) _ _ _ 856 (m + n + 0 + 1) _ _)); [|lia|lia].
    assert (A1 : ap 706 (m + n) (cs_total cs) S). { split; [split; assumption|]. right. split; [apply Rle_trans with (bpow radix2 (-686)); [apply bpow_le; lia|exact S1]|]. eapply Rle_trans; [exact BT|]. change 706%Z with (20 + 686)%Z. rewrite bpow_plus. apply Rmult_le_compat_r; [apply bpow_ge_0|]. rewrite INR_IZR_INZ. change (bpow radix2 20) with (IZR (2 ^ 20)). apply IZR_le. exact L. }
    exact (ap_mul _ _ _ _ _ _ _ _ A1 (ap_num v Hv) ltac:(unfold few; lia) ltac:(unfold few; lia) ltac:(lia)). }
  destruct Apv as [[Fl Nl] _]. replace (m + n + 0 + 1)%nat with (m + 1 + n)%nat in Nl by lia. destruct Nl as (_ & Nl1 & Nl2).
  (* draw times maximum *)
  destruct (Hg k) as (R0 & R1 & _ & _). destruct (unit_closed _ R0 R1) as [Fr Hr]. change (fB2R (g_rand g k)) with (real64 (g_rand g k)) in Hr. set (r := real64 (g_rand g k)) in *.
  destruct (fmul_within (g_rand g k) M Fr FM) as [Fm _]. { change (Rabs r <= 1). apply Rabs_le. lra. }
  assert (Bm : Rabs (fB2R (g_rand g k) * fB2R M) <= bpow radix2 1000).
  { change (Rabs (r * real64 M) <= bpow radix2 1000). pose proof (near_nonneg _ _ _ NM). rewrite Rabs_pos_eq by nra. assert (real64 M <= 2 * M') by (destruct NM as (Z & _ & D); pose proof (proj1 Up); nra).
    assert (M' <= bpow radix2 856). { eapply Rle_trans; [exact BM|]. change 856%Z with (20 + 836)%Z. rewrite bpow_plus. apply Rmult_le_compat_r; [apply bpow_ge_0|]. rewrite INR_IZR_INZ. change (bpow radix2 20) with (IZR (2 ^ 20)). apply IZR_le. exact L. }
    apply Rle_trans with (2 * bpow radix2 856); [nra|]. change 2 with (bpow radix2 1) at 1. rewrite <- bpow_plus. apply bpow_le. lia. }
  destruct (fmul_err (g_rand g k) M Fr FM Bm) as [_ Em]. change (Rabs (real64 (fmul (g_rand g k) M) - r * real64 M) <= ueps * Rabs (r * real64 M) + ueta) in Em.
  pose proof (near_nonneg _ _ _ NM) as M0. rewrite (Rabs_pos_eq (r * real64 M)) in Em by nra. apply Rabs_le_inv in Em. destruct NM as (M'0 & NM1 & NM2).
  assert (Eta : ueta <= ueps * bpow radix2 (-836)). { unfold ueta, ueps. rewrite <- bpow_plus. apply bpow_le. lia. }
  assert (Hn : Bltb fmin_normal (cs_total cs) = true).
  { destruct fmin_normal_val as [Vn Fn]. apply fltb_lt; [exact Fn|exact FT|]. change (B2R fmin_normal) with (fB2R fmin_normal). rewrite Vn. change (bpow radix2 (-1022) < real64 (cs_total cs)).
    destruct NT as (_ & NT1 & _). pose proof (uqn_half (m + n) ltac:(cbn [Nat.add]; lia)) as Uh9. apply Rlt_le_trans with (bpow radix2 (-687)); [apply bpow_lt; lia|].
    change (-687)%Z with (-686 + -1)%Z. rewrite bpow_plus. change (bpow radix2 (-1)) with (/ 2). pose proof (bpow_gt_0 radix2 (-686)). nra. }
  pose proof (foutpath_total K rhs M v g k j c k' cs Hg Ec FT Hn EO) as T.
  set (d := INR (2 * n + 2 * m + 4) * bpow radix2 (-53)). set (a := uq ^ (m + 1 + n)) in *. set (x := S * real64 v) in *. set (X := real64 (fmul (cs_total cs) v)) in *. set (Y := real64 (fmul (g_rand g k) M)) in *.
  assert (Ha : 1 - d + ueps <= a * a * (1 - ueps)).
  { exact (accept_bern m n). }
  pose proof ueps_pos as Ue. pose proof (accept_arith a ueps ueta d r M' (real64 M) x X Y (bpow radix2 (-836))) as AR.
  assert (G1 : 0 < a <= 1) by exact Up. assert (G2 : 0 <= ueta) by (left; exact ueta_pos).
  destruct AR as [AR1 AR2]; [exact G1|lra|exact G2|exact Eta|exact Sv|exact Ha|lra|exact M'0|exact NM1|exact NM2|exact Nl1|exact Nl2|lra|lra|].
  split; [|split; [|exact Hzero]].
  - intros _ HA. apply T. apply fltb_ge; [exact Fl|exact Fm|]. exact (AR1 HA).
  - intros HR. assert (Q : ~ (0 <= j)%Z). { intros Q. apply T in Q. apply fltb_ge in Q; [|exact Fl|exact Fm]. specialize (AR2 HR). change (Y <= X) in Q. lra. }
    destruct (foutpath_valid K rhs M v g k j c k' cs Hg Ec) as [Q'|(i & Hj & _)]; [|exact EO|exact Q'|lia].
    clear - A. induction A as [|s s' cs cs' [[F N] _] H IH]; constructor; [|exact IH]. unfold fnonneg. rewrite fleb_le by (reflexivity || exact F). apply Rle_bool_true. rewrite fofZ0. exact (near_nonneg _ _ _ N).
Qed.
End Set64.
