(** Counting roundings of nonnegative quantities. *)
From Coq Require Import Reals Lra Lia ZArith Bool List Psatz.
From Flocq Require Import Core.Core IEEE754.BinarySingleNaN.
From Verif Require Import Base Num ModelTerm ModelCollide ModelXsec ModelSet SpecPhys SpecSet SpecRound SpecDouble ProofF64 ProofFloat ProofRound.
From Coq Require Import List.
Import ListNotations.
Local Open Scope R_scope.

Lemma uq_eq : uq = 1 - ueps. Proof. reflexivity. Qed.
Lemma uq_pos : 0 < uq < 1. Proof. rewrite uq_eq. pose proof ueps_pos. lra. Qed.
Lemma uqn_pos k : 0 < uq ^ k <= 1.
Proof. pose proof uq_pos. induction k as [|k IH]; cbn [pow]; [lra|]. nra. Qed.
Lemma uqn_le k k' : (k <= k')%nat -> uq ^ k' <= uq ^ k.
Proof. intros H. replace k' with (k + (k' - k))%nat by lia. rewrite pow_add. pose proof (uqn_pos k). pose proof (uqn_pos (k' - k)). nra. Qed.
Lemma uqn_bernoulli k : 1 - INR k * ueps <= uq ^ k.
Proof.
  pose proof uq_pos. pose proof ueps_pos. rewrite uq_eq in *. induction k as [|k IH]; [cbn [pow INR]; lra|]. rewrite S_INR. cbn [pow]. pose proof (pos_INR k).
  assert (0 <= INR k * ueps) by nra. nra.
Qed.
Lemma uqn_half k : (Z.of_nat k <= 2 ^ 50)%Z -> 1 / 2 <= uq ^ k.
Proof.
  intros H. eapply Rle_trans; [|apply uqn_bernoulli]. rewrite INR_IZR_INZ. apply IZR_le in H. change (IZR (2 ^ 50)) with 1125899906842624 in H. rewrite ueps_val.
  pose proof (Rmult_le_compat_r (/ 9007199254740992) _ _ ltac:(lra) H). lra.
Qed.

Lemma near_nonneg k x y : near k x y -> 0 <= x. Proof. intros (H & A & _). pose proof (uqn_pos k). nra. Qed.
Lemma near_refl k x : 0 <= x -> near k x x. Proof. intros H. pose proof (uqn_pos k). split; [exact H|]. split; nra. Qed.
Lemma near_weak k k' x y : (k <= k')%nat -> near k x y -> near k' x y.
Proof. intros H N. pose proof (near_nonneg _ _ _ N). destruct N as (Z0 & A & B). pose proof (uqn_le k k' H). pose proof (uqn_pos k'). split; [exact Z0|]. split; nra. Qed.
Lemma near_zero k x : near k x 0 -> x = 0. Proof. intros (_ & A & B). pose proof (uqn_pos k). assert (x * uq ^ k <= 0) by lra. nra. Qed.
Lemma near_trans k k' x y z : near k x y -> near k' y z -> near (k + k') x z.
Proof.
  intros N1 N2. pose proof (near_nonneg _ _ _ N1). destruct N1 as (Z0 & A & B), N2 as (Z1 & A' & B'). unfold near. rewrite pow_add. pose proof (uqn_pos k). pose proof (uqn_pos k'). split; [exact Z1|]. split.
  - apply Rle_trans with (y * uq ^ k); [|exact A]. replace (z * (uq ^ k * uq ^ k')) with (z * uq ^ k' * uq ^ k) by ring. apply Rmult_le_compat_r; lra.
  - apply Rle_trans with (y * uq ^ k'); [|exact B']. replace (x * (uq ^ k * uq ^ k')) with (x * uq ^ k * uq ^ k') by ring. apply Rmult_le_compat_r; lra.
Qed.
Lemma near_mult k k' x y x' y' : near k x y -> near k' x' y' -> near (k + k') (x * x') (y * y').
Proof.
  intros N N'. pose proof (near_nonneg _ _ _ N). pose proof (near_nonneg _ _ _ N'). destruct N as (Z0 & A & B), N' as (Z1 & A' & B'). unfold near. rewrite pow_add. pose proof (uqn_pos k). pose proof (uqn_pos k').
  split; [nra|]. split.
  - replace (y * y' * (uq ^ k * uq ^ k')) with ((y * uq ^ k) * (y' * uq ^ k')) by ring. apply Rmult_le_compat; try assumption; nra.
  - replace (x * x' * (uq ^ k * uq ^ k')) with ((x * uq ^ k) * (x' * uq ^ k')) by ring. apply Rmult_le_compat; try assumption; nra.
Qed.
Lemma near_inv k x y : 0 < y -> near k x y -> near k (/ x) (/ y).
Proof.
  intros Hy (Z0 & A & B). pose proof (uqn_pos k). assert (Hx : 0 < x) by (eapply Rlt_le_trans; [|exact A]; nra). split; [left; apply Rinv_0_lt_compat; exact Hy|].
  assert (Q : uq ^ k = / / uq ^ k) by (rewrite Rinv_inv; lra). split.
  - rewrite Q, <- Rinv_mult. apply Rinv_le; [exact Hx|]. apply Rmult_le_reg_r with (uq ^ k); [lra|]. rewrite Rmult_assoc, Rinv_l by lra. lra.
  - rewrite Q, <- Rinv_mult. apply Rinv_le; [exact Hy|]. apply Rmult_le_reg_r with (uq ^ k); [lra|]. rewrite Rmult_assoc, Rinv_l by lra. lra.
Qed.
Lemma near_add k x y x' y' : near k x y -> near k x' y' -> near k (x + x') (y + y').
Proof. intros (Z0 & A & B) (Z1 & A' & B'). split; [lra|]. split; lra. Qed.
Lemma near_max k x y x' y' : near k x y -> near k x' y' -> near k (Rmax x x') (Rmax y y').
Proof.
  intros (Z0 & A & B) (Z1 & A' & B'). pose proof (uqn_pos k). split; [eapply Rle_trans; [exact Z0|apply Rmax_l]|]. split.
  - unfold Rmax at 1. destruct (Rle_dec y y'); [eapply Rle_trans; [exact A'|apply Rmax_r]|eapply Rle_trans; [exact A|apply Rmax_l]].
  - unfold Rmax at 1. destruct (Rle_dec x x'); [eapply Rle_trans; [exact B'|apply Rmax_r]|eapply Rle_trans; [exact B|apply Rmax_l]].
Qed.
Lemma near_sqrt k x y : near k x y -> near k (R_sqrt.sqrt x) (R_sqrt.sqrt y).
Proof.
  intros N. pose proof (near_nonneg _ _ _ N). destruct N as (Z0 & A & B). pose proof (uqn_pos k) as U. split; [apply sqrt_pos|].
  assert (S : uq ^ k <= R_sqrt.sqrt (uq ^ k)). { rewrite <- (sqrt_square (uq ^ k)) at 1 by lra. apply sqrt_le_1_alt. nra. }
  pose proof (sqrt_pos x). pose proof (sqrt_pos y). split.
  - apply Rle_trans with (R_sqrt.sqrt y * R_sqrt.sqrt (uq ^ k)); [apply Rmult_le_compat_l; assumption|]. rewrite <- sqrt_mult_alt by exact Z0. apply sqrt_le_1_alt, A.
  - apply Rle_trans with (R_sqrt.sqrt x * R_sqrt.sqrt (uq ^ k)); [apply Rmult_le_compat_l; assumption|]. rewrite <- sqrt_mult_alt by assumption. apply sqrt_le_1_alt, B.
Qed.
Lemma near_round x r : 0 <= x -> Rabs (r - x) <= ueps * Rabs x -> near 1 r x.
Proof.
  intros H E. rewrite (Rabs_pos_eq x H) in E. apply Rabs_le_inv in E. pose proof ueps_pos. split; [exact H|]. rewrite pow_1, uq_eq. split; [lra|]. nra.
Qed.

(** ** Values with a range. *)
Definition span (e : Z) (y : R) : Prop := y = 0 \/ bpow radix2 (- e) <= y <= bpow radix2 e.
Definition ap (e : Z) (k : nat) (x : binary64) (y : R) : Prop := approx64 k x y /\ span e y.
Lemma span_weak e e' y : (e <= e')%Z -> span e y -> span e' y.
Proof. intros H [->|[A B]]; [left; reflexivity|right]. split; (eapply Rle_trans; [|eassumption] || (eapply Rle_trans; [eassumption|])); apply bpow_le; lia. Qed.
Lemma span_mult e e' y y' : span e y -> span e' y' -> span (e + e') (y * y').
Proof.
  intros [->|[A B]] [->|[A' B']]; try (left; ring). right. pose proof (bpow_gt_0 radix2 (- e)). pose proof (bpow_gt_0 radix2 (- e')).
  replace (- (e + e'))%Z with (- e + - e')%Z by ring. rewrite !bpow_plus. split; apply Rmult_le_compat; lra.
Qed.
Lemma span_inv e y : y <> 0 -> span e y -> span e (/ y).
Proof.
  intros H [->|[A B]]; [contradiction|right]. pose proof (bpow_gt_0 radix2 (- e)). pose proof (bpow_gt_0 radix2 e). rewrite bpow_opp in *. split; [apply Rinv_le; lra|].
  rewrite <- (Rinv_inv (bpow radix2 e)). apply Rinv_le; lra.
Qed.
Lemma span_add e y y' : 0 <= y -> 0 <= y' -> span e y -> span e y' -> span (e + 1) (y + y').
Proof.
  intros P P' [->|[A B]] [->|[A' B']].
  - left. ring.
  - rewrite Rplus_0_l. apply (span_weak e); [lia|]. right; auto.
  - rewrite Rplus_0_r. apply (span_weak e); [lia|]. right; auto.
  - right. rewrite bpow_plus. change (bpow radix2 1) with 2. split; [|lra]. apply Rle_trans with (bpow radix2 (- e)); [apply bpow_le; lia|lra].
Qed.
Lemma span_max e y y' : span e y -> span e y' -> span e (Rmax y y').
Proof. intros H H'. unfold Rmax. destruct (Rle_dec y y'); assumption. Qed.
Lemma span_sqrt e y : (0 <= e)%Z -> span e y -> span e (R_sqrt.sqrt y).
Proof.
  intros He [->|[A B]]; [left; apply sqrt_0|right]. pose proof (bpow_gt_0 radix2 (- e)).
  assert (E1 : 1 <= bpow radix2 e) by (change 1 with (bpow radix2 0); apply bpow_le, He). assert (E0 : bpow radix2 (- e) <= 1) by (change 1 with (bpow radix2 0); apply bpow_le; lia). split.
  - rewrite <- (sqrt_square (bpow radix2 (- e))) by lra. apply sqrt_le_1_alt. nra.
  - rewrite <- (sqrt_square (bpow radix2 e)) by lra. apply sqrt_le_1_alt. nra.
Qed.
(** What a value near a ranged one looks like. *)
Lemma near_span k e x y : (Z.of_nat k <= 2 ^ 50)%Z -> near k x y -> span e y -> span (e + 1) x.
Proof.
  intros K N S. pose proof (uqn_half k K) as U. pose proof (near_nonneg _ _ _ N). destruct S as [->|[A B]]; [left; apply (near_zero k), N|right]. destruct N as (Z0 & C & D). pose proof (bpow_gt_0 radix2 (- e)).
  replace (- (e + 1))%Z with (- e + -1)%Z by ring. rewrite !bpow_plus. change (bpow radix2 1) with 2. change (bpow radix2 (-1)) with (/ 2). split; nra.
Qed.
Lemma span_ok e x : (e <= 1000)%Z -> span e x -> x = 0 \/ bpow radix2 (-1022) <= Rabs x <= bpow radix2 1000.
Proof.
  intros H [->|[A B]]; [left; reflexivity|right]. pose proof (bpow_gt_0 radix2 (- e)). rewrite Rabs_pos_eq by lra.
  split; [apply Rle_trans with (bpow radix2 (- e)); [apply bpow_le; lia|exact A]|apply Rle_trans with (bpow radix2 e); [exact B|apply bpow_le; lia]].
Qed.
Lemma rnd_near x : 0 <= x -> x = 0 \/ bpow radix2 (-1022) <= Rabs x <= bpow radix2 1000 -> near 1 (frnd x) x /\ Rabs (frnd x) < bpow radix2 femax.
Proof.
  intros H [->|[A B]].
  - replace (frnd 0) with 0 by (symmetry; apply round_0, valid_rnd_N). split; [apply near_refl; lra|]. rewrite Rabs_R0. apply bpow_gt_0.
  - split; [apply near_round; [exact H|apply rnd_rel, A]|apply rnd_fits, B].
Qed.
Definition few (k : nat) : Prop := (Z.of_nat k <= 2 ^ 49)%Z.

Section Ap.
Variables (e e' : Z) (k k' : nat) (x x' : binary64) (y y' : R).
Hypotheses (H : ap e k x y) (H' : ap e' k' x' y') (K : few k) (K' : few k').
Lemma ap_mul : (e + e' <= 990)%Z -> ap (e + e') (k + k' + 1) (fmul x x') (y * y').
Proof using H H' K K'.
  intros L. destruct H as [[F N] S], H' as [[F' N'] S']. pose proof (near_mult _ _ _ _ _ _ N N') as NM. pose proof (span_mult _ _ _ _ S S') as SM. unfold few in *.
  pose proof (near_span (k + k') (e + e') _ _ ltac:(lia) NM SM) as SX.
  destruct (rnd_near (fB2R x * fB2R x') (near_nonneg _ _ _ NM) (span_ok (e + e' + 1) _ ltac:(lia) SX)) as [NR B]. destruct (fmul_ok x x' F F' B) as [E FF].
  split; [|exact SM]. split; [exact FF|]. unfold real64 in *. rewrite E. rewrite Nat.add_comm. eapply near_trans; [exact NR|exact NM].
Qed.
Lemma ap_div : y' <> 0 -> (e + e' <= 990)%Z -> ap (e + e') (k + k' + 1) (fdiv x x') (y / y').
Proof using H H' K K'.
  intros Hy L. destruct H as [[F N] S], H' as [[F' N'] S']. assert (Py : 0 < y') by (destruct N' as (P & _); destruct P as [P|P]; [exact P|symmetry in P; contradiction]).
  pose proof (near_mult _ _ _ _ _ _ N (near_inv _ _ _ Py N')) as NM. pose proof (span_mult _ _ _ _ S (span_inv _ _ Hy S')) as SM. unfold few in *.
  pose proof (near_span (k + k') (e + e') _ _ ltac:(lia) NM SM) as SX. change (real64 x * / real64 x') with (fB2R x / fB2R x') in *. change (y * / y') with (y / y') in *.
  assert (Px : fB2R x' <> 0). { destruct N' as (P & A & B). pose proof (uqn_pos k') as U. pose proof (Rmult_lt_0_compat _ _ Py (proj1 U)). apply Rgt_not_eq. change (0 < real64 x'). lra. }
  destruct (rnd_near (fB2R x / fB2R x') (near_nonneg _ _ _ NM) (span_ok (e + e' + 1) _ ltac:(lia) SX)) as [NR B]. destruct (fdiv_ok x x' F Px B) as [E FF].
  split; [|exact SM]. split; [exact FF|]. unfold real64 in *. rewrite E. rewrite Nat.add_comm. eapply near_trans; [exact NR|exact NM].
Qed.
Lemma ap_add : e = e' -> (e <= 990)%Z -> ap (e + 1) (Nat.max k k' + 1) (fadd x x') (y + y').
Proof using H H' K K'.
  intros <- L. destruct H as [[F N] S], H' as [[F' N'] S']. apply (near_weak k (Nat.max k k') _ _ ltac:(lia)) in N. apply (near_weak k' (Nat.max k k') _ _ ltac:(lia)) in N'.
  pose proof (near_add _ _ _ _ _ N N') as NM. pose proof (span_add _ _ _ (proj1 N) (proj1 N') S S') as SM. unfold few in *.
  pose proof (near_span (Nat.max k k') (e + 1) _ _ ltac:(lia) NM SM) as SX.
  assert (B : Rabs (fB2R x + fB2R x') <= bpow radix2 1000). { change (fB2R x + fB2R x') with (real64 x + real64 x'). destruct (span_ok (e + 1 + 1) _ ltac:(lia) SX) as [->|[_ B]]; [rewrite Rabs_R0; apply bpow_ge_0|exact B]. }
  destruct (fadd_err x x' F F' B) as [FF E]. split; [|exact SM]. split; [exact FF|]. rewrite Nat.add_comm. eapply near_trans; [|exact NM].
  apply near_round; [apply (near_nonneg _ _ _ NM)|exact E].
Qed.
Lemma ap_sqrt : (0 <= e)%Z -> ap e (k + 1) (fsqrt x) (R_sqrt.sqrt y).
Proof using H.
  intros L. destruct H as [[F N] S]. destruct (fsqrt_err x F (near_nonneg _ _ _ N)) as (FF & P & E). split; [|apply span_sqrt; assumption]. split; [exact FF|]. rewrite Nat.add_comm.
  eapply near_trans; [|apply near_sqrt, N]. apply near_round; [apply sqrt_pos|]. rewrite (Rabs_pos_eq (R_sqrt.sqrt _)) by apply sqrt_pos. exact E.
Qed.
Lemma ap_weak e2 k2 : (e <= e2)%Z -> (k <= k2)%nat -> ap e2 k2 x y.
Proof using H. intros E L. destruct H as [[F N] S]. split; [|exact (span_weak _ _ _ E S)]. split; [exact F|exact (near_weak _ _ _ _ L N)]. Qed.
End Ap.
Lemma ap_num x : num64 x -> ap 150 0 x (real64 x).
Proof.
  intros [F S]. split; [|exact S]. split; [exact F|]. apply near_refl. destruct S as [->|[A _]]; [lra|]. pose proof (bpow_gt_0 radix2 (-150)). lra.
Qed.
(** Differences of such numbers are at least 2^-203. *)
Lemma num_multiple x : num64 x -> exists z, real64 x = IZR z * bpow radix2 (-203).
Proof.
  intros [F [E|[A B]]]; [exists 0%Z; rewrite E; ring|]. pose proof (fF_B2R x) as G. unfold fF, generic_format in G. fold (real64 x) in G. unfold F2R in G. cbn [Fnum Fexp] in G.
  set (c := cexp radix2 ffexp (real64 x)) in *. set (m := Ztrunc _) in G.
  assert (C : (-203 <= c)%Z).
  { unfold c, cexp. assert (M : (-149 <= mag radix2 (real64 x))%Z). { apply mag_ge_bpow. change (-149 - 1)%Z with (-150)%Z. rewrite Rabs_pos_eq; [exact A|]. pose proof (bpow_gt_0 radix2 (-150)). lra. }
    unfold ffexp, FLT_exp. unfold SpecFloat.fexp, SpecFloat.emin, fprec, femax. lia. }
  exists (m * 2 ^ (c + 203))%Z. rewrite G. rewrite mult_IZR. rewrite (IZR_Zpower radix2) by lia. rewrite Rmult_assoc, <- bpow_plus. f_equal. f_equal. lia.
Qed.
Lemma ap_sub x x' : num64 x -> num64 x' -> real64 x' <= real64 x -> ap 203 1 (fsub x x') (real64 x - real64 x').
Proof.
  intros Hx Hx' L. assert (P : 0 <= real64 x'). { destruct Hx' as [_ [->|[A _]]]; [lra|]. pose proof (bpow_gt_0 radix2 (-150)). lra. }
  assert (U : real64 x <= bpow radix2 150). { destruct Hx as [_ [->|[_ A]]]; [apply bpow_ge_0|exact A]. }
  assert (B : Rabs (fB2R x - fB2R x') <= bpow radix2 1000). { change (Rabs (real64 x - real64 x') <= bpow radix2 1000). rewrite Rabs_pos_eq by lra. apply Rle_trans with (bpow radix2 150); [lra|apply bpow_le; lia]. }
  destruct (fsub_err x x' (proj1 Hx) (proj1 Hx') B) as [FF E]. split.
  - split; [exact FF|]. apply near_round; [lra|exact E].
  - destruct (num_multiple x Hx) as [z Ez], (num_multiple x' Hx') as [z' Ez']. pose proof (bpow_gt_0 radix2 (-203)) as Bp.
    replace (real64 x - real64 x') with (IZR (z - z') * bpow radix2 (-203)) by (rewrite minus_IZR, Ez, Ez'; ring).
    destruct (Z.eq_dec (z - z') 0) as [->|Hz]; [left; ring|right]. assert (0 < z - z')%Z. { assert (0 <= IZR (z - z')). { rewrite minus_IZR. nra. } apply le_IZR in H. lia. }
    split; [|apply Rle_trans with (bpow radix2 150); [rewrite minus_IZR; nra|apply bpow_le; lia]]. assert (1 <= IZR (z - z')) by (apply IZR_le; lia). change (- (203))%Z with (-203)%Z. nra.
Qed.

Lemma exp_le_mono x y : x <= y -> exp x <= exp y.
Proof. intros [H|H]; [left; apply exp_increasing, H|rewrite H; right; reflexivity]. Qed.
Lemma ln_le_mono x y : 0 < x -> x <= y -> ln x <= ln y.
Proof. intros P [H|H]; [left; apply ln_increasing; assumption|rewrite H; right; reflexivity]. Qed.
(** ** Powers *)
Lemma near_pow_up k x y a : 0 < y -> 0 <= a <= 1 -> near k x y -> near k (Rpower x a) (Rpower y a).
Proof.
  intros Hy Ha (_ & A & B). pose proof (uqn_pos k) as U. assert (Hx : 0 < x) by (eapply Rlt_le_trans; [|exact A]; nra).
  assert (L : uq ^ k <= Rpower (uq ^ k) a). { rewrite <- (Rpower_1 (uq ^ k)) at 1 by lra. unfold Rpower. apply exp_le_mono. assert (ln (uq ^ k) <= 0) by (rewrite <- ln_1; destruct (proj2 U) as [U1| ->]; [left; apply ln_increasing; lra|right; reflexivity]). nra. }
  assert (Px : 0 < Rpower x a) by apply exp_pos. assert (Py : 0 < Rpower y a) by apply exp_pos. split; [lra|]. split.
  - apply Rle_trans with (Rpower y a * Rpower (uq ^ k) a); [apply Rmult_le_compat_l; lra|]. rewrite Rpower_mult_distr by lra. apply Rle_Rpower_l; [lra|]. split; [nra|exact A].
  - apply Rle_trans with (Rpower x a * Rpower (uq ^ k) a); [apply Rmult_le_compat_l; lra|]. rewrite Rpower_mult_distr by lra. apply Rle_Rpower_l; [lra|]. split; [nra|exact B].
Qed.
Lemma near_pow k x y a : 0 < y -> -1 <= a <= 1 -> near k x y -> near k (Rpower x a) (Rpower y a).
Proof.
  intros Hy Ha N. destruct (Rle_lt_dec 0 a) as [P|P]; [apply near_pow_up; [exact Hy|lra|exact N]|].
  replace a with (- - a) by ring. rewrite !(Rpower_Ropp _ (- a)). apply near_inv; [apply exp_pos|]. apply near_pow_up; [exact Hy|lra|exact N].
Qed.
Lemma span_pow_up e y a : (0 <= e)%Z -> 0 <= a <= 1 / 2 -> bpow radix2 (- (2 * e)) <= y <= bpow radix2 (2 * e) -> bpow radix2 (- e) <= Rpower y a <= bpow radix2 e.
Proof.
  intros He Ha [A B]. assert (Hy : 0 < y) by (eapply Rlt_le_trans; [apply bpow_gt_0|exact A]).
  assert (Q : forall z, bpow radix2 z = exp (IZR z * ln 2)) by (intros z; apply bpow_exp). rewrite (Q (- (2 * e))%Z) in A. rewrite (Q (2 * e)%Z) in B. unfold Rpower. pose proof ln_lt_2 as L2.
  assert (LA : IZR (- (2 * e)) * ln 2 <= ln y). { rewrite <- (ln_exp (IZR (- (2 * e)) * ln 2)). apply ln_le_mono; [apply exp_pos|exact A]. }
  assert (LB : ln y <= IZR (2 * e) * ln 2). { rewrite <- (ln_exp (IZR (2 * e) * ln 2)). apply ln_le_mono; [exact Hy|exact B]. }
  rewrite ?opp_IZR, ?mult_IZR in *. assert (E0 : 0 <= IZR e * ln 2) by (apply Rmult_le_pos; [apply IZR_le, He|lra]). set (E := IZR e * ln 2) in *.
  replace (- (2 * IZR e) * ln 2) with (- (2 * E)) in LA by (unfold E; ring). replace (2 * IZR e * ln 2) with (2 * E) in LB by (unfold E; ring).
  rewrite ?Q, ?opp_IZR. change (IZR e * ln 2) with E. replace (- IZR e * ln 2) with (- E) by (unfold E; ring). split; apply exp_le_mono; nra.
Qed.
Lemma span_pow e y a : (0 <= e)%Z -> -1/2 <= a <= 1/2 -> bpow radix2 (- (2 * e)) <= y <= bpow radix2 (2 * e) -> bpow radix2 (- e) <= Rpower y a <= bpow radix2 e.
Proof.
  intros He Ha B. destruct (Rle_lt_dec 0 a) as [P|P]; [apply span_pow_up; [exact He|lra|exact B]|].
  destruct (span_pow_up e y (- a) He ltac:(lra) B) as [L U]. replace a with (- - a) by ring. rewrite Rpower_Ropp. pose proof (bpow_gt_0 radix2 (- e)). pose proof (bpow_gt_0 radix2 e). rewrite bpow_opp in *. split; [apply Rinv_le; lra|].
  rewrite <- (Rinv_inv (bpow radix2 e)). apply Rinv_le; lra.
Qed.
