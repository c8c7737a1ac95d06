(** Final forms of the driver and pair selection theorems. *)
From Coq Require Import Reals Lra Lia ZArith Bool List Permutation.
From Flocq Require Import Core.Core IEEE754.BinarySingleNaN.
From Verif Require Import Base Num ModelTerm ModelCollide ModelXsec ModelSet SpecPhys SpecXsec SpecSet
  ProofCollide ProofF64 ProofInelastic ProofSet ProofFloat ProofSelect ProofDriver ProofDriver2 ProofDriver3 ProofDriver4 ProofDriver5.
From Coq Require Import List.
Import ListNotations.
Local Open Scope R_scope.

Lemma rpos_total (g : rng RNum) : rng_ok g -> pos_total g (2 ^ 31).
Proof. intros Hg r k Hs. apply rrand_pos; assumption. Qed.
Lemma fpos_total {lm} (g : rng (F64 lm)) : frng_ok g -> pos_total g (2 ^ 31).
Proof. intros Hg r k Hs. destruct (frand_pos g r Hg) as [_ H]; [lia|]. apply H. lia. Qed.

Lemma fselect_ok {lm} fuel (a b : range) (g : rng (F64 lm)) k i j k' : frng_ok g ->
  (0 < Z.of_nat (rsize a) < 2 ^ 32)%Z -> (0 < Z.of_nat (rsize b) < 2 ^ 32)%Z ->
  selectRandomPair fuel a b g k = Ok (i, j, k') -> in_range i a /\ in_range j b /\ i <> j.
Proof. intros Hg Ha Hb. apply select_ok; apply frand_pos; assumption. Qed.
Lemma rselect_ok fuel (a b : range) (g : rng RNum) k i j k' : rng_ok g ->
  (0 < Z.of_nat (rsize a) < 2 ^ 31)%Z -> (0 < Z.of_nat (rsize b) < 2 ^ 31)%Z ->
  selectRandomPair fuel a b g k = Ok (i, j, k') -> in_range i a /\ in_range j b /\ i <> j.
Proof. intros Hg Ha Hb. apply select_ok; intros n; right; apply rrand_pos; assumption. Qed.

Lemma fselect_single {lm} fuel b (g : rng (F64 lm)) k : frng_ok g -> selectRandomPair fuel (b, S b) (b, S b) g k = Diverge.
Proof. intros Hg. apply select_single. intros n. apply fpos_total; [assumption|]. unfold rsize. cbn [fst snd]. lia. Qed.
Lemma fselect_disjoint {lm} fuel (a b : range) (g : rng (F64 lm)) k : frng_ok g -> (snd a <= fst b \/ snd b <= fst a)%nat ->
  (0 < Z.of_nat (rsize a) < 2 ^ 31)%Z -> (0 < Z.of_nat (rsize b) < 2 ^ 31)%Z ->
  exists i j, selectRandomPair (S fuel) a b g k = Ok (i, j, (k + 2)%nat) /\ in_range i a /\ in_range j b.
Proof.
  intros Hg Hd Ha Hb. destruct (select_disjoint fuel a b g k Hd) as (i & j & E).
  - intros n. apply fpos_total; assumption.
  - intros n. apply fpos_total; assumption.
  - exists i, j. split; [assumption|]. destruct (fselect_ok (S fuel) a b g k i j _ Hg ltac:(lia) ltac:(lia) E) as (? & ? & _). auto.
Qed.
Lemma fselect_reach {lm} (a b : range) i j : in_range i a -> in_range j b -> i <> j ->
  (Z.of_nat (rsize a) < 2 ^ 31)%Z -> (Z.of_nat (rsize b) < 2 ^ 31)%Z -> forall k,
  exists g : rng (F64 lm), frng_ok g /\ forall fuel, selectRandomPair (S fuel) a b g k = Ok (i, j, (k + 2)%nat).
Proof.
  intros Hi Hj Hij Sa Sb k. destruct (frand_reach (lm:=lm) a i Hi Sa) as (e1 & P1 & Q1 & R1). destruct (frand_reach (lm:=lm) b j Hj Sb) as (e2 & P2 & Q2 & R2).
  exists (mkRng (N:=F64 lm) (fun _ => fofZ 0) (fun n => if Nat.eqb n k then e1 else e2)). split.
  - intros n. cbn [g_rand g_exc]. split; [reflexivity|]. split; [reflexivity|]. destruct (Nat.eqb n k); auto.
  - intros fuel. apply select_pair; [| |assumption].
    + apply R1. cbn [g_exc]. rewrite Nat.eqb_refl. reflexivity.
    + apply R2. cbn [g_exc]. destruct (Nat.eqb_spec (k + 1) k); [lia|reflexivity].
Qed.
Lemma rselect_reach (a b : range) i j : in_range i a -> in_range j b -> i <> j ->
  (Z.of_nat (rsize a) < 2 ^ 31)%Z -> (Z.of_nat (rsize b) < 2 ^ 31)%Z -> forall k,
  exists g : rng RNum, rng_ok g /\ forall fuel, selectRandomPair (S fuel) a b g k = Ok (i, j, (k + 2)%nat).
Proof.
  intros Hi Hj Hij Sa Sb k.
  assert (H : forall (r : range) x, in_range x r -> (Z.of_nat (rsize r) < 2 ^ 31)%Z -> exists e : R, 0 <= e < 1 /\
     forall (g : rng RNum) n, g_exc g n = e -> rand_pos r g n = Ok x).
  { intros r x Hx Hs. unfold in_range in Hx. assert (Hp : 0 < IZR (Z.of_nat (rsize r))) by (apply IZR_lt; unfold rsize; lia).
    exists (IZR (Z.of_nat (x - fst r)) / IZR (Z.of_nat (rsize r))). split.
    - split; [apply Rle_mult_inv_pos; [apply IZR_le; lia|assumption]|]. apply (Rmult_lt_reg_r (IZR (Z.of_nat (rsize r)))); [assumption|].
      unfold Rdiv. rewrite Rmult_assoc, Rinv_l, Rmult_1_r, Rmult_1_l by lra. apply IZR_lt. unfold rsize. lia.
    - intros g n E. unfold rand_pos. rewrite u32_id by (unfold rsize in *; lia). rewrite E. unR.
      replace (IZR (Z.of_nat (rsize r)) * (IZR (Z.of_nat (x - fst r)) / IZR (Z.of_nat (rsize r)))) with (IZR (Z.of_nat (x - fst r))) by (field; lra).
      unfold to_int. unR. destruct (Rltb_spec (-2147483649) (IZR (Z.of_nat (x - fst r)))) as [_|L]; [|exfalso; apply L; apply IZR_lt; lia].
      destruct (Rltb_spec (IZR (Z.of_nat (x - fst r))) 2147483648) as [_|L]; [|exfalso; apply L; apply IZR_lt; unfold rsize in *; lia].
      cbn [andb obind]. rewrite Ztrunc_IZR. f_equal. lia. }
  destruct (H a i Hi Sa) as (e1 & P1 & R1). destruct (H b j Hj Sb) as (e2 & P2 & R2).
  exists (mkRng (N:=RNum) (fun _ => 0) (fun n => if Nat.eqb n k then e1 else e2)). split.
  - intros n. cbn [g_rand g_exc]. destruct (Nat.eqb n k); lra.
  - intros fuel. apply select_pair; [| |assumption].
    + apply R1. cbn [g_exc]. rewrite Nat.eqb_refl. reflexivity.
    + apply R2. cbn [g_exc]. destruct (Nat.eqb_spec (k + 1) k); [lia|reflexivity].
Qed.

(** C42. *)
Lemma driver_outofplace {N : Num} (K : N) fuel dt (c : cell N) nprops db res er g k s bnd :
  pos_ok g bnd -> bounded bnd (c_ranges c) -> (forall A B, List.Forall (fun e => appends (q_model e)) (db A B)) ->
  driver K fuel false dt c nprops db res er g k = Ok s ->
  s_mem s = c_mem c /\ s_ranges s = c_ranges c /\ s_erase s = er /\ (exists new, s_res s = res ++ new) /\
  List.Forall (fun e => exists A B, (A <= B < Nat.min (length (c_ranges c)) nprops)%nat /\ db A B <> [] /\
    entry_ok (c_ranges c) (db A B) A B e) (s_log s).
Proof.
  intros Hp Hb Ha H. destruct (driver_ok K fuel false dt c nprops db res er g k s bnd Hp Hb ltac:(discriminate) Ha H) as ([_ _ Hr] & Hf & Hlog & _).
  destruct (Hf eq_refl) as (E1 & E2 & E3). auto.
Qed.
Lemma driver_log {N : Num} (K : N) fuel dt (c : cell N) nprops db res er g k s bnd :
  pos_ok g bnd -> bounded bnd (c_ranges c) -> disjoint (c_ranges c) -> (forall A B, List.Forall (fun e => appends (q_model e)) (db A B)) ->
  driver K fuel true dt c nprops db res er g k = Ok s ->
  (exists new, s_res s = res ++ new) /\
  List.Forall (fun e => exists A B, (A <= B < Nat.min (length (c_ranges c)) nprops)%nat /\ db A B <> [] /\
    entry_ok (c_ranges c) (db A B) A B e) (s_log s).
Proof.
  intros Hp Hb Hd Ha H. destruct (driver_ok K fuel true dt c nprops db res er g k s bnd Hp Hb (fun _ => Hd) Ha H) as ([_ _ Hr] & _ & Hlog & _). auto.
Qed.
Lemma estimate_sym same (wA wB : R) nA nB (dt msv vol : R) : 0 < wA -> 0 < wB -> vol <> 0 ->
  estimate (N:=RNum) same wA wB nA nB dt msv vol = estimate (N:=RNum) same wB wA nB nA dt msv vol.
Proof. intros. rewrite !estimate_R by assumption. apply ntc_sym. Qed.
