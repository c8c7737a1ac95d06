(** C103: the draws a run uses. *)
From Coq Require Import Reals Lra Lia String ZArith Bool Arith List.
From Flocq Require Import Core.Core.
From Verif Require Import Base Num ModelTerm ModelCollide ModelXsec ModelSet ModelEq SpecTerm SpecPhys SpecXsec SpecSet SpecRun SpecFrame SpecDraws
  ProofCollide ProofInelastic ProofDriver ProofDriver2 ProofDriver3 ProofDraws ProofDraws2 Properties1 Properties3 Properties26.
From Coq Require Import List.
Import ListNotations.

(** C103.  A completed run depends only on the draws between the generator's position before and
    after it, also in binary64: with another generator, at any position, whose next draws are
    these, it ends in the same state after as many draws. *)
Theorem C103_draws : forall {N : Num} (K : N) fuel i dt (c : cell N) nprops db res er g k s,
  (forall A B, (A <= B)%nat -> List.Forall library_model (db A B)) ->
  driver K fuel i dt c nprops db res er g k = Ok s ->
  (k <= s_pos s)%nat /\
  forall g' k', same_draws g k g' k' (s_pos s - k) ->
    driver K fuel i dt c nprops db res er g' k' = Ok (at_pos s (k' + (s_pos s - k))).
Proof.
  intros N K fuel i dt c nprops db res er g k s H E. destruct (driver_draws K fuel i dt c nprops db res er g k s H E) as [L D]. split; [lia|exact D].
Qed.
Print Assumptions C103_draws.

(** C103.  It draws once for every pair of species with channels, at least three times for every
    test, and for every collision once more and two or (three products) five times. *)
Theorem C103_count : forall {N : Num} (K : N) fuel i dt (c : cell N) nprops db res er g k s,
  (forall A B, (A <= B)%nat -> List.Forall library_model (db A B)) ->
  driver K fuel i dt c nprops db res er g k = Ok s ->
  (k + channel_pairs (Nat.min (length (c_ranges c)) nprops) db + list_sum (map (test_draws db) (s_log s)) <= s_pos s)%nat.
Proof.
  intros N K fuel i dt c nprops db res er g k s H E. destruct (driver_draws K fuel i dt c nprops db res er g k s H E) as [L _]. rewrite pairs_count in L. exact L.
Qed.
Print Assumptions C103_count.

(** C103.  If only particles of different species collide, it draws at most once more for each test
    without a collision; ... *)
Theorem C103_count_mixed : forall {N : Num} (K : N) fuel i dt (c : cell N) nprops db res er g k s bnd,
  pos_ok g bnd -> bounded bnd (c_ranges c) -> disjoint (c_ranges c) ->
  (forall A B, List.Forall library_model (db A B)) -> (forall A, db A A = []) ->
  driver K fuel i dt c nprops db res er g k = Ok s ->
  (s_pos s <= k + channel_pairs (Nat.min (length (c_ranges c)) nprops) db + list_sum (map (test_draws db) (s_log s)) + misses (s_log s))%nat.
Proof. intros N. exact driver_most. Qed.
Print Assumptions C103_count_mixed.
Lemma pick_zeros n : forall m k fuel, (m + k = n)%nat -> (m < fuel)%nat ->
  pick_other (N:=RNum) fuel 0 (0, 2)%nat (mkRng (N:=RNum) (fun _ => 0%R) (fun j => if Nat.ltb j n then 0%R else (/ 2)%R)) k = Ok (1, (n + 1))%nat.
Proof.
  assert (T0 : to_int (N:=RNum) (2 * 0)%R = Ok 0%Z).
  { unfold to_int. unR. replace (2 * 0)%R with 0%R by ring. destruct (Rltb_spec (-2147483649) 0); [|lra]. destruct (Rltb_spec 0 2147483648); [|lra]. cbn [andb]. f_equal. apply (Ztrunc_IZR 0). }
  assert (T1 : to_int (N:=RNum) (2 * / 2)%R = Ok 1%Z).
  { unfold to_int. unR. replace (2 * / 2)%R with 1%R by field. destruct (Rltb_spec (-2147483649) 1); [|lra]. destruct (Rltb_spec 1 2147483648); [|lra]. cbn [andb]. f_equal. apply (Ztrunc_IZR 1). }
  induction m as [|m IH]; intros k [|fuel] Hk Hf; try lia; cbn [pick_other]; unfold rand_pos; cbn [g_exc];
    change (@ofZ RNum (u32 (Z.of_nat (rsize (0, 2)%nat)))) with 2%R.
  - replace (Nat.ltb k n) with false by (symmetry; apply Nat.ltb_ge; lia). change (@nmul RNum 2%R (/ 2)%R) with (2 * / 2)%R. rewrite T1. replace k with n by lia. reflexivity.
  - replace (Nat.ltb k n) with true by (symmetry; apply Nat.ltb_lt; lia). change (@nmul RNum 2%R 0%R) with (2 * 0)%R. rewrite T0. cbn. apply IH; lia.
Qed.
(** ... for two particles of one species the number of draws has no bound. *)
Theorem C103_self_unbounded : forall n, exists (g : rng RNum) fuel k1, rng_ok g /\
  selectRandomPair (N:=RNum) fuel (0, 2)%nat (0, 2)%nat g 0 = Ok (0, 1, k1)%nat /\ (n < k1)%nat.
Proof.
  intros n. set (g := mkRng (N:=RNum) (fun _ => 0%R) (fun j => if Nat.ltb j (n + 1) then 0%R else (/ 2)%R)).
  exists g, (n + 1)%nat, (n + 2)%nat. split; [|split; [|lia]].
  - intros k. cbn [g g_rand g_exc]. destruct (Nat.ltb k (n + 1)); unR; split; lra.
  - unfold selectRandomPair. assert (P : rand_pos (N:=RNum) (0, 2)%nat g 0 = Ok 0%nat).
    { unfold rand_pos, g. cbn [g_exc]. replace (Nat.ltb 0 (n + 1)) with true by (symmetry; apply Nat.ltb_lt; lia).
      change (@ofZ RNum (u32 (Z.of_nat (rsize (0, 2)%nat)))) with 2%R. unfold to_int. unR. change (@nmul RNum 2%R 0%R) with (2 * 0)%R. replace (2 * 0)%R with 0%R by ring.
      destruct (Rltb_spec (-2147483649) 0); [|lra]. destruct (Rltb_spec 0 2147483648); [|lra]. cbn [andb obind]. change (@ntrunc RNum 0%R) with (Ztrunc 0). rewrite (Ztrunc_IZR 0). reflexivity. }
    rewrite P. cbn [obind]. unfold g. change (0 + 1)%nat with 1%nat. rewrite (pick_zeros (n + 1) n 1 (n + 1)); [|lia..]. cbn [obind]. replace (n + 1 + 1)%nat with (n + 2)%nat by lia. reflexivity.
Qed.
Print Assumptions C103_self_unbounded.

(** The run of C101_case: one pair, two collisions of four and two draws; a generator that agrees
    with its own on 13 draws gives the same run from position 7. *)
Example C103_case : exists fuel s, driver (N:=RNum) 1%R fuel false 1%R (rcell 20) 2 rdb [] [] exG 0 = Ok s /\ s_pos s = 13%nat /\
  let g' := mkRng (N:=RNum) (fun k => if (Nat.leb 7 k && Nat.ltb k 20)%bool then (/ 2)%R else 1%R) (fun k => if (Nat.leb 7 k && Nat.ltb k 20)%bool then (/ 2)%R else 0%R) in
  driver (N:=RNum) 1%R fuel false 1%R (rcell 20) 2 rdb [] [] g' 7 = Ok (at_pos s 20).
Proof.
  destruct rcell_log as (fuel & s & E & Lg). exists fuel, s. split; [exact E|].
  assert (HL : forall A B, List.Forall library_model (rdb A B)) by (intros A B; unfold rdb; destruct (_ && _)%bool; repeat constructor).
  assert (P : s_pos s = 13%nat).
  { pose proof (C103_count (N:=RNum) 1%R fuel false 1%R (rcell 20) 2 rdb [] [] exG 0 s (fun A B _ => HL A B) E) as L.
    assert (Hbd : bounded (2 ^ 31) (c_ranges (rcell 20))) by (repeat constructor; unfold rsize; cbn; lia).
    assert (HA : forall A, rdb A A = []) by (intros A; unfold rdb; destruct (Nat.eqb_spec A 0), (Nat.eqb_spec A 1); try reflexivity; lia).
    pose proof (C103_count_mixed (N:=RNum) 1%R fuel false 1%R (rcell 20) 2 rdb [] [] exG 0 s _ (rpos_ok exG exG_ok) Hbd (rcell_disjoint 20) HL HA E) as U.
    rewrite Lg in L, U. change (channel_pairs (Nat.min (length (c_ranges (rcell 20))) 2) rdb) with 1%nat in L, U.
    cbn in L, U. lia. }
  split; [exact P|]. cbv zeta. destruct (C103_draws (N:=RNum) 1%R fuel false 1%R (rcell 20) 2 rdb [] [] exG 0 s (fun A B _ => HL A B) E) as [_ D].
  rewrite P in D. apply (D _ 7%nat). intros i Hi. cbn [g_rand g_exc]. replace (Nat.leb 7 (7 + i)) with true by (symmetry; apply Nat.leb_le; lia). replace (Nat.ltb (7 + i) 20) with true by (symmetry; apply Nat.ltb_lt; lia). split; reflexivity.
Qed.
