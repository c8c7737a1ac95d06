(** Expected numbers of tests and interactions of a run (C89-C91). *)
From Coq Require Import Reals Lra Lia ZArith Bool List.
From Flocq Require Import Core.
From Coquelicot Require Import Coquelicot.
From Verif Require Import Base Num ModelTerm ModelCollide ModelXsec ModelSet SpecPhys SpecXsec SpecSet SpecRate
  ProofCollide ProofInelastic ProofSet ProofDriver3 ProofRate ProofRate2 ProofRate3 ProofRate4 ProofRate5 ProofRate6 Properties1 Properties3.
From Coq Require Import List.
Import ListNotations.
Local Open Scope R_scope.

(** The models of the library that use a fixed number of draws and do not fail: elastic and
    VSS always, the inelastic ones when no product has expressions. *)
Theorem C89_models : (forall mu, uses 2 (MElastic mu)) /\ (forall mu al, uses 2 (MVSS mu al)) /\
  (forall m, i2_useX m = false -> (2 <= length (ie_factories (i2_base m)))%nat -> (2 <= length (ie_expr (i2_base m)))%nat -> uses 2 (MIn22 m)) /\
  (forall m, i3_useX m = false -> (3 <= length (ie_factories (i3_base m)))%nat -> (3 <= length (ie_expr (i3_base m)))%nat -> uses 5 (MIn23 m)).
Proof.
  repeat split.
  - intros mu p q l g k. destruct (elastic_out_in mu p q l g k) as (q1 & q2 & _ & E & _). eauto.
  - intros mu al p q l g k. destruct (vss_out_in mu al p q l g k) as (q1 & q2 & _ & E & _). eauto.
  - intros m Hx Hf He p q l g k. cbn [model_interact]. unfold interact22, oget. cbv zeta.
    destruct (ie_factories (i2_base m)) as [|f0 [|f1 fs]]; cbn in Hf; try lia. destruct (ie_expr (i2_base m)) as [|e0 [|e1 es]]; cbn in He; try lia.
    cbn [nth_error obind]. destruct (vel22 _ _ _ _ _) as [w1 w2]. rewrite Hx. unfold process. cbn [obind]. eauto.
  - intros m Hx Hf He p q l g k. cbn [model_interact]. unfold interact23, oget. cbv zeta.
    destruct (ie_factories (i3_base m)) as [|f0 [|f1 [|f2 fs]]]; cbn in Hf; try lia. destruct (ie_expr (i3_base m)) as [|e0 [|e1 [|e2 es]]]; cbn in He; try lia.
    cbn [nth_error obind]. destruct (vel23 _ _ _ _ _ _ _ _) as [[w1 w2] w3]. rewrite Hx. unfold process. cbn [obind]. eauto.
Qed.
Print Assumptions C89_models.

Lemma rate_unlike w a b dt m V s v y : 0 < a -> 0 < b -> 0 < V -> w * a * b * dt * m / V / 1 / (a * b) * (s * v * y) = w * dt * s * v / V * (m * y).
Proof. intros. field. lra. Qed.
Lemma rate_like w n dt m V s v : 2 <= n -> 0 < V -> 0 < m ->
  w * n * n * dt * m / V / 2 / (n * (n - 1)) * (s * v / m) + w * n * n * dt * m / V / 2 / (n * (n - 1)) * (s * v / m) = w * dt * s * v / V * (n / (n - 1)).
Proof. intros. field. lra. Qed.

(** C89.  Two particles of different species with relative speed v: the expected number of
    interactions through a channel with cross section s in one run is max(wA,wB) dt s v / V,
    the kinetic rate, provided the reported maximum is at least v times the total cross
    section; otherwise it is smaller by the quotient of the two.  This holds when the
    estimated number x of tests is not an integer; if it is the integer z > 0, the number is
    smaller by the factor 1 - 1/z. *)
Theorem C89_saturated : forall K dt c nprops db res er k A B ra rb pa pb msv i j pi pj cs ch s,
  testable K dt c nprops db -> (A < B < Nat.min (length (c_ranges c)) nprops)%nat -> db A B <> [] ->
  nth_error (c_ranges c) A = Some ra -> nth_error (c_ranges c) B = Some rb ->
  nth_error (c_mem c) (fst ra) = Some pa -> nth_error (c_mem c) (fst rb) = Some pb ->
  findMaxSigmaVProduct (N:=RNum) K (db A B) (c_maxv c A B) = Ok msv ->
  in_range i ra -> in_range j rb -> nth_error (c_mem c) i = Some pi -> nth_error (c_mem c) j = Some pj ->
  let v := relspeed (p_vel pi) (p_vel pj) in
  channels K (db A B) v cs -> nth_error cs ch = Some s ->
  let x := ntc false (p_weight pa) (p_weight pb) (rsize ra) (rsize rb) dt msv (c_volume c) in
  let rate := Rmax (p_weight pa) (p_weight pb) * dt * s * v / c_volume c * (msv / Rmax msv (Rsum cs * v)) in
  let hits := fun fuel u => occurrences (A, B, (i, j), Z.of_nat ch) (driver (N:=RNum) K fuel false dt c nprops db res er (drawn u) k) in
  (IZR (Zfloor x) <> x -> expected k hits rate /\
     ((forall C, (C < Nat.min (length (c_ranges c)) nprops)%nat -> db C C = []) -> expected_exactly k hits rate)) /\
  (forall z, x = IZR z -> (1 <= z)%Z -> expected k hits (rate * (1 - 1 / IZR z)) /\
     ((forall C, (C < Nat.min (length (c_ranges c)) nprops)%nat -> db C C = []) -> expected_exactly k hits (rate * (1 - 1 / IZR z)))).
Proof.
  intros K dt c nprops db res er k A B ra rb pa pb msv i j pi pj cs ch s HT HAB Hdb Ha Hb Hpa Hpb Hm Hi Hj Hpi Hpj v Hcs Hs x rate hits.
  assert (HAB' : (A <= B < Nat.min (length (c_ranges c)) nprops)%nat) by lia. assert (Hen : A = B -> (2 <= rsize ra)%nat) by lia.
  assert (Hij : i <> j). { intros ->. destruct HT as (_ & _ & Hd & _). exact (Hd A B ra rb j ltac:(lia) Ha Hb Hi Hj). }
  destruct (r_sizes K dt c nprops db HT A B ra rb HAB' Hdb Ha Hb) as [SA SB]. apply lt_INR in SA. apply lt_INR in SB. cbn [INR] in SA, SB.
  pose proof (fun t => r_hits K dt c nprops db res er k HT A B ra rb pa pb msv HAB' Hdb Ha Hb Hpa Hpb Hm Hen i j pi pj Hi Hj Hij Hpi Hpj cs ch s Hcs Hs t) as G.
  assert (HV : 0 < c_volume c) by apply HT.
  unfold tests_value, xr, npairs in G. replace (Nat.eqb A B) with false in G by (symmetry; apply Nat.eqb_neq; lia). fold x v in G. cbv zeta in G.
  assert (Hx : forall y, x / (INR (rsize ra) * INR (rsize rb)) * (s * v / y) = Rmax (p_weight pa) (p_weight pb) * dt * s * v / c_volume c * (msv / y)).
  { intros y. unfold x, ntc. exact (rate_unlike _ _ _ dt msv _ s v (/ y) SA SB HV). }
  split.
  - intros Hni. specialize (G x (or_introl (conj Hni eq_refl))). rewrite Hx in G. exact G.
  - intros z Hz Hz1. assert (Pz : 0 < IZR z) by (apply IZR_lt; lia).
    assert (E : IZR (z - 1) / (INR (rsize ra) * INR (rsize rb)) * (s * v / Rmax msv (Rsum cs * v)) = rate * (1 - 1 / IZR z)).
    { unfold rate. rewrite <- Hx, Hz, minus_IZR. change (s * v / Rmax msv (Rsum cs * v)) with (s * v * / Rmax msv (Rsum cs * v)). generalize (/ Rmax msv (Rsum cs * v)). intros y'. field. lra. }
    rewrite <- E. apply G. right. exists z. auto.
Qed.
Print Assumptions C89_saturated.
Theorem C89_rate : forall K dt c nprops db res er k A B ra rb pa pb msv i j pi pj cs ch s,
  testable K dt c nprops db -> (A < B < Nat.min (length (c_ranges c)) nprops)%nat -> db A B <> [] ->
  nth_error (c_ranges c) A = Some ra -> nth_error (c_ranges c) B = Some rb ->
  nth_error (c_mem c) (fst ra) = Some pa -> nth_error (c_mem c) (fst rb) = Some pb ->
  findMaxSigmaVProduct (N:=RNum) K (db A B) (c_maxv c A B) = Ok msv ->
  in_range i ra -> in_range j rb -> nth_error (c_mem c) i = Some pi -> nth_error (c_mem c) j = Some pj ->
  let v := relspeed (p_vel pi) (p_vel pj) in
  channels K (db A B) v cs -> nth_error cs ch = Some s -> Rsum cs * v <= msv -> 0 < msv ->
  let x := ntc false (p_weight pa) (p_weight pb) (rsize ra) (rsize rb) dt msv (c_volume c) in
  let rate := Rmax (p_weight pa) (p_weight pb) * dt * s * v / c_volume c in
  let hits := fun fuel u => occurrences (A, B, (i, j), Z.of_nat ch) (driver (N:=RNum) K fuel false dt c nprops db res er (drawn u) k) in
  (IZR (Zfloor x) <> x -> expected k hits rate /\
     ((forall C, (C < Nat.min (length (c_ranges c)) nprops)%nat -> db C C = []) -> expected_exactly k hits rate)) /\
  (forall z, x = IZR z -> (1 <= z)%Z -> expected k hits (rate * (1 - 1 / IZR z)) /\
     ((forall C, (C < Nat.min (length (c_ranges c)) nprops)%nat -> db C C = []) -> expected_exactly k hits (rate * (1 - 1 / IZR z)))).
Proof.
  intros K dt c nprops db res er k A B ra rb pa pb msv i j pi pj cs ch s HT HAB Hdb Ha Hb Hpa Hpb Hm Hi Hj Hpi Hpj v Hcs Hs Hle Hm0 x rate hits.
  pose proof (C89_saturated K dt c nprops db res er k A B ra rb pa pb msv i j pi pj cs ch s HT HAB Hdb Ha Hb Hpa Hpb Hm Hi Hj Hpi Hpj Hcs Hs) as G. cbv zeta in G. fold v in G.
  rewrite (Rmax_left _ _ Hle) in G. replace (msv / msv) with 1 in G by (symmetry; apply Rinv_r; exact (Rgt_not_eq _ _ Hm0)). rewrite Rmult_1_r in G. exact G.
Qed.
Print Assumptions C89_rate.

(** C90.  Two particles of the same species: the expected number of interactions of the two
    through a channel is the kinetic rate w dt s v / V times n/(n-1), where n is the number of
    particles of the species: too large, because the estimate counts n*n/2 pairs where
    there are n(n-1)/2. *)
Theorem C90_like_rate : forall K dt c nprops db res er k A ra pa msv i j pi pj cs ch s,
  testable K dt c nprops db -> (A < Nat.min (length (c_ranges c)) nprops)%nat -> db A A <> [] ->
  nth_error (c_ranges c) A = Some ra -> nth_error (c_mem c) (fst ra) = Some pa ->
  findMaxSigmaVProduct (N:=RNum) K (db A A) (c_maxv c A A) = Ok msv ->
  in_range i ra -> in_range j ra -> i <> j -> nth_error (c_mem c) i = Some pi -> nth_error (c_mem c) j = Some pj ->
  let v := relspeed (p_vel pi) (p_vel pj) in
  channels K (db A A) v cs -> nth_error cs ch = Some s -> Rsum cs * v <= msv -> 0 < msv ->
  let n := INR (rsize ra) in
  let x := ntc true (p_weight pa) (p_weight pa) (rsize ra) (rsize ra) dt msv (c_volume c) in
  let rate := p_weight pa * dt * s * v / c_volume c * (n / (n - 1)) in
  let run := fun fuel u => driver (N:=RNum) K fuel false dt c nprops db res er (drawn u) k in
  let hits := fun fuel u => occurrences (A, A, (i, j), Z.of_nat ch) (run fuel u) + occurrences (A, A, (j, i), Z.of_nat ch) (run fuel u) in
  (IZR (Zfloor x) <> x -> expected k hits rate) /\
  (forall z, x = IZR z -> (1 <= z)%Z -> expected k hits (rate * (1 - 1 / IZR z))).
Proof.
  intros K dt c nprops db res er k A ra pa msv i j pi pj cs ch s HT HA Hdb Ha Hpa Hm Hi Hj Hij Hpi Hpj v Hcs Hs Hle Hm0 n x rate run hits.
  assert (HAB' : (A <= A < Nat.min (length (c_ranges c)) nprops)%nat) by lia.
  assert (Hen : A = A -> (2 <= rsize ra)%nat) by (intros _; unfold in_range, rsize in *; lia).
  assert (Hn : 2 <= n) by (unfold n; replace 2 with (INR 2) by (cbn; ring); apply le_INR; auto).
  assert (HV : 0 < c_volume c) by apply HT.
  assert (Hcs' : channels K (db A A) (relspeed (p_vel pj) (p_vel pi)) cs).
  { replace (relspeed (p_vel pj) (p_vel pi)) with v; [exact Hcs|]. unfold v, relspeed, dist2. f_equal. ring. }
  assert (Ev : relspeed (p_vel pj) (p_vel pi) = v) by (unfold v, relspeed, dist2; f_equal; ring).
  pose proof (fun t => r_hits K dt c nprops db res er k HT A A ra ra pa pa msv HAB' Hdb Ha Ha Hpa Hpa Hm Hen i j pi pj Hi Hj Hij Hpi Hpj cs ch s Hcs Hs t) as G1.
  pose proof (fun t => r_hits K dt c nprops db res er k HT A A ra ra pa pa msv HAB' Hdb Ha Ha Hpa Hpa Hm Hen j i pj pi Hj Hi ltac:(congruence) Hpj Hpi cs ch s Hcs' Hs t) as G2.
  unfold tests_value, xr, npairs in G1, G2. rewrite Nat.eqb_refl in G1, G2. fold x v in G1, G2. cbv zeta in G1, G2. rewrite Ev in G2.
  rewrite (Rmax_left _ _ Hle) in G1, G2. rewrite minus_INR in G1, G2 by (specialize (Hen eq_refl); lia). fold n in G1, G2. cbn [INR] in G1, G2.
  assert (Hx : x / (n * (n - 1)) * (s * v / msv) + x / (n * (n - 1)) * (s * v / msv) = rate).
  { unfold x, rate, ntc. fold n. rewrite Rmax_left by apply Rle_refl. exact (rate_like _ n dt msv _ s v Hn HV Hm0). }
  split.
  - intros Hni. rewrite <- Hx. apply expected_plus; [apply G1|apply G2]; left; auto.
  - intros z Hz Hz1. assert (Pz : 0 < IZR z) by (apply IZR_lt; lia).
    assert (E : IZR (z - 1) / (n * (n - 1)) * (s * v / msv) + IZR (z - 1) / (n * (n - 1)) * (s * v / msv) = rate * (1 - 1 / IZR z)).
    { rewrite <- Hx, Hz, minus_IZR. field. lra. }
    rewrite <- E. apply expected_plus; [apply G1|apply G2]; right; exists z; auto.
Qed.
Print Assumptions C90_like_rate.

(** C91.  The expected number of tests of a pair of species is the estimate x if that is not an
    integer and z - 1 if it is the integer z > 0; all pairs of distinct particles are tested
    equally often. *)
Theorem C91_tests : forall K dt c nprops db res er k A B ra rb pa pb msv,
  testable K dt c nprops db -> (A <= B < Nat.min (length (c_ranges c)) nprops)%nat -> db A B <> [] ->
  nth_error (c_ranges c) A = Some ra -> nth_error (c_ranges c) B = Some rb ->
  nth_error (c_mem c) (fst ra) = Some pa -> nth_error (c_mem c) (fst rb) = Some pb ->
  findMaxSigmaVProduct (N:=RNum) K (db A B) (c_maxv c A B) = Ok msv -> (A = B -> (2 <= rsize ra)%nat) ->
  let x := ntc (Nat.eqb A B) (p_weight pa) (p_weight pb) (rsize ra) (rsize rb) dt msv (c_volume c) in
  let run := fun fuel u => driver (N:=RNum) K fuel false dt c nprops db res er (drawn u) k in
  let pairs := if Nat.eqb A B then INR (rsize ra) * (INR (rsize ra) - 1) else INR (rsize ra) * INR (rsize rb) in
  forall t, (IZR (Zfloor x) <> x /\ t = x) \/ (exists z, x = IZR z /\ (1 <= z)%Z /\ t = IZR (z - 1)) ->
  expected k (fun fuel u => tests_of A B (run fuel u)) t /\
  (forall i j, in_range i ra -> in_range j rb -> i <> j -> expected k (fun fuel u => pair_tests A B i j (run fuel u)) (t / pairs)).
Proof.
  intros K dt c nprops db res er k A B ra rb pa pb msv HT HAB Hdb Ha Hb Hpa Hpb Hm Hen x run pairs t Ht. split.
  - exact (proj1 (r_tests K dt c nprops db res er k HT A B ra rb pa pb msv HAB Hdb Ha Hb Hpa Hpb Hm Hen t Ht)).
  - intros i j Hi Hj Hij.
    destruct (HT) as (_ & _ & _ & _ & Hmem & _).
    destruct (in_mem (c_mem c) i ra (Hmem _ _ Ha) Hi) as (pi & Hpi). destruct (in_mem (c_mem c) j rb (Hmem _ _ Hb) Hj) as (pj & Hpj).
    pose proof (proj1 (r_pair K dt c nprops db res er k HT A B ra rb pa pb msv HAB Hdb Ha Hb Hpa Hpb Hm Hen i j Hi Hj Hij t Ht)) as G.
    replace pairs with (npairs A B ra rb); [exact G|]. unfold npairs, pairs. destruct (Nat.eqb_spec A B) as [E|]; [|reflexivity].
    assert (ra = rb) by (rewrite E in Ha; congruence). subst rb. rewrite minus_INR by (specialize (Hen E); lia). reflexivity.
Qed.
Print Assumptions C91_tests.

(** Two particles of species 0 and one of species 1, volume 100; channels 5 and 2 for unlike
    and 2 for like particles: 7/5 and 1/5 tests are expected; the first and the last particle
    interact through the first channel 1/2 times, the two like ones 1/5 times. *)
Definition exA2 : rpart := mkParticle (N:=RNum) (V3 (N:=RNum) 0 0 0) (V3 (N:=RNum) 0 0 0) 0 1.
Definition tcell : cell RNum := mkCell (N:=RNum) [exA; exA2; exB] [(0, 2); (2, 3)]%nat 100 (fun _ _ => 5).
Definition tdb (A B : nat) : list (equation RNum) :=
  if (Nat.eqb A 0 && Nat.eqb B 1)%bool then [rc 5; rc 2] else if (Nat.eqb A 0 && Nat.eqb B 0)%bool then [rc 2] else [].
Lemma tcell_testable : testable 1 1 tcell 2 tdb.
Proof.
  unfold testable. split; [lra|]. split; [cbn; lra|]. split; [|split; [|split; [|split]]].
  - intros [|[|A]] [|[|B]] ra rb p Hne EA EB; cbn in EA, EB; try (destruct A; discriminate); try (destruct B; discriminate); try congruence;
      injection EA as <-; injection EB as <-; unfold in_range; cbn; lia.
  - repeat constructor; unfold rsize; cbn; lia.
  - intros [|[|A]] r E; cbn in *; [injection E as <-; cbn; lia..|destruct A; discriminate].
  - repeat constructor; cbn; lra.
  - intros A B HAB Hne. cbn [c_ranges tcell length Nat.min] in HAB.
    assert (Hcase : (A = 0%nat /\ B = 1%nat) \/ (A = 0%nat /\ B = 0%nat)).
    { unfold tdb in Hne. destruct A as [|A]; [|contradiction]. destruct B as [|[|B]]; [right|left|]; auto; lia. }
    destruct C89_models as (Hel & _).
    destruct Hcase as [[-> ->]|[-> ->]]; cbn [tdb Nat.eqb andb]; (split; [|split; [|split]]).
    + intros r [E|E]; cbn in E; injection E as <-; cbn; lia.
    + eexists. unfold findMaxSigmaVProduct. cbn [ofold]. rewrite !rc_max by (cbn; lra). split; [reflexivity|]. unR. cbn. lra.
    + repeat constructor; exists 2%nat; apply Hel.
    + intros p q _ _. exists [5; 2]. split; [repeat constructor; apply rc_sigma, relspeed_nonneg|repeat constructor; lra].
    + intros r [E|E]; cbn in E; injection E as <-; cbn; lia.
    + eexists. unfold findMaxSigmaVProduct. cbn [ofold]. rewrite !rc_max by (cbn; lra). split; [reflexivity|]. unR. cbn. lra.
    + repeat constructor; exists 2%nat; apply Hel.
    + intros p q _ _. exists [2]. split; [repeat constructor; apply rc_sigma, relspeed_nonneg|repeat constructor; lra].
Qed.
Lemma tmax01 : findMaxSigmaVProduct (N:=RNum) 1 (tdb 0 1) (c_maxv tcell 0 1) = Ok 35.
Proof. unfold findMaxSigmaVProduct. cbn [tdb Nat.eqb andb ofold]. rewrite !rc_max by (cbn; lra). cbn. f_equal. lra. Qed.
Lemma tmax00 : findMaxSigmaVProduct (N:=RNum) 1 (tdb 0 0) (c_maxv tcell 0 0) = Ok 10.
Proof. unfold findMaxSigmaVProduct. cbn [tdb Nat.eqb andb ofold]. rewrite !rc_max by (cbn; lra). cbn. f_equal. lra. Qed.
Lemma tx01 : ntc false 1 2 2 1 1 35 100 = 7 / 5.
Proof. unfold ntc. rewrite Rmax_right by lra. cbn [INR]. field. Qed.
Lemma tx00 : ntc true 1 1 2 2 1 10 100 = 1 / 5.
Proof. unfold ntc. rewrite Rmax_right by lra. cbn [INR]. field. Qed.
Lemma tni a b z : IZR z < a < IZR z + 1 -> b = a -> IZR (Zfloor b) <> b.
Proof. intros H ->. rewrite (Zfloor_imp z) by (rewrite plus_IZR; lra). lra. Qed.
Example C89_C90_C91_case : let run := fun fuel u => driver (N:=RNum) 1 fuel false 1 tcell 2 tdb [] [] (drawn u) 0 in
  expected 0 (fun f u => occurrences (0, 1, (0, 2), 0%Z)%nat (run f u)) (1 / 2) /\
  expected 0 (fun f u => occurrences (0, 0, (0, 1), 0%Z)%nat (run f u) + occurrences (0, 0, (1, 0), 0%Z)%nat (run f u)) (1 / 5) /\
  expected 0 (fun f u => tests_of 0 1 (run f u)) (7 / 5) /\ expected 0 (fun f u => pair_tests 0 0 1 0 (run f u)) (1 / 10).
Proof.
  intros run. pose proof ex_speed as Hv1. assert (Hv2 : relspeed (p_vel exA) (p_vel exA2) = 5) by exact ex_speed.
  split; [|split; [|split]].
  - edestruct (C89_rate 1 1 tcell 2 tdb [] [] 0 0 1 (0, 2)%nat (2, 3)%nat exA exB 35 0 2 exA exB [5; 2] 0 5) as [G _];
      [exact tcell_testable|cbn; lia|discriminate|reflexivity|reflexivity|reflexivity|reflexivity|exact tmax01|unfold in_range; cbn; lia|unfold in_range; cbn; lia|reflexivity|reflexivity|
       rewrite Hv1; repeat constructor; apply rc_sigma; lra|reflexivity|rewrite Hv1; cbn [Rsum]; lra|lra|].
    destruct G as [G _]; [apply (tni (7 / 5) _ 1); [lra|exact tx01]|]. rewrite Hv1 in G. cbn [p_weight exA exB c_volume tcell] in G. rewrite Rmax_right in G by lra.
    replace (2 * 1 * 5 * 5 / 100) with (1 / 2) in G by field. exact G.
  - edestruct (C90_like_rate 1 1 tcell 2 tdb [] [] 0 0 (0, 2)%nat exA 10 0 1 exA exA2 [2] 0 2) as [G _];
      [exact tcell_testable|cbn; lia|discriminate|reflexivity|reflexivity|exact tmax00|unfold in_range; cbn; lia|unfold in_range; cbn; lia|discriminate|reflexivity|reflexivity|
       rewrite Hv2; repeat constructor; apply rc_sigma; lra|reflexivity|rewrite Hv2; cbn [Rsum]; lra|lra|].
    specialize (G (tni (1 / 5) _ 0 ltac:(lra) tx00)). rewrite Hv2 in G. cbn [p_weight exA c_volume tcell rsize fst snd Nat.sub INR] in G.
    replace (1 * 1 * 2 * 5 / 100 * ((1 + 1) / (1 + 1 - 1))) with (1 / 5) in G by field. exact G.
  - edestruct (C91_tests 1 1 tcell 2 tdb [] [] 0 0 1 (0, 2)%nat (2, 3)%nat exA exB 35) as [G _];
      [exact tcell_testable|cbn; lia|discriminate|reflexivity|reflexivity|reflexivity|reflexivity|exact tmax01|discriminate| |exact G].
    left. split; [apply (tni (7 / 5) _ 1); [lra|exact tx01]|symmetry; exact tx01].
  - edestruct (C91_tests 1 1 tcell 2 tdb [] [] 0 0 0 (0, 2)%nat (0, 2)%nat exA exA 10) as [_ G];
      [exact tcell_testable|cbn; lia|discriminate|reflexivity|reflexivity|reflexivity|reflexivity|exact tmax00|intros; cbn; lia| |].
    + left. split; [apply (tni (1 / 5) _ 0); [lra|exact tx00]|symmetry; exact tx00].
    + specialize (G 1%nat 0%nat ltac:(unfold in_range; cbn; lia) ltac:(unfold in_range; cbn; lia) ltac:(discriminate)). cbn [Nat.eqb rsize fst snd Nat.sub INR] in G.
      replace (1 / 5 / ((1 + 1) * (1 + 1 - 1))) with (1 / 10) in G by field. exact G.
Qed.
