(** C101: what out-of-place runs report; the measured maximum speeds of simtest (C63, C100). *)
From Coq Require Import Reals Lra Lia String ZArith Bool Arith Permutation List.
From Flocq Require Import Core.Core.
From Verif Require Import Base Num ModelTerm ModelCollide ModelFactories ModelXsec ModelSet ModelEq ModelFilter ModelDB ModelMisc ModelSim SpecTerm SpecPhys SpecXsec SpecSet SpecMore SpecMisc SpecRun SpecInit SpecShipped SpecSim SpecOut
  ProofCollide ProofInelastic ProofXsec ProofSet ProofMisc ProofDriver ProofDriver2 ProofDriver3 ProofTop3 ProofSelect ProofInit2 ProofSim ProofSim2 ProofSim3 ProofSim4 ProofRun ProofRun2 ProofOut Properties1 Properties3 Properties25.
From Coq Require Import List.
Import ListNotations.
Local Open Scope R_scope.

Lemma measured_in n (ps mem : list (particle RNum)) rs x X : sortBySpecies n ps = Ok (mem, rs) -> In x ps -> p_species x = Z.of_nat X ->
  exists r, nth_error rs X = Some r /\ In (p_vel x) (map (fun p => p_vel p) (firstn (snd r - fst r) (skipn (fst r) mem))).
Proof.
  intros E Hx TX. destruct (sort_sorted _ _ _ _ E) as (Pm & _ & So).
  assert (D : (0 <= p_species x < Z.of_nat n)%Z) by (apply (proj1 (sort_defined n ps)); eauto).
  assert (LX : (X < n)%nat) by lia. destruct (So X LX) as (a & b & Er & Hab & S).
  exists (a, b). split; [exact Er|]. cbn [fst snd].
  assert (Ix : In x mem) by (eapply Permutation_in; [apply Permutation_sym; exact Pm|exact Hx]). apply In_nth_error in Ix as (i & Ei).
  apply (S i x Ei) in TX. apply (in_map (fun p => p_vel p)). apply nth_error_In with (n := (i - a)%nat).
  rewrite <- (firstn_skipn a mem), nth_error_app2 in Ei; rewrite firstn_length_le in *; try lia.
  rewrite <- (firstn_skipn (b - a) (skipn a mem)), nth_error_app1 in Ei; [exact Ei|]. rewrite firstn_length_le; [lia|]. rewrite skipn_length. lia.
Qed.

(** C63, C100.  In simtest the maximum relative speed that the driver reads from the cell bounds
    the relative speed of any two particles of one species, and up to sqrt 2 that of two species. *)
Theorem C63_C100_measured : forall n (ps mem : list (particle RNum)) rs vol p q A B,
  sortBySpecies n ps = Ok (mem, rs) -> In p ps -> In q ps -> p_species p = Z.of_nat A -> p_species q = Z.of_nat B ->
  rel_speed (p_vel p) (p_vel q) <= (if Nat.eqb A B then 1 else sqrt 2) * c_maxv (sim_cell vol mem rs) A B.
Proof.
  intros n ps mem rs vol p q A B E Hp Hq TA TB.
  destruct (measured_in _ _ _ _ p A E Hp TA) as (ra & E1 & I1). destruct (measured_in _ _ _ _ q B E Hq TB) as (rb & E2 & I2). cbn [c_maxv sim_cell]. unfold measured. rewrite E1, E2.
  destruct (Nat.eqb_spec A B) as [->|_].
  - rewrite E1 in E2. injection E2 as <-. rewrite Rmult_1_l. exact (cell_same _ _ _ I1 I2).
  - exact (cell_other _ _ _ _ I1 I2).
Qed.
Print Assumptions C63_C100_measured.
(** Three particles, two of species 1: their relative speed 5 is within the measured maximum. *)
Definition mv (sp : Z) (x y : R) : particle RNum := mkParticle (N:=RNum) (V3 (N:=RNum) 0 0 0) (V3 (N:=RNum) x y 0) sp 1.
Example C63_C100_measured_case : exists mem rs, sortBySpecies 2 [mv 1 3 0; mv 0 7 7; mv 1 0 4] = Ok (mem, rs) /\
  5 <= c_maxv (sim_cell 1 mem rs) 1 1.
Proof.
  eexists _, _. split; [reflexivity|].
  pose proof (C63_C100_measured 2 [mv 1 3 0; mv 0 7 7; mv 1 0 4] _ _ 1 (mv 1 3 0) (mv 1 0 4) 1 1 eq_refl (or_introl eq_refl) (or_intror (or_intror (or_introl eq_refl))) eq_refl eq_refl) as H.
  replace (rel_speed _ _) with 5 in H; [cbn [Nat.eqb] in H; rewrite Rmult_1_l in H; exact H|].
  unfold rel_speed. cbn. symmetry. replace (_ + _) with (5 * 5) by ring. apply sqrt_square. lra.
Qed.

(** C101.  An out-of-place run over particles sorted by species.  The results appended are, test
    by test in the order of the log, what the pair of particles as given to the run should
    produce; no collision sees the outcome of an earlier one. *)
Theorem C101_reported : forall (mass charge : Z -> R) (K : R) fuel (dt : R) (c : cell RNum) nprops db res er g k s,
  rng_ok g -> bounded (2 ^ 31) (c_ranges c) -> typed (c_mem c) (c_ranges c) ->
  (forall A B, (A <= B)%nat -> List.Forall (gas_channel mass charge (Z.of_nat A) (Z.of_nat B)) (db A B)) ->
  driver (N:=RNum) K fuel false dt c nprops db res er g k = Ok s ->
  exists news, s_res s = res ++ concat news /\ Forall2 (reported mass charge K db (c_mem c)) (s_log s) news.
Proof. intros. eapply run_reports; eassumption. Qed.
Print Assumptions C101_reported.

Section Totals.
Variables (mass charge : Z -> R) (K : R) (fuel : nat) (dt : R) (c : cell RNum) (nprops : nat) (db : nat -> nat -> list (equation RNum))
  (res : list (particle RNum)) (er : list nat) (g : rng RNum) (k : nat) (s : dstate RNum).
Hypothesis Hg : rng_ok g.
Hypothesis Hb : bounded (2 ^ 31) (c_ranges c).
Hypothesis Ht : typed (c_mem c) (c_ranges c).
Hypothesis HG : forall A B, (A <= B)%nat -> List.Forall (gas_channel mass charge (Z.of_nat A) (Z.of_nat B)) (db A B).
Hypothesis Hrun : driver (N:=RNum) K fuel false dt c nprops db res er g k = Ok s.
Notation mem := (c_mem c).

(** Hence the totals over the results are those of the collision partners, each counted once
    for every collision it takes part in: quantities of the species (with the changes the equations
    state), momentum if the equations balance mass, and kinetic energy. *)
Theorem C101_totals : exists new, s_res s = res ++ new /\
  (forall h : Z -> R, Rsum (map (fun p => h (p_species p)) new) =
     total_at (fun p => h (p_species p)) mem (partners (s_log s)) + over_collisions (species_change h db) (s_log s)) /\
  ((forall A B, List.Forall (balanced mass (Z.of_nat A) (Z.of_nat B)) (db A B)) ->
     forall x, Rsum (map (momentum_of mass x) new) = total_at (momentum_of mass x) mem (partners (s_log s))) /\
  (forall dE loss, (forall A B j q, nth_error (db A B) j = Some q -> energy_channel mass charge (Z.of_nat A) (Z.of_nat B) q (dE A B j) (loss A B j)) ->
     (forall A B q, In q (db A B) -> is_reaction q = true -> cross_sections_ok K (db A B)) ->
     total_at (kinetic_of mass) mem (partners (s_log s)) + over_collisions (fun A B j => dE A B j - loss A B j) (s_log s)
       <= Rsum (map (kinetic_of mass) new) <= total_at (kinetic_of mass) mem (partners (s_log s)) + over_collisions dE (s_log s)).
Proof.
  destruct (C101_reported mass charge K fuel dt c nprops db res er g k s Hg Hb Ht HG Hrun) as (news & E & F).
  exists (concat news). split; [exact E|]. split; [|split].
  - intros h. pose proof (reports_total (fun p => h (p_species p)) (species_change h db) (species_change h db) mem _ _ _ F) as G. apply Rle_antisym; apply G; clear G;
    (intros A B i j n l; unfold reported; destruct (0 <=? n)%Z; [|auto]; intros (a & b & q & Ea & Eb & _ & TA & TB & Eq & Hsp & _);
     rewrite Ea, Eb; cbn [held]; rewrite TA, TB; unfold species_change; rewrite Eq;
     assert (Hm : forall l' : list (particle RNum), Rsum (map (fun p => h (p_species p)) l') = Rsum (map h (map p_species l'))) by (intros; now rewrite map_map);
     rewrite Hm; destruct (q_model q); try (destruct Hsp as (Hsp & _)); rewrite Hsp; try (cbn [map Rsum]; rewrite TA, TB; lra); lra).
  - intros HB x. pose proof (reports_total (momentum_of mass x) (fun _ _ _ => 0) (fun _ _ _ => 0) mem _ _ _ F) as G. rewrite !over_zero, !Rplus_0_r in G.
    apply Rle_antisym; apply G; clear G;
    (intros A B i j n l; unfold reported; destruct (0 <=? n)%Z; [|auto]; intros (a & b & q & Ea & Eb & _ & _ & _ & Eq & _ & Hm & _);
     rewrite Ea, Eb; cbn [held]; rewrite Hm; [lra|]; specialize (HB A B); rewrite List.Forall_forall in HB; exact (HB q (nth_error_In _ _ Eq))).
  - intros dE loss HE HX. apply (reports_total (kinetic_of mass) _ _ mem _ _ _ F).
    intros A B i j n l. unfold reported. destruct (0 <=? n)%Z; [|auto]. intros (a & b & q & Ea & Eb & _ & _ & _ & Eq & _ & _ & Hen).
    rewrite Ea, Eb. cbn [held]. specialize (Hen _ _ (HE A B _ q Eq) (HX A B q (nth_error_In _ _ Eq))). lra.
Qed.
(** If no particle takes part in two collisions, replacing the partners by the results keeps the
    momentum of the gas and changes its energy and numbers as the equations state. *)
Theorem C101_replaced : NoDup (partners (s_log s)) -> exists new, s_res s = res ++ new /\
  let after f := total_at f mem (positions_but mem (partners (s_log s))) + Rsum (map f new) in
  (forall h : Z -> R, after (fun p => h (p_species p)) = Rsum (map (fun p => h (p_species p)) mem) + over_collisions (species_change h db) (s_log s)) /\
  ((forall A B, List.Forall (balanced mass (Z.of_nat A) (Z.of_nat B)) (db A B)) ->
     forall x, after (momentum_of mass x) = Rsum (map (momentum_of mass x) mem)) /\
  (forall dE loss, (forall A B j q, nth_error (db A B) j = Some q -> energy_channel mass charge (Z.of_nat A) (Z.of_nat B) q (dE A B j) (loss A B j)) ->
     (forall A B q, In q (db A B) -> is_reaction q = true -> cross_sections_ok K (db A B)) ->
     Rsum (map (kinetic_of mass) mem) + over_collisions (fun A B j => dE A B j - loss A B j) (s_log s)
       <= after (kinetic_of mass) <= Rsum (map (kinetic_of mass) mem) + over_collisions dE (s_log s)).
Proof.
  intros ND. destruct C101_totals as (new & E & H1 & H2 & H3). exists new. split; [exact E|].
  assert (Hin : forall i, In i (partners (s_log s)) -> (i < length mem)%nat).
  { destruct (C101_reported mass charge K fuel dt c nprops db res er g k s Hg Hb Ht HG Hrun) as (news & _ & F). clear -F.
    induction F as [|[[[A B] [i j]] n] l log news Hp F IH]; [intros i []|].
    change (partners ((A, B, (i, j), n) :: log)) with ((if (0 <=? n)%Z then [i; j] else []) ++ partners log).
    intros x Hx. apply in_app_iff in Hx as [Hx|Hx]; [|auto]. unfold reported in Hp. destruct (0 <=? n)%Z; [|destruct Hx].
    destruct Hp as (a & b & q & Ea & Eb & _). apply nth_error_Some. destruct Hx as [<-|[<-|[]]]; congruence. }
  assert (Sp : forall f, total_at f mem (positions_but mem (partners (s_log s))) + total_at f mem (partners (s_log s)) = Rsum (map f mem)) by (intros f; now apply total_split).
  cbv zeta. split; [|split].
  - intros h. rewrite (H1 h). pose proof (Sp (fun p => h (p_species p))). lra.
  - intros HB x. rewrite (H2 HB x). apply Sp.
  - intros dE loss HE HX. pose proof (H3 dE loss HE HX). pose proof (Sp (kinetic_of mass)). lra.
Qed.
End Totals.
Print Assumptions C101_totals.
Print Assumptions C101_replaced.

(** exA (species 0, mass 2) and exB (species 1, mass 3) collide twice in one run: two particles
    become four results with twice the momentum and energy. *)
Definition omass (z : Z) : R := if (z =? 0)%Z then 2 else 3.
Lemma rdb_gas A B : List.Forall (gas_channel omass (fun _ => 0) (Z.of_nat A) (Z.of_nat B)) (rdb A B).
Proof.
  unfold rdb. destruct (Nat.eqb_spec A 0); [|constructor]. destruct (Nat.eqb_spec B 1); [|constructor]. subst. constructor; [|constructor].
  split; [unfold omass; cbn; lra|]. split; [unfold omass; cbn; lra|]. left. reflexivity.
Qed.
Lemma rcell_test sf (st st' : dstate RNum) : s_mem st = [exA; exB] -> s_ranges st = [(0, 1); (1, 2)]%nat ->
  one_test (N:=RNum) 1 false sf [rc 5] (0 + 5 * 5) 0 1 exG st = Ok st' ->
  s_mem st' = [exA; exB] /\ s_ranges st' = [(0, 1); (1, 2)]%nat /\ s_log st' = s_log st ++ [(0, 1, (0, 1), 0%Z)]%nat.
Proof.
  intros M R E1. unfold one_test in E1. unfold oget at 1 2 in E1. rewrite R in E1. cbn [nth_error obind] in E1.
  apply obind_ok in E1 as ([[i j] k1] & Ep & E1).
  destruct (select_pos (N:=RNum) sf (0, 1)%nat (1, 2)%nat exG (2 ^ 31) (s_pos st) i j k1 (rpos_ok exG exG_ok)) as (Hi & Hj & _); [cbn; lia|cbn; lia|exact Ep|].
  unfold in_range in Hi, Hj. cbn in Hi, Hj. assert (i = 0%nat) as -> by lia. assert (j = 1%nat) as -> by lia.
  rewrite M in E1. cbn [oget nth_error obind] in E1.
  apply obind_ok in E1 as ([[[[path a] b] l] k2] & Ei & E1).
  unfold set_interact in Ei. cbv zeta in Ei.
  set (v := vabs _) in Ei. assert (Hv : v = 5). { subst v. unfold vabs, vsub. cbn. replace (_ + _)%R with (5 * 5)%R by ring. apply sqrt_square; lra. }
  clearbody v. match type of Ei with obind ?X _ = _ => assert (Ec : exists c k3, X = Ok (0%Z, c, k3)) end.
  { destruct (C31_C32_C33_outpath 1 [rc 5] (0 + 5 * 5) v exG k1 [5]) as (jj & c & k3 & Eo & _ & Hc & Hcase & _).
    - constructor; [|constructor]. unfold sigma_is. cbn. destruct (Rleb_spec 0 v); [reflexivity|lra].
    - constructor; [lra|constructor].
    - exact exG_ok.
    - destruct Hc as [_ Hc]; [cbn; lra|]. destruct Hcase as [->|([|[|n]] & -> & Hn & _)]; [|eauto|discriminate..].
      exfalso. apply (Zlt_not_le (-1) 0); [lia|]. apply Hc. rewrite Hv. cbn. lra. }
  destruct Ec as (c & k3 & Ec). rewrite Ec in Ei. cbn [obind fst oget nth_error Z.to_nat] in Ei. change (0 <=? 0)%Z with true in Ei.
  change (p_species exB <? p_species exA)%Z with false in Ei. cbv iota in Ei. cbn [obind] in Ei.
  destruct (elastic_out_in (ReducedMass (N:=RNum) 2 3) exA exB (s_res st) exG k3) as (q1 & q2 & _ & Em & _).
  change (q_model (rc 5)) with (MElastic (ReducedMass (N:=RNum) 2 3)) in Ei. rewrite Em in Ei. cbn [obind] in Ei. injection Ei as <- <- <- <- <-.
  cbn [fst negb orb] in E1. injection E1 as <-. cbn [s_mem s_ranges s_log upd]. auto.
Qed.
Lemma rcell_log : exists fuel s, driver (N:=RNum) 1 fuel false 1 (rcell 20) 2 rdb [] [] exG 0 = Ok s /\
  s_log s = [(0, 1, (0, 1), 0%Z); (0, 1, (0, 1), 0%Z)]%nat.
Proof.
  destruct (rcell_run 20 3) as (fuel & s & L & E). exists fuel, s. split; [exact E|].
  destruct fuel as [|[|[|fuel]]]; try lia. set (F := S (S (S fuel))) in *. assert (EF : F = S (S (S fuel))) by reflexivity. clearbody F.
  unfold driver in E. cbv zeta in E. change (species_pairs (Nat.min (length (c_ranges (rcell 20))) 2)) with [(0, 0); (0, 1); (1, 1)]%nat in E.
  cbn [first_pass] in E. change (rdb 0 0) with (@nil (equation RNum)) in E. change (rdb 0 1) with [rc 5] in E. change (rdb 1 1) with (@nil (equation RNum)) in E.
  unfold oget at 1 2 3 4 5 6 in E. cbn [nth_error rcell c_ranges obind] in E.
  assert (Em : findMaxSigmaVProduct (N:=RNum) 1 [rc 5] (c_maxv (rcell 20) 0 1) = Ok (0 + 5 * 5)).
  { unfold findMaxSigmaVProduct. cbn [ofold]. rewrite rc_max by (cbn; lra). reflexivity. }
  rewrite Em in E. cbn [obind] in E.
  change (first_weight (c_mem (rcell 20)) (0, 1)%nat) with (Ok (A:=RNum) 1) in E. change (first_weight (c_mem (rcell 20)) (1, 2)%nat) with (Ok (A:=RNum) 2) in E.
  cbn [obind oget nth_error] in E. unfold second_pass in E. cbn [ofold ct_A ct_B ct_tests ct_msv] in E.
  set (x := promote _ _) in E.
  assert (Hx : x = 5 / 2). { subst x. unfold promote, estimate. cbn. unfold nmin. cbn. destruct (Rltb_spec 2 1); [lra|].
    replace (1 * 2 * 1 * 1 * 1 * (0 + 5 * 5) / (20 * 1))%R with (5 / 2)%R by field.
    replace (Zfloor (5 / 2)) with 2%Z by (symmetry; apply Zfloor_imp; cbn; lra). destruct (Rltb_spec (/ 2) (5 / 2 - 2)); lra. }
  clearbody x. change (rdb 0 1) with [rc 5] in E. rewrite EF in E at 1. cbn [test_loop] in E.
  assert (B1 : (n1 <? x)%num = true) by (unR; destruct (Rltb_spec 1 x); [reflexivity|lra]).
  assert (B2 : (n1 <? (x - n1))%num = true) by (unR; destruct (Rltb_spec 1 (x - 1)); [reflexivity|lra]).
  assert (B3 : (n1 <? (x - n1 - n1))%num = false) by (unR; destruct (Rltb_spec 1 (x - 1 - 1)); [lra|reflexivity]).
  rewrite B1, B2, B3 in E.
  set (st := mkState (N:=RNum) _ _ _ _ _ _) in E.
  apply obind_ok in E as (sl & E & Es). injection Es as ->.
  unfold oget at 1 2 in E. cbn [nth_error s_ranges obind st] in E. change (rsize (0, 1)%nat) with 1%nat in E. change (rsize (1, 2)%nat) with 1%nat in E. cbn [Nat.eqb Nat.ltb Nat.leb andb orb] in E.
  apply obind_ok in E as (s1 & E1 & E). destruct (rcell_test F st s1 eq_refl eq_refl E1) as (M1 & R1 & L1).
  unfold oget at 1 2 in E. rewrite R1 in E. cbn [nth_error obind] in E. change (rsize (0, 1)%nat) with 1%nat in E. change (rsize (1, 2)%nat) with 1%nat in E. cbn [Nat.eqb Nat.ltb Nat.leb andb orb] in E.
  apply obind_ok in E as (s2 & E2 & E). destruct (rcell_test F s1 s2 M1 R1 E2) as (M2 & R2 & L2). injection E as <-. rewrite L2, L1. reflexivity.
Qed.
Lemma rcell_log25 : exists fuel s, driver (N:=RNum) 1 fuel false 1 (rcell 25) 2 rdb [] [] exG 0 = Ok s /\
  s_log s = [(0, 1, (0, 1), 0%Z)]%nat.
Proof.
  destruct (rcell_run 25 3) as (fuel & s & L & E). exists fuel, s. split; [exact E|].
  destruct fuel as [|[|[|fuel]]]; try lia. set (F := S (S (S fuel))) in *. assert (EF : F = S (S (S fuel))) by reflexivity. clearbody F.
  unfold driver in E. cbv zeta in E. change (species_pairs (Nat.min (length (c_ranges (rcell 25))) 2)) with [(0, 0); (0, 1); (1, 1)]%nat in E.
  cbn [first_pass] in E. change (rdb 0 0) with (@nil (equation RNum)) in E. change (rdb 0 1) with [rc 5] in E. change (rdb 1 1) with (@nil (equation RNum)) in E.
  unfold oget at 1 2 3 4 5 6 in E. cbn [nth_error rcell c_ranges obind] in E.
  assert (Em : findMaxSigmaVProduct (N:=RNum) 1 [rc 5] (c_maxv (rcell 25) 0 1) = Ok (0 + 5 * 5)).
  { unfold findMaxSigmaVProduct. cbn [ofold]. rewrite rc_max by (cbn; lra). reflexivity. }
  rewrite Em in E. cbn [obind] in E.
  change (first_weight (c_mem (rcell 25)) (0, 1)%nat) with (Ok (A:=RNum) 1) in E. change (first_weight (c_mem (rcell 25)) (1, 2)%nat) with (Ok (A:=RNum) 2) in E.
  cbn [obind oget nth_error] in E. unfold second_pass in E. cbn [ofold ct_A ct_B ct_tests ct_msv] in E.
  set (x := promote _ _) in E.
  assert (Hx : x = 2). { subst x. unfold promote, estimate. cbn. unfold nmin. cbn. destruct (Rltb_spec 2 1); [lra|].
    replace (1 * 2 * 1 * 1 * 1 * (0 + 5 * 5) / (25 * 1))%R with 2%R by field.
    rewrite (Zfloor_IZR 2). destruct (Rltb_spec (/ 2) (2 - 2)); lra. }
  clearbody x. change (rdb 0 1) with [rc 5] in E. rewrite EF in E at 1. cbn [test_loop] in E.
  assert (B1 : (n1 <? x)%num = true) by (unR; destruct (Rltb_spec 1 x); [reflexivity|lra]).
  assert (B2 : (n1 <? (x - n1))%num = false) by (unR; destruct (Rltb_spec 1 (x - 1)); [lra|reflexivity]).
  rewrite B1, B2 in E.
  set (st := mkState (N:=RNum) _ _ _ _ _ _) in E.
  apply obind_ok in E as (sl & E & Es). injection Es as ->.
  unfold oget at 1 2 in E. cbn [nth_error s_ranges obind st] in E. change (rsize (0, 1)%nat) with 1%nat in E. change (rsize (1, 2)%nat) with 1%nat in E. cbn [Nat.eqb Nat.ltb Nat.leb andb orb] in E.
  apply obind_ok in E as (s1 & E1 & E). destruct (rcell_test F st s1 eq_refl eq_refl E1) as (M1 & R1 & L1).
  injection E as <-. rewrite L1. reflexivity.
Qed.
Lemma rcell_typed vol : typed (c_mem (rcell vol)) (c_ranges (rcell vol)).
Proof.
  intros [|[|A]] r i Hr Hi; cbn in Hr; [injection Hr as <-|injection Hr as <-|destruct A; discriminate]; unfold in_range in Hi; cbn in Hi.
  - assert (i = 0%nat) as -> by lia. exists exA. split; reflexivity.
  - assert (i = 1%nat) as -> by lia. exists exB. split; reflexivity.
Qed.
Lemma rcell_hyps vol : bounded (2 ^ 31) (c_ranges (rcell vol)) /\ typed (c_mem (rcell vol)) (c_ranges (rcell vol)) /\
  (forall A B, (A <= B)%nat -> List.Forall (gas_channel omass (fun _ => 0) (Z.of_nat A) (Z.of_nat B)) (rdb A B)) /\
  (forall A B, List.Forall (balanced omass (Z.of_nat A) (Z.of_nat B)) (rdb A B)).
Proof.
  split; [repeat constructor; unfold rsize; cbn; lia|]. split; [apply rcell_typed|]. split; [intros; apply rdb_gas|].
  intros A B. unfold rdb. destruct (_ && _)%bool; repeat constructor.
Qed.
Example C101_case : exists fuel s, driver (N:=RNum) 1 fuel false 1 (rcell 20) 2 rdb [] [] exG 0 = Ok s /\
  s_mem s = [exA; exB] /\ length (s_res s) = 4%nat /\ Rsum (map (momentum_of omass 0) (s_res s)) = 12 /\ Rsum (map (kinetic_of omass) (s_res s)) = 50.
Proof.
  destruct rcell_log as (fuel & s & E & Lg). exists fuel, s. split; [exact E|].
  assert (Hbd : bounded (2 ^ 31) (c_ranges (rcell 20))) by (repeat constructor; unfold rsize; cbn; lia).
  assert (HG : forall A B, (A <= B)%nat -> List.Forall (gas_channel omass (fun _ => 0) (Z.of_nat A) (Z.of_nat B)) (rdb A B)) by (intros; apply rdb_gas).
  split.
  { destruct (driver_outofplace (N:=RNum) 1 fuel 1 (rcell 20) 2 rdb [] [] exG 0 s _ (rpos_ok exG exG_ok) Hbd) as (M & _); [|exact E|exact M].
    intros A B. unfold rdb. destruct (_ && _)%bool; repeat constructor. }
  destruct (C101_totals omass (fun _ => 0) 1 fuel 1 (rcell 20) 2 rdb [] [] exG 0 s exG_ok Hbd (rcell_typed 20) HG E) as (new & En & H1 & H2 & H3).
  cbn [app] in En. rewrite En. assert (Ch : forall h, species_change h rdb 0 1 0 = 0) by reflexivity. split; [|split].
  - apply INR_eq. transitivity (Rsum (map (fun p : particle RNum => 1) new)).
    + clear. induction new as [|p new IH]; cbn [length map Rsum]; [reflexivity|]. rewrite S_INR, IH. apply Rplus_comm.
    + rewrite (H1 (fun _ => 1)), Lg. unfold over_collisions, total_at. cbn -[species_change INR]. rewrite Ch. cbn. change (T RNum) with R. lra.
  - rewrite H2; [|intros A B; unfold rdb; destruct (_ && _)%bool; repeat constructor]. rewrite Lg. unfold total_at, momentum_of. cbn. lra.
  - destruct (H3 (fun _ _ _ => 0) (fun _ _ _ => 0)) as [H4 H5]; [|intros A B q Hq Hr; exfalso; unfold rdb in Hq; destruct (_ && _)%bool in Hq; [destruct Hq as [<-|[]]; discriminate Hr|destruct Hq]|].
    + intros A B j q Hq. unfold rdb in Hq. destruct (Nat.eqb_spec A 0); [|destruct j; discriminate]. destruct (Nat.eqb_spec B 1); [|destruct j; discriminate]. subst.
      destruct j as [|[|j]]; try discriminate. injection Hq as <-. split; [unfold omass; cbn; lra|]. split; [unfold omass; cbn; lra|]. left. split; [reflexivity|]. split; reflexivity.
    + rewrite Lg in H4, H5. set (S := Rsum _) in H4, H5 |- *. clearbody S. unfold over_collisions in H4, H5.
      assert (T4 : total_at (kinetic_of omass) (c_mem (rcell 20)) (partners [(0, 1, (0, 1), 0%Z); (0, 1, (0, 1), 0%Z)]%nat) = 50).
      { unfold total_at. cbn [partners flat_map fst snd app map nth_error held c_mem rcell Rsum Z.leb Z.compare]. unfold kinetic_of, kinetic, norm2, omass. cbn. change (T RNum) with R. lra. }
      rewrite T4 in H4, H5. cbn in H4, H5. change (T RNum) with R in *. lra.
Qed.
(** With volume 25 they collide once, and replacing them by the results keeps the momentum. *)
Example C101_replaced_case : exists fuel s, driver (N:=RNum) 1 fuel false 1 (rcell 25) 2 rdb [] [] exG 0 = Ok s /\
  NoDup (partners (s_log s)) /\ length (s_res s) = 2%nat /\ Rsum (map (momentum_of omass 0) (s_res s)) = 6.
Proof.
  destruct rcell_log25 as (fuel & s & E & Lg). exists fuel, s. split; [exact E|]. destruct (rcell_hyps 25) as (H1 & H2 & H3 & H5).
  assert (ND : NoDup (partners (s_log s))) by (rewrite Lg; repeat constructor; cbn; intuition discriminate). split; [exact ND|].
  destruct (C101_replaced omass (fun _ => 0) 1 fuel 1 (rcell 25) 2 rdb [] [] exG 0 s exG_ok H1 H2 H3 E ND) as (new & En & R1 & R2 & _).
  cbn [app] in En. rewrite En, Lg in *. split.
  - apply INR_eq. transitivity (Rsum (map (fun p : particle RNum => 1) new)).
    + clear. induction new as [|p new IH]; cbn [length map Rsum]; [reflexivity|]. rewrite S_INR, IH. apply Rplus_comm.
    + specialize (R1 (fun _ => 1)). set (S := Rsum (map _ new)) in R1 |- *. clearbody S. unfold over_collisions, total_at in R1. cbn in R1 |- *. change (T RNum) with R in *. lra.
  - specialize (R2 H5 0%nat). set (S := Rsum (map _ new)) in R2 |- *. clearbody S. unfold total_at, momentum_of, omass in R2. cbn in R2. change (T RNum) with R in *. lra.
Qed.
(** In general it does not: a particle may take part in several collisions of one run. *)
Theorem C101_replaced_refuted : exists mass charge (K : R) fuel (dt : R) (c : cell RNum) nprops db g k s,
  rng_ok g /\ bounded (2 ^ 31) (c_ranges c) /\ typed (c_mem c) (c_ranges c) /\
  (forall A B, (A <= B)%nat -> List.Forall (gas_channel mass charge (Z.of_nat A) (Z.of_nat B)) (db A B)) /\
  (forall A B, List.Forall (balanced mass (Z.of_nat A) (Z.of_nat B)) (db A B)) /\
  driver (N:=RNum) K fuel false dt c nprops db [] [] g k = Ok s /\
  (length (positions_but (c_mem c) (partners (s_log s))) + length (s_res s) = 2 * length (c_mem c))%nat /\
  total_at (momentum_of mass 0) (c_mem c) (positions_but (c_mem c) (partners (s_log s))) + Rsum (map (momentum_of mass 0) (s_res s)) <> Rsum (map (momentum_of mass 0) (c_mem c)).
Proof.
  destruct rcell_log as (fuel & s & E & Lg). destruct (rcell_hyps 20) as (H1 & H2 & H3 & H5).
  exists omass, (fun _ => 0), 1, fuel, 1, (rcell 20), 2%nat, rdb, exG, 0%nat, s.
  split; [exact exG_ok|]. split; [exact H1|]. split; [exact H2|]. split; [exact H3|]. split; [exact H5|]. split; [exact E|].
  destruct (C101_totals omass (fun _ => 0) 1 fuel 1 (rcell 20) 2 rdb [] [] exG 0 s exG_ok H1 H2 H3 E) as (new & En & R1 & R2 & _).
  cbn [app] in En. rewrite En, Lg in *. split.
  - change (positions_but (c_mem (rcell 20)) _) with (@nil nat). cbn [length plus c_mem rcell]. apply INR_eq. transitivity (Rsum (map (fun p : particle RNum => 1) new)).
    + clear. induction new as [|p new IH]; cbn [length map Rsum]; [reflexivity|]. rewrite S_INR, IH. apply Rplus_comm.
    + rewrite (R1 (fun _ => 1)). unfold over_collisions, total_at. cbn. change (T RNum) with R. lra.
  - change (positions_but (c_mem (rcell 20)) _) with (@nil nat). rewrite (R2 H5). unfold total_at, momentum_of, omass. cbn. change (T RNum) with R. lra.
Qed.
Print Assumptions C101_replaced_refuted.

(** C100, C101.  The results of simtest are two particles for every collision, with the momentum and
    energy of the colliding particles. *)
Theorem C100_C101_results : forall fuel allowed inf ninf tol solve finf parse fcm fcq val ginv path text d r s K rfuel dt ps g k st,
  sim_data val ginv path text d ->
  sim_database (default_reg (N:=RNum) fuel allowed inf ninf tol solve (setParticleFactories (N:=RNum) finf) parse fcm fcq) d = Ok (r, s) ->
  rng_ok g -> (Z.of_nat (length ps) < 2 ^ 31)%Z ->
  sim_run (N:=RNum) K rfuel dt (length r) (pair_sets s) ps g k = Ok st ->
  length (s_res st) = length (partners (s_log st)) /\
  (forall A, Rsum (map (fun p => if (p_species p =? A)%Z then 1 else 0) (s_res st)) =
     total_at (fun p => if (p_species p =? A)%Z then 1 else 0) (s_mem st) (partners (s_log st))) /\
  (forall x, Rsum (map (momentum_of (mass_of r) x) (s_res st)) = total_at (momentum_of (mass_of r) x) (s_mem st) (partners (s_log st))) /\
  Rsum (map (kinetic_of (mass_of r)) (s_res st)) = total_at (kinetic_of (mass_of r)) (s_mem st) (partners (s_log st)).
Proof.
  intros until st. intros Hd Hi Hg Hlen Hrun. unfold sim_run in Hrun. apply obind_ok in Hrun as ([mem rs] & Es & Hrun).
  destruct (sort_cell _ _ _ _ Es Hlen) as (Bd & _ & _ & _ & Ty).
  assert (El : forall A B q, In q (pair_sets s A B) -> 0 < mass_of r (Z.of_nat A) /\ 0 < mass_of r (Z.of_nat B) /\
    q_model q = MElastic (ReducedMass (N:=RNum) (mass_of r (Z.of_nat A)) (mass_of r (Z.of_nat B)))).
  { intros A B q Hq.
    destruct (sim_channel fuel allowed inf ninf tol solve finf parse fcm fcq val ginv path text d Hd r s Hi A B q Hq) as (_ & pA & pB & k' & i' & HA & HB & Hk' & Lq & _ & Em).
    rewrite (mass_nth r A pA HA), (mass_nth r B pB HB).
    split; [|split]; [apply (sim_mass fuel allowed inf ninf tol solve finf parse fcm fcq val ginv path text d Hd r s Hi), (nth_error_In _ _ HA)|
      apply (sim_mass fuel allowed inf ninf tol solve finf parse fcm fcq val ginv path text d Hd r s Hi), (nth_error_In _ _ HB)|].
    rewrite (kept_model fuel allowed inf ninf tol solve finf parse fcm fcq val ginv path text r k' i' q Hk' Lq), Em. reflexivity. }
  assert (HG : forall A B, (A <= B)%nat -> List.Forall (gas_channel (mass_of r) (charge_of r) (Z.of_nat A) (Z.of_nat B)) (pair_sets s A B)).
  { intros A B _. apply List.Forall_forall. intros q Hq. destruct (El A B q Hq) as (P1 & P2 & E). split; [exact P1|]. split; [exact P2|]. now left. }
  destruct (driver_outofplace (N:=RNum) K rfuel dt (sim_cell n1 mem rs) (length r) (pair_sets s) [] [] g k st (2 ^ 31)%Z (rpos_ok g Hg) Bd) as (Em & _); [|exact Hrun|].
  { intros A B. apply List.Forall_forall. intros q Hq. destruct (El A B q Hq) as (_ & _ & ->). exact I. }
  destruct (C101_totals (mass_of r) (charge_of r) K rfuel dt (sim_cell n1 mem rs) (length r) (pair_sets s) [] [] g k st Hg Bd Ty HG Hrun) as (new & En & H1 & H2 & H3).
  cbn [app] in En. rewrite En, Em.
  assert (Ch : forall h log, over_collisions (species_change h (pair_sets s)) log = 0).
  { intros h log. rewrite <- (over_zero log). unfold over_collisions. f_equal. apply map_ext. intros e. destruct (0 <=? snd e)%Z; [|reflexivity].
    unfold species_change. destruct (nth_error _ _) as [q|] eqn:Eq; [|reflexivity]. destruct (El _ _ q (nth_error_In _ _ Eq)) as (_ & _ & ->). reflexivity. }
  split; [|split; [|split]].
  - apply INR_eq. transitivity (Rsum (map (fun p : particle RNum => 1) new)).
    + clear. induction new as [|p new IH]; cbn [length map Rsum]; [reflexivity|]. rewrite S_INR, IH. apply Rplus_comm.
    + rewrite (H1 (fun _ => 1)), Ch, Rplus_0_r. unfold total_at.
      destruct (C101_reported (mass_of r) (charge_of r) K rfuel dt (sim_cell n1 mem rs) (length r) (pair_sets s) [] [] g k st Hg Bd Ty HG Hrun) as (news & _ & F). clear -F.
      induction F as [|[[[A B] [i j]] n] l log news Hp F IH]; [reflexivity|].
      change (partners ((A, B, (i, j), n) :: log)) with ((if (0 <=? n)%Z then [i; j] else []) ++ partners log). rewrite map_app, Rsum_app, app_length, plus_INR, IH. f_equal.
      unfold reported in Hp. destruct (0 <=? n)%Z; [|reflexivity]. destruct Hp as (a & b & q & Ea & Eb & _). cbn [map Rsum length INR]. rewrite Ea, Eb. cbn. change (T RNum) with R. lra.
  - intros A. rewrite (H1 (fun z => if (z =? A)%Z then 1 else 0)), Ch, Rplus_0_r. reflexivity.
  - apply H2. intros A B. apply List.Forall_forall. intros q Hq. destruct (El A B q Hq) as (_ & _ & E). unfold balanced. rewrite E. exact I.
  - destruct (H3 (fun _ _ _ => 0) (fun _ _ _ => 0)) as [L1 L2].
    + intros A B j q Hq. destruct (El A B q (nth_error_In _ _ Hq)) as (P1 & P2 & E). split; [exact P1|]. split; [exact P2|]. left. auto.
    + intros A B q Hq Hr. exfalso. destruct (El A B q Hq) as (_ & _ & E). unfold is_reaction in Hr. rewrite E in Hr. discriminate.
    + rewrite over_zero, Rplus_0_r in L2.
      assert (Z : over_collisions (fun _ _ _ : nat => 0 - 0) (s_log st) = 0) by (rewrite <- (over_zero (s_log st)); unfold over_collisions; f_equal; apply map_ext; intros e; destruct (0 <=? snd e)%Z; lra).
      rewrite Z, Rplus_0_r in L1. apply Rle_antisym; assumption.
Qed.
Print Assumptions C100_C101_results.

(** C100.  With draws that do not stick to one position, the call completes exactly if each of the
    four species has a particle. *)
Theorem C100_completes : forall fuel allowed inf ninf tol solve finf parse fcm fcq val ginv path text d r s K dt ps g k m,
  sim_data val ginv path text d ->
  sim_database (default_reg (N:=RNum) fuel allowed inf ninf tol solve (setParticleFactories (N:=RNum) finf) parse fcm fcq) d = Ok (r, s) ->
  rng_ok g -> slow val ps -> (Z.of_nat (length ps) < 2 ^ 31)%Z ->
  (forall p, In p ps -> (0 <= p_species p < Z.of_nat (length r))%Z) ->
  (forall rg, (2 <= rsize rg)%nat -> (snd rg <= length ps)%nat -> fair g rg m) ->
  ((exists f0, forall rfuel, (f0 <= rfuel)%nat -> exists st, sim_run (N:=RNum) K rfuel dt (length r) (pair_sets s) ps g k = Ok st) <->
   forall n, In n ["87Rb"; "Ar"; "e^-"; "Hg"]%string -> ~ missing r ps n).
Proof.
  intros until m. intros Hd Hi Hg Hsl Hlen Hsp Hf. split.
  - intros (f0 & H) n Hn Hm. destruct (H f0 (le_n _)) as (st & E).
    exact (C100_never fuel allowed inf ninf tol solve finf parse fcm fcq val ginv path text d r s K f0 dt ps g k st n Hd Hi Hn Hm E).
  - intros Hno. exact (sim_completes fuel allowed inf ninf tol solve finf parse fcm fcq val ginv path text d Hd r s Hi K dt ps g k m Hg Hsl Hlen Hsp Hf Hno).
Qed.
Print Assumptions C100_completes.
(** Draws alternating between 0 and 1/2: ten particles, two of each species, and any time step. *)
Definition altG : rng RNum := mkRng (N:=RNum) (fun k => if Nat.even k then 0 else / 2) (fun k => if Nat.even k then 0 else / 2).
Lemma altG_ok : rng_ok altG.
Proof. intros k. cbn. destruct (Nat.even k); lra. Qed.
Lemma altG_fair rg : (2 <= rsize rg)%nat -> (snd rg <= 10)%nat -> fair altG rg 2.
Proof.
  intros H1 H2 k i. assert (L : (rsize rg <= 10)%nat) by (unfold rsize; lia).
  assert (P : forall k, exists j, rand_pos rg altG k = Ok j /\ if Nat.even k then j = fst rg else (fst rg < j)%nat).
  { intros k0. unfold rand_pos, to_int. rewrite ProofSelect.u32_id by lia. cbn [g_exc altG]. unR. change (@ntrunc RNum) with Ztrunc.
    set (n := IZR (Z.of_nat (rsize rg))). assert (Hn : 2 <= n <= 10) by (split; apply IZR_le; lia). destruct (Nat.even k0).
    - rewrite Rmult_0_r. destruct (Rltb_spec (-2147483649) 0); [|exfalso; lra]. destruct (Rltb_spec 0 2147483648); [|exfalso; lra].
      cbn [andb obind]. eexists. split; [reflexivity|]. change 0 with (IZR 0). rewrite Ztrunc_IZR. lia.
    - destruct (Rltb_spec (-2147483649) (n * / 2)); [|exfalso; lra]. destruct (Rltb_spec (n * / 2) 2147483648); [|exfalso; lra].
      cbn [andb obind]. eexists. split; [reflexivity|]. rewrite Ztrunc_floor by lra. assert (1 <= Zfloor (n * / 2))%Z by (apply Zfloor_lub; lra). lia. }
  destruct (P k) as (j0 & E0 & J0). destruct (P (k + 1)%nat) as (j1 & E1 & J1). rewrite Nat.add_1_r, Nat.even_succ, <- Nat.negb_even in J1.
  destruct (Nat.eq_dec j0 i) as [->|NE]; [|exists 0%nat, j0; rewrite Nat.add_0_r; repeat split; [lia|exact E0|exact NE]].
  exists 1%nat, j1. repeat split; [lia|exact E1|]. destruct (Nat.even k); cbn [negb] in J1; lia.
Qed.
Example C100_completes_case : forall dt, exists r s rfuel st,
  sim_database (default_reg (N:=RNum) (Z.to_nat 9900) true 1 (-1) (fun _ _ => true) (fun _ a b => (a, b)) (setParticleFactories (N:=RNum) 2) (fun _ => Throw ExnRuntime) true true) doc100 = Ok (r, s) /\
  sim_run (N:=RNum) 1 rfuel dt (length r) (pair_sets s) (ps100 ++ ps100) altG 0 = Ok st /\ length (s_mem st) = 10%nat /\
  length (s_res st) = length (partners (s_log st)) /\
  Rsum (map (kinetic_of (mass_of r)) (s_res st)) = total_at (kinetic_of (mass_of r)) (s_mem st) (partners (s_log st)).
Proof.
  intros dt. pose proof data100 as Hd.
  destruct (C100_database (Z.to_nat 9900) true 1 (-1) (fun _ _ => true) (fun _ a b => (a, b)) 2 (fun _ => Throw ExnRuntime) true true _ _ _ _ _ Hd)
    as (r & s & Hi & Pn & _); [unR; lra|rewrite Z2Nat.id; lia|reflexivity|].
  assert (Lr : length r = 5%nat) by (rewrite <- (map_length (pr_name (N:=RNum)) r), (Permutation_length Pn); reflexivity).
  assert (I100 : incl (ps100 ++ ps100) ps100) by (intros p Hp; apply in_app_or in Hp; tauto).
  assert (Len : length (ps100 ++ ps100) = 10%nat) by reflexivity.
  assert (Sm : (Z.of_nat (length (ps100 ++ ps100)) < 2 ^ 31)%Z) by (rewrite Len; lia).
  assert (C : exists f0, forall rfuel, (f0 <= rfuel)%nat -> exists st, sim_run (N:=RNum) 1 rfuel dt (length r) (pair_sets s) (ps100 ++ ps100) altG 0 = Ok st).
  { apply (C100_completes _ _ _ _ _ _ _ _ _ _ _ _ _ _ _ r s 1 dt (ps100 ++ ps100) altG 0 2 Hd Hi altG_ok (slow100 _ I100) Sm).
    - rewrite Lr. intros p Hp. apply I100 in Hp. apply in_map_iff in Hp as (i & <- & H). cbn [p_species]. cbn in H. lia.
    - rewrite Len. intros rg. apply altG_fair.
    - intros n _ (A & p & HA & _ & NO). apply NO. assert (LA : (A < 5)%nat) by (rewrite <- Lr; apply nth_error_Some; congruence).
      exists (mkParticle (N:=RNum) (V3 (N:=RNum) 0 0 0) (V3 (N:=RNum) 1 0 (-1)) (Z.of_nat A) 1). split; [|reflexivity].
      apply in_or_app. left. apply in_map_iff. exists (Z.of_nat A). split; [reflexivity|]. cbn. lia. }
  destruct C as (f0 & C). destruct (C f0 (le_n _)) as (st & E). exists r, s, f0, st. split; [exact Hi|]. split; [exact E|]. split.
  - destruct (C100_completed _ _ _ _ _ _ _ _ _ _ _ _ _ _ _ r s _ _ _ _ _ _ st Hd Hi altG_ok Sm E) as (P & _). rewrite (Permutation_length P). exact Len.
  - destruct (C100_C101_results _ _ _ _ _ _ _ _ _ _ _ _ _ _ _ r s _ _ _ _ _ _ st Hd Hi altG_ok Sm E) as (H1 & _ & _ & H4). split; assumption.
Qed.
