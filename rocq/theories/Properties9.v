(** Whole runs of the driver (C78 and the in-place part of C38) and the rejection of
    unbalanced reactions (C16). *)
From Coq Require Import Reals Lra Lia ZArith Bool String List.
From Flocq Require Import Core.Core IEEE754.BinarySingleNaN.
From Verif Require Import Base Num ModelTerm ModelCollide ModelFactories ModelXsec ModelSet SpecTerm SpecPhys SpecXsec SpecSet SpecFactories SpecMore SpecRun
  ProofF64 ProofCollide ProofInelastic ProofFactories ProofSet ProofFloat ProofDriver ProofDriver2 ProofDriver3 ProofXsec ProofReact ProofRun ProofRun2 ProofRun3 Properties1 Properties2 Properties3.
From Coq Require Import List.
Import ListNotations.
Local Open Scope R_scope.
Local Open Scope list_scope.

(** C16.  Apart from undefined behaviour, the choice of product origins is rejected exactly
    when the products' total mass is zero and the reactants' mass centre is finite, or the
    reverse, or the same holds for charge. *)
Theorem C16_rejected : forall lm (a b : massCharge (F64 lm)) outs,
  setParticleFactories (N:=F64 lm) finf [a; b] outs <> UB ->
  let same w := Beqb (total (N:=F64 lm) w outs) (fofZ 0) = Beqb (centre (N:=F64 lm) finf w a b) finf in
  (same (@mc_mass _) /\ same (@mc_charge _) -> exists fs, setParticleFactories (N:=F64 lm) finf [a; b] outs = Ok fs) /\
  (~ (same (@mc_mass _) /\ same (@mc_charge _)) -> setParticleFactories (N:=F64 lm) finf [a; b] outs = Throw ExnRuntime).
Proof. exact factories_reject. Qed.
Print Assumptions C16_rejected.
(** electron + positive ion gives a neutral: accepted; a lost electron: rejected. *)
Example C16_rejected_case :
  (exists fs, setParticleFactories (N:=F) finf [mc 1 (-1) 1 (-1); mc 1835 1 2 (-1)] [mc 1836 0 3 (-1)] = Ok fs) /\
  setParticleFactories (N:=F) finf [mc 1 (-1) 1 (-1); mc 1836 0 2 (-1)] [mc 1836 0 2 (-1)] = Throw ExnRuntime.
Proof. split; [eexists|]; vm_compute; reflexivity. Qed.

(** C38.  In-place runs finish too, under the same conditions on the remaining part of each
    range (reactions remove particles from it). *)
Theorem C38_terminates_inplace : forall (K : R) (dt : R) (c : cell RNum) nprops db res er g k m,
  rng_ok g -> (forall A r, nth_error (c_ranges c) A = Some r -> (snd r <= length (c_mem c))%nat) ->
  bounded (2 ^ 31) (c_ranges c) -> disjoint (c_ranges c) ->
  (forall A B, (A <= B < Nat.min (length (c_ranges c)) nprops)%nat -> db A B <> [] ->
     List.Forall (fun e => total_inplace (N:=RNum) K e /\ appends (q_model e)) (db A B) /\
     (exists msv, findMaxSigmaVProduct (N:=RNum) K (db A B) (c_maxv c A B) = Ok msv) /\
     forall r, nth_error (c_ranges c) A = Some r \/ nth_error (c_ranges c) B = Some r ->
       (0 < rsize r)%nat /\ (A = B -> fair_prefixes g r m)) ->
  exists f0, forall fuel, (f0 <= fuel)%nat -> exists s, driver (N:=RNum) K fuel true dt c nprops db res er g k = Ok s.
Proof. exact driver_terminates_in. Qed.
Print Assumptions C38_terminates_inplace.

(** C78.  A finished in-place run over particles sorted by species.  For every quantity of
    the species (mass, charge, 1 for the number of particles, 1 for species X and 0
    otherwise, ...), the total over live particles and products changes by exactly what
    the equations of the collisions in the log say. *)
Theorem C78_species : forall (mass charge : Z -> R) (K : R) fuel (dt : R) (c : cell RNum) nprops db res er g k s (h : Z -> R),
  rng_ok g -> bounded (2 ^ 31) (c_ranges c) -> disjoint (c_ranges c) -> typed (c_mem c) (c_ranges c) ->
  driver (N:=RNum) K fuel true dt c nprops db res er g k = Ok s ->
  (forall A B, (A <= B)%nat -> List.Forall (gas_channel mass charge (Z.of_nat A) (Z.of_nat B)) (db A B)) ->
  (forall A B, (B < A)%nat -> db A B = []) ->
  amount (fun p => h (p_species p)) (s_mem s) (s_ranges s) (s_res s) =
    amount (fun p => h (p_species p)) (c_mem c) (c_ranges c) res + over_collisions (species_change h db) (s_log s).
Proof. intros. eapply run_species; eassumption. Qed.
Print Assumptions C78_species.
(** When the equations balance mass, every component of total momentum is conserved. *)
Theorem C78_momentum : forall (mass charge : Z -> R) (K : R) fuel (dt : R) (c : cell RNum) nprops db res er g k s (i : nat),
  rng_ok g -> bounded (2 ^ 31) (c_ranges c) -> disjoint (c_ranges c) -> typed (c_mem c) (c_ranges c) ->
  driver (N:=RNum) K fuel true dt c nprops db res er g k = Ok s ->
  (forall A B, (A <= B)%nat -> List.Forall (gas_channel mass charge (Z.of_nat A) (Z.of_nat B)) (db A B) /\
     List.Forall (balanced mass (Z.of_nat A) (Z.of_nat B)) (db A B)) ->
  (forall A B, (B < A)%nat -> db A B = []) ->
  amount (momentum_of mass i) (s_mem s) (s_ranges s) (s_res s) = amount (momentum_of mass i) (c_mem c) (c_ranges c) res.
Proof. intros. eapply run_momentum; eassumption. Qed.
Print Assumptions C78_momentum.
(** Total kinetic energy changes by the energy changes of the logged reactions, less at most
    the VSS cone loss per VSS collision. *)
Theorem C78_energy : forall (mass charge : Z -> R) (K : R) fuel (dt : R) (c : cell RNum) nprops db res er g k s (dE loss : nat -> nat -> nat -> R),
  rng_ok g -> bounded (2 ^ 31) (c_ranges c) -> disjoint (c_ranges c) -> typed (c_mem c) (c_ranges c) ->
  driver (N:=RNum) K fuel true dt c nprops db res er g k = Ok s ->
  (forall A B j q, (A <= B)%nat -> nth_error (db A B) j = Some q -> energy_channel mass charge (Z.of_nat A) (Z.of_nat B) q (dE A B j) (loss A B j)) ->
  (forall A B, (A <= B)%nat -> cross_sections_ok K (db A B)) ->
  (forall A B, (B < A)%nat -> db A B = []) ->
  amount (kinetic_of mass) (c_mem c) (c_ranges c) res + over_collisions (fun A B j => dE A B j - loss A B j) (s_log s)
    <= amount (kinetic_of mass) (s_mem s) (s_ranges s) (s_res s)
    <= amount (kinetic_of mass) (c_mem c) (c_ranges c) res + over_collisions dE (s_log s).
Proof. intros. eapply run_energy; eassumption. Qed.
Print Assumptions C78_energy.

(** Two particles of species 0 and 1 react to 2 + 3 with energy 1 released: one collision
    happens, both reactants go, one particle each of 2 and 3 appears, momentum stays and
    the energy grows by 1. *)
Definition gmass (s : Z) : R := match s with 0%Z => 2 | 1%Z => 3 | 2%Z => 1 | _ => 4 end.
Definition gcharge (s : Z) : R := 0.
Definition gload := inelastic_new_load (species_db gmass gcharge) (setParticleFactories (N:=RNum) 0%R) (fun _ => Ok []) false false (Some 1%R) 0 exeq.
Lemma gfactories : exists f0 f1, setParticleFactories (N:=RNum) 0%R [mkMC (N:=RNum) 2 0 0 (-1); mkMC (N:=RNum) 3 0 1 (-1)]
  [mkMC (N:=RNum) 1 0 2 (-1); mkMC (N:=RNum) 4 0 3 (-1)] = Ok [f0; f1] /\ (f_src f0 <= 1)%Z /\ (f_src f1 <= 1)%Z.
Proof.
  set (a := mkMC (N:=RNum) 2 0 0 (-1)). set (b := mkMC (N:=RNum) 3 0 1 (-1)). set (outs := [mkMC (N:=RNum) 1 0 2 (-1); mkMC (N:=RNum) 4 0 3 (-1)]).
  assert (U : setParticleFactories (N:=RNum) 0%R [a; b] outs <> UB).
  { intros U. apply (factories_ub (N:=RNum) 0%R a b Rltb_irr Rltb_trs) in U; [|cbn; lia].
    destruct U as ([|[|i]] & o & Ho & Hb); [injection Ho as <-|injection Ho as <-|destruct i; discriminate];
    destruct Hb as [Hb|(Hb & _)]; cbn in Hb; lia. }
  destruct (factories_rejected (N:=RNum) 0%R a b Rltb_irr Rltb_trs outs U) as [H _].
  destruct H as (fs & E).
  { unfold matched, total, centre, outs, a, b. cbn.
    repeat match goal with |- context [Reqb ?x ?y] => destruct (Reqb_spec x y) end; try reflexivity; exfalso; try lra;
    destruct (Reqb_spec (0 + 2 + 3) 0) as [|D]; [lra|].
    assert (H' : ((0 + -1 * 2 + 1 * 3) / (0 + 2 + 3) = 0)%R) by assumption.
    replace ((0 + -1 * 2 + 1 * 3) / (0 + 2 + 3))%R with (1 / 5)%R in H' by field. lra. }
  pose proof E as E'. unfold setParticleFactories in E'. apply obind_ok in E' as ([sc fs'] & E' & Q). injection Q as ->.
  destruct (factories_spec (N:=RNum) 0%R a b Rltb_irr Rltb_trs outs sc fs E') as (ps & Hadm & _ & HF & _).
  inversion Hadm as [|o0 p0 os ps0 _ H1 Q1 Q2]; subst. inversion H1 as [|o1 p1 os1 ps1 _ H2 Q1 Q2]; subst. inversion H2; subst.
  cbn [combine] in HF. inversion HF as [|x0 f0 xs fs0 R0 HF1]; subst. inversion HF1 as [|x1 f1 xs1 fs1 R1 HF2]; subst. inversion HF2; subst.
  exists f0, f1. split; [exact E|]. cbn [fst snd] in R0, R1. destruct R0 as [_ R0], R1 as [_ R1].
  split; [destruct p0|destruct p1]; lia.
Qed.
Lemma gmodel : exists model, gload = Ok model.
Proof.
  assert (Hq : neqb (n:=RNum) 1%R n0 = false) by (cbn; destruct (Reqb_spec 1 0); [lra|reflexivity]).
  unfold gload, inelastic_new_load. change (numberProducts exeq) with 2%Z. cbv beta zeta. rewrite Hq.
  unfold make_inelastic, make22. change (numberProducts exeq) with 2%Z. cbn [negb andb]. rewrite Hq.
  cbn -[ReducedMass nsqrt ndiv setParticleFactories massChargeOut].
  replace (massChargeOut (species_db gmass gcharge) [term_sp 2; term_sp 3]) with (Ok [mkMC (N:=RNum) 1 0 2 (-1); mkMC (N:=RNum) 4 0 3 (-1)]) by reflexivity.
  cbn -[ReducedMass nsqrt ndiv setParticleFactories]. destruct gfactories as (f0 & f1 & Ef & H0 & H1). unfold gcharge. rewrite Ef.
  replace (expr_lists (N:=RNum) (fun _ : string => Ok []) [term_sp 2; term_sp 3]) with (Ok [@nil (expr RNum); []]) by reflexivity.
  cbn -[ReducedMass nsqrt ndiv].
  destruct (Z.ltb_spec 1 (f_src f0)); [lia|]. destruct (Z.ltb_spec 1 (f_src f1)); [lia|]. cbn -[ReducedMass nsqrt ndiv]. eexists. reflexivity.
Qed.

Section Example78.
Variable model : imodel RNum.
Hypothesis Hmodel : gload = Ok model.
Definition gq : equation RNum := mkEquation exeq (XConstant (N:=RNum) 5 0 0) model.
Definition gdb (A B : nat) : list (equation RNum) := if (Nat.eqb A 0 && Nat.eqb B 1)%bool then [gq] else [].
Lemma gq_loaded : loaded_reaction gmass gcharge 0 1 (Some 1) 0 gq.
Proof.
  exists 0, (fun _ => Ok []), false, false, [1; 4]. split; [left; reflexivity|]. split; [|split; [reflexivity|exact Hmodel]].
  unfold reaction. split; [eexists; reflexivity|]. split; [eexists; reflexivity|]. split; [reflexivity|].
  split; [split; [fall ltac:(cbn; lia)|vm_compute; reflexivity]|].
  split; [repeat (apply Forall2_cons; [eexists; reflexivity|]); apply Forall2_nil|]. split; [cbn; lra|split; [cbn; lra|]]. fall ltac:(cbn; lra).
Qed.
Lemma gq_gas : gas_channel gmass gcharge 0 1 gq.
Proof. split; [cbn; lra|]. split; [cbn; lra|]. right; right; left. exists (Some 1), 0. exact gq_loaded. Qed.
Lemma gq_balanced : balanced gmass 0 1 gq.
Proof. unfold balanced. change (expand_species (e_products (q_core gq))) with [2; 3]%Z. cbn [q_model gq]. destruct model; try exact I; cbn; lra. Qed.
Lemma gq_energy : energy_channel gmass gcharge 0 1 gq 1 0.
Proof.
  split; [cbn; lra|]. split; [cbn; lra|]. right; right; left.
  exists (Some 1), 0, 0%nat, true, 0, 0, dtol, dsolve, (DConstant 5 None).
  split; [exact gq_loaded|]. split; [exact gq_balanced|]. split; [exact I|]. split; [lra|].
  split; [intros f a b H; cbn; lra|].
  assert (X : xs_load (N:=RNum) 0 true 0 0 dtol dsolve (e_mu (q_core gq)) (DConstant 5 None) = Ok (q_cs gq)).
  { cbn [xs_load q_core gq e_mu exeq]. unfold setThresholdEnergy. cbn -[rm_value ReducedMass]. destruct (Rltb_spec 0 0); [lra|]. cbn [obind]. unfold Rdiv. rewrite Rmult_0_l, sqrt_0. reflexivity. }
  split; [exact X|]. split; [reflexivity|]. split; [reflexivity|]. split; [|reflexivity]. lra.
Qed.
Lemma gq_change h : species_change h gdb 0 1 0 = h 2%Z + (h 3%Z + 0) - (h 0%Z + h 1%Z).
Proof.
  unfold species_change. change (nth_error (gdb 0 1) 0) with (Some gq). change (expand_species (e_products (q_core gq))) with [2; 3]%Z.
  pose proof gq_loaded as Hlo. destruct (react_products gmass gcharge _ _ _ _ _ Hlo true exA exB [] exG 0) as (new & k2 & Em & Hne & _).
  destruct (q_model gq) eqn:Eq; try reflexivity; exfalso; apply Hne.
  - destruct (elastic_out_in mu exA exB [] exG 0) as (q1 & q2 & E' & _). rewrite E' in Em. injection Em as _ _ Em _. symmetry. exact Em.
  - destruct (vss_out_in mu vss_param_inv exA exB [] exG 0) as (q1 & q2 & E' & _). rewrite E' in Em. injection Em as _ _ Em _. symmetry. exact Em.
Qed.
Lemma gq_sigma v : 0 <= v -> sigma (N:=RNum) 1 (q_cs gq) v = Ok 5.
Proof. intros H. cbn. destruct (Rleb_spec 0 v); [reflexivity|lra]. Qed.
Lemma gdb_low A B : (B < A)%nat -> gdb A B = [].
Proof. intros H. unfold gdb. destruct (Nat.eqb_spec A 0), (Nat.eqb_spec B 1); try reflexivity. lia. Qed.
Lemma gcell_typed : typed (c_mem (rcell 20)) (c_ranges (rcell 20)).
Proof.
  intros [|[|A]] r i Hr Hi; cbn in Hr; [injection Hr as <-|injection Hr as <-|destruct A; discriminate]; unfold in_range in Hi; cbn in Hi.
  - assert (i = 0%nat) as -> by lia. exists exA. split; reflexivity.
  - assert (i = 1%nat) as -> by lia. exists exB. split; reflexivity.
Qed.
Lemma gcell_bounded : bounded (2 ^ 31) (c_ranges (rcell 20)).
Proof. repeat constructor; unfold rsize; cbn; lia. Qed.
Lemma gq_total : total_inplace (N:=RNum) 1 gq.
Proof.
  split; [intros v; cbn; destruct (Rleb 0 v); eexists; reflexivity|].
  intros p q l g k. destruct (react_products gmass gcharge _ _ _ _ _ gq_loaded true p q l g k) as (new & k2 & E & _). eexists. exact E.
Qed.
Lemma grun : exists fuel s, driver (N:=RNum) 1 fuel true 1 (rcell 20) 2 gdb [] [] exG 0 = Ok s /\ s_log s = [(0, 1, (0, 1), 0%Z)]%nat.
Proof.
  destruct (driver_terminates_in 1 1 (rcell 20) 2 gdb [] [] exG 0 0 exG_ok) as (f0 & H).
  - intros [|[|A]] r E; cbn in *; [injection E as <-; cbn; lia..|destruct A; discriminate].
  - exact gcell_bounded.
  - apply rcell_disjoint.
  - intros A B HAB Hne. unfold gdb in *. destruct (Nat.eqb_spec A 0); [|contradiction]. destruct (Nat.eqb_spec B 1); [|contradiction]. subst. cbn [andb].
    split; [constructor; [split; [exact gq_total|eapply gas_appends; exact gq_gas]|constructor]|]. split.
    + eexists. unfold findMaxSigmaVProduct. cbn [ofold]. change (q_cs gq) with (q_cs (rc 5)). rewrite rc_max by (cbn; lra). reflexivity.
    + intros r [E|E]; cbn in E; injection E as <-; (split; [unfold rsize; cbn; lia|discriminate]).
  - destruct (H (S (S f0)) ltac:(lia)) as (s & E). exists (S (S f0)), s. split; [exact E|].
    unfold driver in E. cbv zeta in E. change (species_pairs (Nat.min (length (c_ranges (rcell 20))) 2)) with [(0, 0); (0, 1); (1, 1)]%nat in E.
    cbn [first_pass] in E. change (gdb 0 0) with (@nil (equation RNum)) in E. change (gdb 0 1) with [gq] in E. change (gdb 1 1) with (@nil (equation RNum)) in E.
    unfold oget at 1 2 3 4 5 6 in E. cbn [nth_error rcell c_ranges obind] in E.
    assert (Em : findMaxSigmaVProduct (N:=RNum) 1 [gq] (c_maxv (rcell 20) 0 1) = Ok (0 + 5 * 5)).
    { unfold findMaxSigmaVProduct. cbn [ofold]. change (q_cs gq) with (q_cs (rc 5)). rewrite rc_max by (cbn; lra). reflexivity. }
    rewrite Em in E. cbn [obind] in E.
    change (first_weight (c_mem (rcell 20)) (0, 1)%nat) with (Ok (A:=RNum) 1) in E. change (first_weight (c_mem (rcell 20)) (1, 2)%nat) with (Ok (A:=RNum) 2) in E.
    cbn [obind oget nth_error] in E. unfold second_pass in E. cbn [ofold ct_A ct_B ct_tests ct_msv] in E.
    set (x := promote _ _) in E.
    assert (Hx : (1 < x)%R). { subst x. unfold promote, estimate. cbn. unfold nmin. cbn. destruct (Rltb_spec 2 1); [lra|].
      replace (1 * 2 * 1 * 1 * 1 * (0 + 5 * 5) / (20 * 1))%R with (5 / 2)%R by field. destruct (Rltb _ _); lra. }
    clearbody x. change (gdb 0 1) with [gq] in E. cbn [test_loop] in E. replace (n1 <? x)%num with true in E by (symmetry; unR; destruct (Rltb_spec 1 x); [reflexivity|lra]).
    unfold oget at 1 2 in E. cbn [nth_error s_ranges obind] in E. change (rsize (0, 1)%nat) with 1%nat in E. change (rsize (1, 2)%nat) with 1%nat in E.
    cbn [Nat.eqb Nat.ltb Nat.leb andb orb] in E.
    set (st := mkState (N:=RNum) _ _ _ _ _ _) in E.
    apply obind_ok in E as (sl & E & Es). injection Es as ->. apply obind_ok in E as (s1 & E1 & E).
    assert (F1 : s_ranges s1 = [(0, 0); (1, 1)]%nat /\ s_log s1 = [(0, 1, (0, 1), 0%Z)]%nat).
    { clear E. unfold one_test in E1. unfold oget at 1 2 in E1. cbn [nth_error s_ranges obind st] in E1.
      apply obind_ok in E1 as ([[i j] k1] & Ep & E1).
      destruct (select_pos (N:=RNum) (S (S f0)) (0, 1)%nat (1, 2)%nat exG (2 ^ 31) 1 i j k1 (rpos_ok exG exG_ok)) as (Hi & Hj & _); [cbn; lia|cbn; lia|exact Ep|].
      unfold in_range in Hi, Hj. cbn in Hi, Hj. assert (i = 0%nat) as -> by lia. assert (j = 1%nat) as -> by lia.
      cbn [oget nth_error s_mem st c_mem rcell obind] in E1.
      apply obind_ok in E1 as ([[[[path a] b] l] k2] & Ei & E1).
      pose proof Ei as Ei0. unfold set_interact in Ei. cbv zeta in Ei.
      set (v := vabs _) in Ei. assert (Hv : v = 5). { subst v. unfold vabs, vsub. cbn. replace (_ + _)%R with (5 * 5)%R by ring. apply sqrt_square; lra. }
      clearbody v. assert (Ec : exists c k3, calculateOutPath (N:=RNum) 1 [gq] (0 + 5 * 5)%R v exG k1 = Ok (0%Z, c, k3)).
      { destruct (C31_C32_C33_outpath 1 [gq] (0 + 5 * 5) v exG k1 [5]) as (jj & c & k3 & Eo & _ & Hc & Hcase & _).
        - constructor; [apply gq_sigma; rewrite Hv; lra|constructor].
        - constructor; [lra|constructor].
        - exact exG_ok.
        - destruct Hc as [_ Hc]; [cbn; lra|]. destruct Hcase as [->|([|[|n]] & -> & Hn & _)]; [|eauto|discriminate..].
          exfalso. apply (Zlt_not_le (-1) 0); [lia|]. apply Hc. rewrite Hv. cbn. lra. }
      destruct Ec as (c & k3 & Ec). rewrite Ec in Ei. cbn [obind fst oget nth_error Z.to_nat] in Ei. change (0 <=? 0)%Z with true in Ei.
      change (p_species exB <? p_species exA)%Z with false in Ei. cbv iota in Ei. cbn [obind] in Ei.
      destruct (react_products gmass gcharge _ _ _ _ _ gq_loaded true exA exB (s_res st) exG k3) as (new & k4 & Em4 & Hne & Hsp & _).
      rewrite Em4 in Ei. cbn [obind] in Ei. injection Ei as <- <- <- <- <-.
      cbn [fst negb orb s_res st app] in E1. change (0 <? 0)%Z with false in E1.
      destruct new as [|n0' new]; [contradiction|]. cbn [length Nat.leb orb] in E1.
      unfold retval_inplace in E1. cbn in E1. injection E1 as <-. split; reflexivity. }
    destruct F1 as [R1 L1]. cbn [test_loop] in E. destruct (n1 <? _)%num; [|injection E as <-; exact L1].
    unfold oget in E. rewrite R1 in E. cbn [nth_error obind] in E. change (rsize (0, 0)%nat) with 0%nat in E. cbn [Nat.eqb andb orb] in E.
    injection E as <-. exact L1.
Qed.
End Example78.

Example C78_case : exists model fuel s, gload = Ok model /\
  driver (N:=RNum) 1 fuel true 1 (rcell 20) 2 (gdb model) [] [] exG 0 = Ok s /\
  s_log s = [(0, 1, (0, 1), 0%Z)]%nat /\
  amount (fun p => if (p_species p =? 0)%Z then 1 else 0) (s_mem s) (s_ranges s) (s_res s) = 0 /\
  amount (fun p => if (p_species p =? 3)%Z then 1 else 0) (s_mem s) (s_ranges s) (s_res s) = 1 /\
  amount (fun _ => 1) (s_mem s) (s_ranges s) (s_res s) = 2 /\
  amount (momentum_of gmass 2) (s_mem s) (s_ranges s) (s_res s) = 8 /\
  amount (kinetic_of gmass) (s_mem s) (s_ranges s) (s_res s) = 26.
Proof.
  destruct gmodel as (model & Hm). destruct (grun model Hm) as (fuel & s & Hr & Hl).
  exists model, fuel, s. split; [exact Hm|]. split; [exact Hr|]. split; [exact Hl|].
  assert (Hgas : forall A B, (A <= B)%nat -> List.Forall (gas_channel gmass gcharge (Z.of_nat A) (Z.of_nat B)) (gdb model A B)).
  { intros A B _. unfold gdb. destruct (Nat.eqb_spec A 0); [|constructor]. destruct (Nat.eqb_spec B 1); [|constructor]. subst. constructor; [exact (gq_gas model Hm)|constructor]. }
  assert (Hbal : forall A B, List.Forall (balanced gmass (Z.of_nat A) (Z.of_nat B)) (gdb model A B)).
  { intros A B. unfold gdb. destruct (Nat.eqb_spec A 0); [|constructor]. destruct (Nat.eqb_spec B 1); [|constructor]. subst. constructor; [exact (gq_balanced model Hm)|constructor]. }
  assert (Hspec : forall h, amount (fun p => h (p_species p)) (s_mem s) (s_ranges s) (s_res s) = h 2%Z + h 3%Z).
  { intros h. rewrite (C78_species gmass gcharge 1 fuel 1 (rcell 20) 2 (gdb model) [] [] exG 0 s h exG_ok gcell_bounded (rcell_disjoint 20) gcell_typed Hr Hgas (gdb_low model)).
    rewrite Hl. unfold over_collisions. cbn [map fst snd Z.leb Z.compare Z.to_nat Rsum].
    rewrite (gq_change model Hm).
    assert (Ha : amount (fun p => h (p_species p)) (c_mem (rcell 20)) (c_ranges (rcell 20)) [] = h 0%Z + h 1%Z) by (unfold amount, content; cbn; lra).
    rewrite Ha. lra. }
  split; [rewrite (Hspec (fun z => if (z =? 0)%Z then 1 else 0)); cbn; lra|].
  split; [rewrite (Hspec (fun z => if (z =? 3)%Z then 1 else 0)); cbn; lra|].
  split; [rewrite (Hspec (fun _ => 1)); lra|]. split.
  - rewrite (C78_momentum gmass gcharge 1 fuel 1 (rcell 20) 2 (gdb model) [] [] exG 0 s 2 exG_ok gcell_bounded (rcell_disjoint 20) gcell_typed Hr (fun A B L => conj (Hgas A B L) (Hbal A B)) (gdb_low model)).
    unfold amount, content, momentum_of; cbn; lra.
  - destruct (C78_energy gmass gcharge 1 fuel 1 (rcell 20) 2 (gdb model) [] [] exG 0 s (fun _ _ _ => 1) (fun _ _ _ => 0) exG_ok gcell_bounded (rcell_disjoint 20) gcell_typed Hr) as [L U].
    + intros A B j q _ Hq. unfold gdb in Hq. destruct (Nat.eqb_spec A 0); [|destruct j; discriminate]. destruct (Nat.eqb_spec B 1); [|destruct j; discriminate]. subst.
      destruct j as [|[|j]]; try discriminate. injection Hq as <-. exact (gq_energy model Hm).
    + intros A B _ v cs Hv Hc. unfold gdb in Hc. destruct (_ && _)%bool in Hc; inversion Hc as [|? y ? ? Hy Hc']; subst; [|constructor].
      inversion Hc'; subst. constructor; [|constructor]. unfold sigma_is in Hy. rewrite gq_sigma in Hy by exact Hv. injection Hy as <-. lra.
    + exact (gdb_low model).
    + rewrite Hl in L, U. unfold over_collisions in L, U. cbn [map fst snd Z.leb Z.compare Z.to_nat Rsum] in L, U.
      assert (Hk : amount (kinetic_of gmass) (c_mem (rcell 20)) (c_ranges (rcell 20)) [] = 25) by (unfold amount, content, kinetic_of, kinetic, norm2; cbn; lra).
      rewrite Hk in L, U. lra.
Qed.
