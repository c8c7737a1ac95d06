(** The equations of an initialised database and runs over them (C73). *)
From Coq Require Import Reals Lra String Ascii ZArith Bool Arith Lia Sorted Permutation List.
From Verif Require Import Base Num ModelTerm ModelCollide ModelFactories ModelXsec ModelSet ModelEq ModelFilter ModelDB
  SpecTerm SpecPhys SpecFactories SpecXsec SpecSet SpecEq SpecFilter SpecDB SpecMore SpecRun SpecInit
  ProofTerm ProofCollide ProofInelastic ProofFactories ProofXsec ProofSet ProofOrder ProofEq ProofReact ProofDB ProofDriver ProofDriver2 ProofDriver3 ProofRun ProofRun2 ProofRun3 ProofInit ProofInit2
  Properties1 Properties2 Properties3.
From Coq Require Import List.
Import ListNotations.
Local Open Scope R_scope.
Local Open Scope list_scope.

(** C73.  Every equation stored for a pair A <= B of an initialised database comes, in order,
    from an interaction of the document written for that pair; its reactants are A and B,
    lighter first, its reduced mass is theirs, and its products are the named species. *)
Theorem C73_equations : forall (N : Num) (ok : N -> Prop) reg d f (props r : list (prop N)) s,
  mass_order ok -> masses_ok ok props -> unique_names props ->
  set_ok (x_inter d) -> plain_names props (x_inter d) -> initBinary reg d f props = Ok (r, s) ->
  forall A B, (A <= B < length r)%nat -> exists xs qs, pair_interactions d f r A B = Ok xs /\ cell_get s A B = Ok qs /\
    List.Forall (fun x => In x (x_inter d) /\ belongs r A B x) xs /\
    List.Forall2 (fun x q => exists pA pB, load_equation reg r x = Ok q /\
      nth_error r A = Some pA /\ nth_error r B = Some pB /\ nltb (pr_mass pB) (pr_mass pA) = false /\
      Permutation [pr_name pA; pr_name pB] (expand_names (xi_in x)) /\
      e_A (q_core q) = term_sp (Z.of_nat A) /\ e_B (q_core q) = term_sp (Z.of_nat B) /\
      e_mu (q_core q) = ReducedMass (pr_mass pA) (pr_mass pB) /\
      List.Forall (product_of r (xi_out x)) (e_products (q_core q)) /\
      Permutation (SpecEq.expand_species (e_products (q_core q))) (map (findParticleIndx r) (expand_names (xi_out x)))) xs qs.
Proof. exact @cell_equation. Qed.
Print Assumptions C73_equations.

Section Statements.
Variables (fuel : nat) (allowed : bool) (inf ninf : RNum) (tol : RNum -> RNum -> bool)
  (solve : (RNum -> RNum) -> RNum -> RNum -> RNum * RNum) (finf : RNum)
  (parse : string -> outcome (list (expr RNum))) (fcm fcq : bool).
Let reg := default_reg (N:=RNum) fuel allowed inf ninf tol solve (setParticleFactories (N:=RNum) finf) parse fcm fcq.
(** A database was initialised from a document in which no interaction among its species has
    'ops'. *)
Definition initialised (d : document RNum) f props r s : Prop :=
  unique_names props /\ (forall p, In p props -> 0 < pr_mass p) /\
  set_ok (x_inter d) /\ plain_names props (x_inter d) /\ plain_among props (x_inter d) /\
  initBinary reg d f props = Ok (r, s).
(** An in-place run of the driver over it, particles sorted by species. *)
Definition ran (s : sets RNum) (K : R) rfuel (dt : R) (c : cell RNum) nprops res er g k st : Prop :=
  rng_ok g /\ bounded (2 ^ 31) (c_ranges c) /\ disjoint (c_ranges c) /\ typed (c_mem c) (c_ranges c) /\
  driver (N:=RNum) K rfuel true dt c nprops (pair_sets s) res er g k = Ok st.

(** C73.  Any quantity of named species (1 for one name and 0 otherwise, mass, charge, number of
    nuclei, ...) changes over a run by what the document's equations of the reactions in the log
    say. *)
Theorem C73_C78_species : forall d f props r s K rfuel dt c nprops res er g k st (h : string -> R),
  initialised d f props r s -> ran s K rfuel dt c nprops res er g k st ->
  amount (fun p => h (name_of r (p_species p))) (s_mem st) (s_ranges st) (s_res st) =
    amount (fun p => h (name_of r (p_species p))) (c_mem c) (c_ranges c) res +
    over_collisions (per_channel d f r s (fun _ _ x q => if is_reaction q then gain h x else 0)) (s_log st).
Proof. intros until h. intros (?&?&?&?&?&?) (?&?&?&?&?). eapply doc_species; eassumption. Qed.
(** A quantity that every interaction among the species of the database balances is
    conserved. *)
Theorem C73_C78_conserved : forall d f props r s K rfuel dt c nprops res er g k st (h : string -> R),
  initialised d f props r s -> ran s K rfuel dt c nprops res er g k st ->
  balances h props (x_inter d) ->
  amount (fun p => h (name_of r (p_species p))) (s_mem st) (s_ranges st) (s_res st) =
    amount (fun p => h (name_of r (p_species p))) (c_mem c) (c_ranges c) res.
Proof. intros until h. intros (?&?&?&?&?&?) (?&?&?&?&?). eapply doc_conserved; eassumption. Qed.
(** If these interactions balance mass, every component of momentum is conserved... *)
Theorem C73_C78_momentum : forall d f props r s K rfuel dt c nprops res er g k st (i : nat),
  initialised d f props r s -> ran s K rfuel dt c nprops res er g k st ->
  balances (mass_named props) props (x_inter d) ->
  amount (momentum_of (mass_of r) i) (s_mem st) (s_ranges st) (s_res st) = amount (momentum_of (mass_of r) i) (c_mem c) (c_ranges c) res.
Proof. intros until i. intros (?&?&?&?&?&?) (?&?&?&?&?). eapply doc_momentum; eassumption. Qed.
(** ... and kinetic energy changes by the energies that the document gives to the reactions in
    the log (never more taken away than the threshold energy), less at most the VSS cone
    loss per VSS collision. *)
Theorem C73_C78_energy : forall d f props r s K rfuel dt c nprops res er g k st,
  initialised d f props r s -> ran s K rfuel dt c nprops res er g k st ->
  balances (mass_named props) props (x_inter d) ->
  0 <= inf -> solver_in_bracket solve -> List.Forall data_ok (x_inter d) ->
  (forall A B j x q, entry d f r A B j = Some x -> nth_error (pair_sets s A B) j = Some q -> - threshold q <= energy_given x q \/ is_reaction q = false) ->
  (forall A B, (A <= B)%nat -> cross_sections_ok K (pair_sets s A B)) ->
  let dE := per_channel d f r s (fun _ _ x q => energy_given x q) in
  let loss := per_channel d f r s (fun A B _ q => vss_loss r A B q) in
  amount (kinetic_of (mass_of r)) (c_mem c) (c_ranges c) res + over_collisions (fun A B j => dE A B j - loss A B j) (s_log st)
    <= amount (kinetic_of (mass_of r)) (s_mem st) (s_ranges st) (s_res st)
    <= amount (kinetic_of (mass_of r)) (c_mem c) (c_ranges c) res + over_collisions dE (s_log st).
Proof. intros until st. intros (?&?&?&?&?&?) (?&?&?&?&?) Hb. eapply doc_energy; eassumption. Qed.
End Statements.
Print Assumptions C73_C78_species.
Print Assumptions C73_C78_conserved.
Print Assumptions C73_C78_momentum.
Print Assumptions C73_C78_energy.

Lemma gcell_typed : typed (c_mem (rcell 20)) (c_ranges (rcell 20)).
Proof.
  intros [|[|A]] r i Hr Hi; cbn in Hr; [injection Hr as <-|injection Hr as <-|destruct A; discriminate]; unfold in_range in Hi; cbn in Hi.
  - assert (i = 0%nat) as -> by lia. exists exA. split; reflexivity.
  - assert (i = 1%nat) as -> by lia. exists exB. split; reflexivity.
Qed.
Lemma gcell_bounded : bounded (2 ^ 31) (c_ranges (rcell 20)).
Proof. repeat constructor; unfold rsize; cbn; lia. Qed.
(** Any reaction of species 0 and 1 with a large constant cross section: one particle of
    each, one collision. *)
Section OneReaction.
Variables (mass charge : Z -> R) (kec : option R) (th : R) (gq : equation RNum) (gdb : nat -> nat -> list (equation RNum)) (nprops : nat).
Hypothesis gq_loaded : loaded_reaction mass charge 0 1 kec th gq.
Hypothesis mass0 : 0 < mass 0%Z.
Hypothesis mass1 : 0 < mass 1%Z.
Hypothesis gq_cs : q_cs gq = XConstant (N:=RNum) 5 0 0.
Hypothesis gdb00 : gdb 0%nat 0%nat = [].
Hypothesis gdb01 : gdb 0%nat 1%nat = [gq].
Hypothesis gdb11 : gdb 1%nat 1%nat = [].
Hypothesis np : (2 <= nprops)%nat.
Lemma gq_sigma v : 0 <= v -> sigma (N:=RNum) 1 (q_cs gq) v = Ok 5.
Proof. intros H. rewrite gq_cs. cbn. destruct (Rleb_spec 0 v); [reflexivity|lra]. Qed.
Lemma gq_total : total_inplace (N:=RNum) 1 gq.
Proof.
  split; [intros v; rewrite gq_cs; cbn; destruct (Rleb 0 v); eexists; reflexivity|].
  intros p q l g k. destruct (react_products mass charge _ _ _ _ _ gq_loaded true p q l g k) as (new & k2 & E & _). eexists. exact E.
Qed.
Lemma gq_gas : gas_channel mass charge 0 1 gq.
Proof. split; [exact mass0|]. split; [exact mass1|]. right; right; left. exists kec, th. exact gq_loaded. Qed.
Lemma gq_max V : 0 <= V -> findMaxSigmaV (N:=RNum) 1 (q_cs gq) V = Ok (5 * V, V).
Proof. intros H. rewrite gq_cs. cbn. destruct (Rleb_spec 0 V); [reflexivity|lra]. Qed.
Lemma grun : exists fuel s, driver (N:=RNum) 1 fuel true 1 (rcell 20) nprops gdb [] [] exG 0 = Ok s /\ s_log s = [(0, 1, (0, 1), 0%Z)]%nat.
Proof.
  destruct (driver_terminates_in 1 1 (rcell 20) nprops gdb [] [] exG 0 0 exG_ok) as (f0 & H).
  - intros [|[|A]] r E; cbn in *; [injection E as <-; cbn; lia..|destruct A; discriminate].
  - exact gcell_bounded.
  - apply rcell_disjoint.
  - intros A B HAB Hne. assert (HL : (B < 2)%nat) by (pose proof (Nat.le_min_l (length (c_ranges (rcell 20))) nprops) as Hm; change (length (c_ranges (rcell 20))) with 2%nat in *; lia).
    assert (A = 0 /\ B = 1)%nat as [-> ->].
    { destruct A as [|[|A]], B as [|[|B]]; try lia; auto; exfalso; apply Hne; assumption. }
    rewrite gdb01.
    split; [constructor; [split; [exact gq_total|eapply gas_appends; exact gq_gas]|constructor]|]. split.
    + eexists. unfold findMaxSigmaVProduct. cbn [ofold]. rewrite gq_max by (cbn; lra). reflexivity.
    + intros r [E|E]; cbn in E; injection E as <-; (split; [unfold rsize; cbn; lia|discriminate]).
  - destruct (H (S (S f0)) ltac:(lia)) as (s & E). exists (S (S f0)), s. split; [exact E|].
    unfold driver in E. cbv zeta in E. replace (Nat.min (length (c_ranges (rcell 20))) nprops) with 2%nat in E by (change (length (c_ranges (rcell 20))) with 2%nat; lia). change (species_pairs 2) with [(0, 0); (0, 1); (1, 1)]%nat in E.
    cbn [first_pass] in E. rewrite gdb00, gdb01, gdb11 in E.
    unfold oget at 1 2 3 4 5 6 in E. cbn [nth_error rcell c_ranges obind] in E.
    assert (Em : findMaxSigmaVProduct (N:=RNum) 1 [gq] (c_maxv (rcell 20) 0 1) = Ok (0 + 5 * 5)).
    { unfold findMaxSigmaVProduct. cbn [ofold]. rewrite gq_max by (cbn; lra). reflexivity. }
    rewrite Em in E. cbn [obind] in E.
    change (first_weight (c_mem (rcell 20)) (0, 1)%nat) with (Ok (A:=RNum) 1) in E. change (first_weight (c_mem (rcell 20)) (1, 2)%nat) with (Ok (A:=RNum) 2) in E.
    cbn [obind oget nth_error] in E. unfold second_pass in E. cbn [ofold ct_A ct_B ct_tests ct_msv] in E.
    set (x := promote _ _) in E.
    assert (Hx : (1 < x)%R). { subst x. unfold promote, estimate. cbn. unfold nmin. cbn. destruct (Rltb_spec 2 1); [lra|].
      replace (1 * 2 * 1 * 1 * 1 * (0 + 5 * 5) / (20 * 1))%R with (5 / 2)%R by field. destruct (Rltb _ _); lra. }
    clearbody x. rewrite gdb01 in E. cbn [test_loop] in E. replace (n1 <? x)%num with true in E by (symmetry; unR; destruct (Rltb_spec 1 x); [reflexivity|lra]).
    unfold oget at 1 2 in E. cbn [nth_error s_ranges obind] in E. change (rsize (0, 1)%nat) with 1%nat in E. change (rsize (1, 2)%nat) with 1%nat in E.
    cbn [Nat.eqb Nat.ltb Nat.leb andb orb] in E.
    set (st := mkState (N:=RNum) _ _ _ _ _ _) in E.
    apply obind_ok in E as (sl & E & Es). injection Es as ->. apply obind_ok in E as (s1 & E1 & E).
    assert (F1 : s_ranges s1 = [(0, 0); (1, 1)]%nat /\ s_log s1 = [(0, 1, (0, 1), 0%Z)]%nat).
    { clear E. unfold one_test in E1. unfold oget at 1 2 in E1. cbn [nth_error s_ranges obind st] in E1.
      apply obind_ok in E1 as ([[i j] k1] & Ep & E1).
      destruct (select_pos (N:=RNum) (S (S f0)) (0, 1)%nat (1, 2)%nat exG (2 ^ 31) 1 i j k1 (rpos_ok exG exG_ok)) as (Hi & Hj & _); [cbn; lia|cbn; lia|exact Ep|].
      unfold in_range in Hi, Hj. cbn in Hi, Hj. assert (i = 0%nat) as -> by lia. assert (j = 1%nat) as -> by lia.
      cbn [oget nth_error s_mem st c_mem rcell obind] in E1.
      apply obind_ok in E1 as ([[[[path a] b] l] k2] & Ei & E1).
      pose proof Ei as Ei0. unfold set_interact in Ei. cbv zeta in Ei.
      set (v := vabs _) in Ei. assert (Hv : v = 5). { subst v. unfold vabs, vsub. cbn. replace (_ + _)%R with (5 * 5)%R by ring. apply sqrt_square; lra. }
      clearbody v. assert (Ec : exists c k3, calculateOutPath (N:=RNum) 1 [gq] (0 + 5 * 5)%R v exG k1 = Ok (0%Z, c, k3)).
      { destruct (C31_C32_C33_outpath 1 [gq] (0 + 5 * 5) v exG k1 [5]) as (jj & c & k3 & Eo & _ & Hc & Hcase & _).
        - constructor; [apply gq_sigma; rewrite Hv; lra|constructor].
        - constructor; [lra|constructor].
        - exact exG_ok.
        - destruct Hc as [_ Hc]; [cbn; lra|]. destruct Hcase as [->|([|[|n]] & -> & Hn & _)]; [|eauto|discriminate..].
          exfalso. apply (Zlt_not_le (-1) 0); [lia|]. apply Hc. rewrite Hv. cbn. lra. }
      destruct Ec as (c & k3 & Ec). rewrite Ec in Ei. cbn [obind fst oget nth_error Z.to_nat] in Ei. change (0 <=? 0)%Z with true in Ei.
      change (p_species exB <? p_species exA)%Z with false in Ei. cbv iota in Ei. cbn [obind] in Ei.
      destruct (react_products mass charge _ _ _ _ _ gq_loaded true exA exB (s_res st) exG k3) as (new & k4 & Em4 & Hne & Hsp & _).
      rewrite Em4 in Ei. cbn [obind] in Ei. injection Ei as <- <- <- <- <-.
      cbn [fst negb orb s_res st app] in E1. change (0 <? 0)%Z with false in E1.
      destruct new as [|n0' new]; [contradiction|]. cbn [length Nat.leb orb] in E1.
      unfold retval_inplace in E1. cbn in E1. injection E1 as <-. split; reflexivity. }
    destruct F1 as [R1 L1]. cbn [test_loop] in E. destruct (n1 <? _)%num; [|injection E as <-; exact L1].
    unfold oget in E. rewrite R1 in E. cbn [nth_error obind] in E. change (rsize (0, 0)%nat) with 0%nat in E. cbn [Nat.eqb andb orb] in E.
    injection E as <-. exact L1.
Qed.
End OneReaction.

(** Four species of equal mass and one reaction a + b -> c + d that releases energy 1, with
    cross section 5. *)
Section Example73.
Local Open Scope string_scope.
Local Open Scope list_scope.
Variables (m z e s5 : RNum).
Hypothesis mlt : nltb m m = false.
Hypothesis meq : neqb m m = true.
Definition sp73 (n : string) := mkProp (N:=RNum) n m z.
Definition xt73 (n : string) := mkXT n None None None.
Definition x73 : xinter RNum := mkXI (N:=RNum) 7 ["standard"] [xt73 "a"; xt73 "b"] [xt73 "d"; xt73 "c"] "" ""
  (Some (Some "constant", DConstant (N:=RNum) s5 None)) None (Some e) None.
Definition doc73 : document RNum := mkDoc (N:=RNum) (fun _ => Throw ExnNotFound) (fun _ => []) (fun _ => Throw ExnNotFound) [x73].
Definition props73 := [sp73 "d"; sp73 "a"; sp73 "c"; sp73 "b"].
Definition sorted73 := [sp73 "a"; sp73 "b"; sp73 "c"; sp73 "d"].
Definition core73 : eqcore RNum := mkEq (mkInput (term_sp 0) (term_sp 1)) [term_sp 2; term_sp 3] (ReducedMass (N:=RNum) m m).
Lemma plt a b : prop_ltb (sp73 a) (sp73 b) = str_ltb a b.
Proof. unfold prop_ltb, sp73. cbn [pr_mass pr_name]. now rewrite mlt, meq. Qed.
Ltac names73 := rewrite plt; match goal with |- context [str_ltb ?a ?b] => let v := eval vm_compute in (str_ltb a b) in change (str_ltb a b) with v end.
Lemma sort73 : sort_props props73 = sorted73.
Proof. unfold props73, sorted73, sort_props. repeat (cbn [fold_right sort_insert]; names73). reflexivity. Qed.
Lemma at73 : db_at sorted73 "a" = Ok (0%nat, sp73 "a") /\ db_at sorted73 "b" = Ok (1%nat, sp73 "b") /\
  db_at sorted73 "c" = Ok (2%nat, sp73 "c") /\ db_at sorted73 "d" = Ok (3%nat, sp73 "d").
Proof. do 3 (split; [reflexivity|]). reflexivity. Qed.
Definition one73 := mkTI 1 [(-1)%Z] [""].
Lemma terms73 : loadAndSortTerms sorted73 (xi_in x73) = Ok ([((0%nat, sp73 "a"), one73); ((1%nat, sp73 "b"), one73)], 2%Z) /\
  loadAndSortTerms sorted73 (xi_out x73) = Ok ([((2%nat, sp73 "c"), one73); ((3%nat, sp73 "d"), one73)], 2%Z).
Proof.
  destruct at73 as (Ea & Eb & Ec & Ed). unfold loadAndSortTerms, x73. cbn [xi_in xi_out ofold].
  unfold term_step, xt73. cbn [x_P]. rewrite Ea, Eb, Ec, Ed. cbn [obind xt_n x_n Z.ltb Z.compare fst snd tmap_add].
  rewrite !plt. split; reflexivity.
Qed.
Lemma lcore73 : load_core sorted73 (xi_in x73) (xi_out x73) = Ok (core73, false).
Proof. destruct terms73 as [E1 E2]. unfold load_core. rewrite E1, E2. reflexivity. Qed.
End Example73.

Definition reg73 : registry RNum := default_reg (N:=RNum) 0 true 0%R 0%R dtol dsolve (setParticleFactories (N:=RNum) 5%R) (fun _ => Ok []) false false.
Definition P73 := props73 1%R 0%R.
Definition S73 := sorted73 1%R 0%R.
Definition D73 := doc73 1%R 5%R.
Definition X73 := x73 1%R 5%R.
Definition C73c := core73 1%R.
Lemma lt73 : nltb (n:=RNum) 1%R 1%R = false. Proof. cbn. destruct (Rltb_spec 1 1); [lra|reflexivity]. Qed.
Lemma eq73 : neqb (n:=RNum) 1%R 1%R = true. Proof. cbn. destruct (Reqb_spec 1 1); [reflexivity|lra]. Qed.
Lemma factories73 : exists f0 f1, setParticleFactories (N:=RNum) 5%R [mkMC (N:=RNum) 1 0 0 (-1); mkMC (N:=RNum) 1 0 1 (-1)]
  [mkMC (N:=RNum) 1 0 2 (-1); mkMC (N:=RNum) 1 0 3 (-1)] = Ok [f0; f1] /\ (f_src f0 <= 1)%Z /\ (f_src f1 <= 1)%Z.
Proof.
  set (a := mkMC (N:=RNum) 1 0 0 (-1)). set (b := mkMC (N:=RNum) 1 0 1 (-1)). set (outs := [mkMC (N:=RNum) 1 0 2 (-1); mkMC (N:=RNum) 1 0 3 (-1)]).
  assert (U : setParticleFactories (N:=RNum) 5%R [a; b] outs <> UB).
  { intros U. apply (factories_ub (N:=RNum) 5%R a b Rltb_irr Rltb_trs) in U; [|cbn; lia].
    destruct U as ([|[|i]] & o & Ho & Hb); [injection Ho as <-|injection Ho as <-|destruct i; discriminate];
    destruct Hb as [Hb|(Hb & _)]; cbn in Hb; lia. }
  destruct (factories_rejected (N:=RNum) 5%R a b Rltb_irr Rltb_trs outs U) as [H _].
  destruct H as (fs & E).
  { unfold matched, total, centre, outs, a, b. cbn.
    repeat match goal with |- context [Reqb ?x ?y] => destruct (Reqb_spec x y) end; try reflexivity; exfalso; try lra;
    destruct (Reqb_spec (0 + 1 + 1) 0) as [|D]; try lra;
    assert (H' : ((0 + -1 * 1 + 1 * 1) / (0 + 1 + 1) = 5)%R) by assumption;
    replace ((0 + -1 * 1 + 1 * 1) / (0 + 1 + 1))%R with 0%R in H' by field; lra. }
  pose proof E as E'. unfold setParticleFactories in E'. apply obind_ok in E' as ([sc fs'] & E' & Q). injection Q as ->.
  destruct (factories_spec (N:=RNum) 5%R a b Rltb_irr Rltb_trs outs sc fs E') as (ps & Hadm & _ & HF & _).
  inversion Hadm as [|o0 p0 os ps0 _ H1 Q1 Q2]; subst. inversion H1 as [|o1 p1 os1 ps1 _ H2 Q1 Q2]; subst. inversion H2; subst.
  cbn [combine] in HF. inversion HF as [|x0 f0 xs fs0 R0 HF1]; subst. inversion HF1 as [|x1 f1 xs1 fs1 R1 HF2]; subst. inversion HF2; subst.
  exists f0, f1. split; [exact E|]. cbn [fst snd] in R0, R1. destruct R0 as [_ R0], R1 as [_ R1].
  split; [destruct p0|destruct p1]; lia.
Qed.
Lemma model73 : exists model, inelastic_new_load (db_mq S73) (setParticleFactories (N:=RNum) 5%R) (fun _ => Ok []) false false (Some 1%R) 0 C73c = Ok model.
Proof.
  assert (Hq : neqb (n:=RNum) 1%R n0 = false) by (cbn; destruct (Reqb_spec 1 0); [lra|reflexivity]).
  unfold inelastic_new_load. change (numberProducts C73c) with 2%Z. cbv beta zeta. rewrite Hq.
  unfold make_inelastic, make22. change (numberProducts C73c) with 2%Z. cbn [negb andb]. rewrite Hq.
  cbn -[ReducedMass nsqrt ndiv setParticleFactories massChargeOut db_mq].
  replace (massChargeOut (db_mq S73) [term_sp 2; term_sp 3]) with (Ok [mkMC (N:=RNum) 1 0 2 (-1); mkMC (N:=RNum) 1 0 3 (-1)]) by reflexivity.
  cbn -[ReducedMass nsqrt ndiv setParticleFactories]. destruct factories73 as (f0 & f1 & Ef & H0 & H1). change (db_mq S73 0) with (Ok (A:=RNum*RNum) (1%R,0%R)). change (db_mq S73 1) with (Ok (A:=RNum*RNum) (1%R,0%R)). change (db_mq S73 2) with (Ok (A:=RNum*RNum) (1%R,0%R)). change (db_mq S73 3) with (Ok (A:=RNum*RNum) (1%R,0%R)).
  cbn -[ReducedMass nsqrt ndiv setParticleFactories]. rewrite Ef.
  replace (expr_lists (N:=RNum) (fun _ : string => Ok []) [term_sp 2; term_sp 3]) with (Ok [@nil (expr RNum); []]) by reflexivity.
  cbn -[ReducedMass nsqrt ndiv].
  destruct (Z.ltb_spec 1 (f_src f0)); [lia|]. destruct (Z.ltb_spec 1 (f_src f1)); [lia|]. cbn -[ReducedMass nsqrt ndiv]. eexists. reflexivity.
Qed.
Lemma load73 model : inelastic_new_load (db_mq S73) (setParticleFactories (N:=RNum) 5%R) (fun _ => Ok []) false false (Some 1%R) 0 C73c = Ok model ->
  load_equation reg73 S73 X73 = Ok (mkEquation C73c (XConstant (N:=RNum) 5 0 0) model).
Proof.
  intros Hm. unfold load_equation, S73, X73. rewrite (lcore73 1%R 0%R 1%R 5%R lt73 eq73). cbn [obind].
  assert (X : load_cs reg73 (x73 1%R 5%R) (core73 1%R) = Ok (XConstant (N:=RNum) 5 0 0)).
  { cbn [load_cs reg73 x73 xi_cs r_cs default_reg String.eqb Ascii.eqb Bool.eqb]. cbn [xs_load]. unfold setThresholdEnergy. cbn -[rm_value ReducedMass]. destruct (Rltb_spec 0 0); [lra|]. cbn [obind]. unfold Rdiv. rewrite Rmult_0_l, sqrt_0. reflexivity. }
  rewrite X. cbn [obind]. unfold reg73. cbn [r_im default_reg model_label x73 xi_model String.eqb Ascii.eqb Bool.eqb xi_kec].
  change (getThresholdEnergy (N:=RNum) (XConstant 5 0 0)) with (Ok (A:=RNum) 0%R). cbn [obind].
  unfold S73, C73c in Hm. match goal with |- obind ?x _ = _ => assert (EX : x = Ok model) by exact Hm; rewrite EX end. reflexivity.
Qed.
Definition sets73 model : sets RNum := let q := mkEquation C73c (XConstant (N:=RNum) 5 0 0) model in
  [((0, 0), []); ((0, 1), [q]); ((0, 2), []); ((0, 3), []); ((1, 1), []); ((1, 2), []); ((1, 3), []); ((2, 2), []); ((2, 3), []); ((3, 3), [])]%nat.
Lemma init73 model : inelastic_new_load (db_mq S73) (setParticleFactories (N:=RNum) 5%R) (fun _ => Ok []) false false (Some 1%R) 0 C73c = Ok model ->
  initBinary reg73 D73 FNull P73 = Ok (S73, sets73 model).
Proof.
  intros Hm. pose proof (load73 model Hm) as HL. unfold initBinary, P73. rewrite (sort73 1%R 0%R lt73 eq73). fold S73. cbv zeta.
  change (species_pairs (length S73)) with [(0, 0); (0, 1); (0, 2); (0, 3); (1, 1); (1, 2); (1, 3); (2, 2); (2, 3); (3, 3)]%nat.
  assert (HP : forall A B, In (A, B) [(0, 0); (0, 2); (0, 3); (1, 1); (1, 2); (1, 3); (2, 2); (2, 3); (3, 3)]%nat -> pair_interactions D73 FNull S73 A B = Ok []).
  { intros A B H. cbn [In] in H. repeat (destruct H as [H|H]; [injection H as <- <-; reflexivity|]). destruct H. }
  assert (HX : pair_interactions D73 FNull S73 0 1 = Ok [X73]) by reflexivity.
  cbn [omap fst snd]. rewrite HX. rewrite !HP by (cbn [In]; tauto). cbn [obind omap]. rewrite HL. reflexivity.
Qed.

Lemma initialised73 model : inelastic_new_load (db_mq S73) (setParticleFactories (N:=RNum) 5%R) (fun _ => Ok []) false false (Some 1%R) 0 C73c = Ok model ->
  initialised 0 true 0%R 0%R dtol dsolve 5%R (fun _ => Ok []) false false D73 FNull P73 S73 (sets73 model).
Proof.
  intros Hm. unfold initialised. split.
  { unfold unique_names. change (map (pr_name (N:=RNum)) P73) with ["d"; "a"; "c"; "b"]%string.
    repeat (apply NoDup_cons; [cbn [In]; intros H; decompose [or] H; try discriminate; assumption|]). apply NoDup_nil. }
  split. { intros p H. repeat (destruct H as [<-|H]; [cbn; lra|]). destruct H. }
  split. { constructor; constructor. }
  split. { split.
    - intros p H. repeat (destruct H as [<-|H]; [split; [discriminate|cbn; intros [E|[]]; discriminate]|]). destruct H.
    - intros x t [<-|[]] H. repeat (destruct H as [<-|H]; [split; [discriminate|cbn; intros [E|[]]; discriminate]|]). destruct H. }
  split. { intros x [<-|[]] _. split; [reflexivity|]. repeat constructor. }
  exact (init73 model Hm).
Qed.
Example C73_case : exists s rfuel st,
  initialised 0 true 0%R 0%R dtol dsolve 5%R (fun _ => Ok []) false false D73 FNull P73 S73 s /\
  ran s 1 rfuel 1 (rcell 20) 4 [] [] exG 0 st /\
  s_log st = [(0, 1, (0, 1), 0%Z)]%nat /\
  amount (fun p => if String.eqb "a" (name_of S73 (p_species p)) then 1 else 0) (s_mem st) (s_ranges st) (s_res st) = 0 /\
  amount (fun p => if String.eqb "d" (name_of S73 (p_species p)) then 1 else 0) (s_mem st) (s_ranges st) (s_res st) = 1 /\
  amount (fun _ => 1) (s_mem st) (s_ranges st) (s_res st) = 2 /\
  amount (momentum_of (mass_of S73) 2) (s_mem st) (s_ranges st) (s_res st) = 4 /\
  amount (kinetic_of (mass_of S73)) (s_mem st) (s_ranges st) (s_res st) = 25 / 2 + 1.
Proof.
  destruct model73 as (model & Hm). pose proof (initialised73 model Hm) as Hi.
  set (q := mkEquation C73c (XConstant (N:=RNum) 5 0 0) model).
  assert (Hq : nth_error (pair_sets (sets73 model) 0 1) 0 = Some q) by reflexivity.
  pose proof Hi as (H1 & H2 & H3 & H4 & H5 & H6).
  assert (Hpos : forall p, In p S73 -> 0 < pr_mass p).
  { intros p H. repeat (destruct H as [<-|H]; [cbn; lra|]). destruct H. }
  destruct (channel_source 0 true 0 0 dtol dsolve 5%R (fun _ => Ok []) false false D73 FNull P73 S73 (sets73 model) H1 H3 H4 H6 0 1 0 q Hq) as (_ & x & Ex & Ix & Hb & L).
  destruct Ix as [<-|[]].
  assert (Hlo : loaded_reaction (mass_of S73) (charge_of S73) 0 1 (Some 1) 0 q).
  { eapply (loaded_gas 0 true 0 0 dtol dsolve 5%R (fun _ => Ok []) false false S73 Hpos 0 1 _ q L); [|left; reflexivity|exact Hm].
    split; [reflexivity|]. repeat constructor. }
  assert (G : exists rfuel st, driver (N:=RNum) 1 rfuel true 1 (rcell 20) 4 (pair_sets (sets73 model)) [] [] exG 0 = Ok st /\ s_log st = [(0, 1, (0, 1), 0%Z)]%nat).
  { apply (grun (mass_of S73) (charge_of S73) (Some 1) 0 q); [exact Hlo|exact Rlt_0_1|exact Rlt_0_1|reflexivity|reflexivity|reflexivity|reflexivity|lia]. }
  destruct G as (rfuel & st & Hr & Hl).
  assert (Hran : ran (sets73 model) 1 rfuel 1 (rcell 20) 4 [] [] exG 0 st).
  { split; [exact exG_ok|]. split; [exact gcell_bounded|]. split; [apply rcell_disjoint|]. split; [exact gcell_typed|exact Hr]. }
  exists (sets73 model), rfuel, st. split; [exact Hi|]. split; [exact Hran|]. split; [exact Hl|].
  assert (Hrea : is_reaction q = true).
  { pose proof Hm as Em. unfold inelastic_new_load in Em. change (numberProducts C73c) with 2%Z in Em. cbv beta iota zeta in Em. 
    apply obind_ok in Em as (? & _ & Em). apply obind_ok in Em as (? & _ & Em). injection Em as <-. reflexivity. }
  assert (Hspec : forall h, amount (fun p => h (name_of S73 (p_species p))) (s_mem st) (s_ranges st) (s_res st) = h "d"%string + h "c"%string).
  { intros h. rewrite (C73_C78_species _ _ _ _ _ _ _ _ _ _ _ _ _ _ _ _ _ _ _ _ _ _ _ _ _ h Hi Hran). rewrite Hl. unfold over_collisions.
    cbn [map fst snd Z.leb Z.compare Z.to_nat Rsum]. unfold per_channel. rewrite Ex, Hq, Hrea.
    unfold gain, total_named. change (expand_names (xi_out (x73 1%R 5%R))) with ["d"; "c"]%string. change (expand_names (xi_in (x73 1%R 5%R))) with ["a"; "b"]%string.
    assert (Ha : amount (fun p => h (name_of S73 (p_species p))) (c_mem (rcell 20)) (c_ranges (rcell 20)) [] = h "a"%string + h "b"%string) .
    { unfold amount, content. cbn -[name_of]. change (name_of S73 0) with "a"%string. change (name_of S73 1) with "b"%string. lra. }
    rewrite Ha. cbn [map Rsum fold_right]. lra. }
  assert (Hbal : balances (mass_named P73) P73 (x_inter D73)).
  { intros x [<-|[]] _. cbn. reflexivity. }
  split; [rewrite (Hspec (fun n => if String.eqb "a" n then 1 else 0)); cbn; lra|].
  split; [rewrite (Hspec (fun n => if String.eqb "d" n then 1 else 0)); cbn; lra|].
  split; [rewrite (Hspec (fun _ => 1)); lra|]. split.
  - rewrite (C73_C78_momentum _ _ _ _ _ _ _ _ _ _ _ _ _ _ _ _ _ _ _ _ _ _ _ _ _ 2%nat Hi Hran Hbal).
    unfold amount, content, momentum_of; cbn -[mass_of]; change (mass_of S73 0) with 1; change (mass_of S73 1) with 1; lra.
  - assert (Hone : forall A B, pair_sets (sets73 model) A B = [] \/ pair_sets (sets73 model) A B = [q]).
    { intros A B. unfold pair_sets. destruct (B <? A)%nat; [now left|].
      unfold cell_get. cbn [sets73 cell_find]. 
      repeat match goal with |- context [if key_eqb ?a ?b then _ else _] => destruct (key_eqb a b); [cbn; auto|] end. cbn. auto. }
    assert (Hth : threshold q = 0) by reflexivity.
    destruct (C73_C78_energy _ _ _ _ _ _ _ _ _ _ _ _ _ _ _ _ _ _ _ _ _ _ _ _ _ Hi Hran Hbal) as [Lo Up].
    + lra.
    + intros f a b H; cbn; lra.
    + constructor; [|constructor]. split; exact I.
    + intros A B j y q' Hy Hq'. left. destruct (Hone A B) as [E|E]; rewrite E in Hq'; [destruct j; discriminate|].
      destruct j as [|[|j]]; try discriminate. injection Hq' as <-.
      unfold energy_given. rewrite Hrea, Hth. unfold entry in Hy.
      assert (Iy : In y [X73]).
      { destruct (channel_source 0 true 0 0 dtol dsolve 5%R (fun _ => Ok []) false false D73 FNull P73 S73 (sets73 model) H1 H3 H4 H6 A B 0 q) as (_ & y' & Ey & Iy & _).
        - rewrite E. reflexivity.
        - unfold entry in Ey. rewrite Hy in Ey. injection Ey as <-. exact Iy. }
      destruct Iy as [<-|[]]. cbn. lra.
    + intros A B _ v cs Hv Hc. destruct (Hone A B) as [E|E]; rewrite E in Hc; inversion Hc as [|? y ? ? Hy Hc']; subst; [constructor|].
      inversion Hc'; subst. constructor; [|constructor]. unfold sigma_is in Hy. rewrite (gq_sigma q eq_refl v Hv) in Hy. injection Hy as <-. lra.
    + rewrite Hl in Lo, Up. unfold over_collisions in Lo, Up. cbn [map fst snd Z.leb Z.compare Z.to_nat Rsum] in Lo, Up.
      unfold per_channel in Lo, Up. rewrite Ex, Hq in Lo, Up.
      assert (He : energy_given (x73 1%R 5%R) q = 1) by (unfold energy_given; rewrite Hrea; reflexivity).
      assert (Hv : vss_loss S73 0 1 q = 0).
      { unfold vss_loss. revert Hrea. unfold is_reaction. destruct (q_model q); try reflexivity. discriminate. }
      rewrite He, ?Hv in Lo, Up.
      assert (Hk : amount (kinetic_of (mass_of S73)) (c_mem (rcell 20)) (c_ranges (rcell 20)) [] = 25 / 2) by (unfold amount, content, kinetic_of, kinetic, norm2; cbn -[mass_of]; change (mass_of S73 0) with 1; change (mass_of S73 1) with 1; lra).
      rewrite Hk in Lo, Up. lra.
Qed.
