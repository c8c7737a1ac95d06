(** The data shipped with the library (C85-C87) and documents that load (C88). *)
From Coq Require Import Reals Qreals Lra String Ascii ZArith QArith Bool Arith Lia Sorted Permutation List.
From Verif Require Import Base Num ModelTerm ModelCollide ModelFactories ModelXsec ModelSet ModelEq ModelFilter ModelDB ModelShippedTables ModelShipped
  SpecTerm SpecPhys SpecFactories SpecXsec SpecSet SpecEq SpecFilter SpecDB SpecMore SpecRun SpecInit SpecLoadable SpecShipped
  ProofCollide ProofInelastic ProofRun ProofRun2 ProofInit ProofInit2 ProofLoadable ProofNever ProofShipped ProofShipped2 ProofShipped3 ProofShipped4
  Properties1 Properties3 Properties11.
From Coq Require Import List.
Import ListNotations.
Local Open Scope R_scope.
Local Open Scope list_scope.

(** C85.  Every interaction of the shipped interactions.xml whose species are all in the
    shipped particles.xml balances mass and charge, whatever the values of the physical
    constants (so it balances the number of nuclei of every element). *)
Theorem C85_balance : forall val ginv path text x, In x (shipped_doc val ginv path text) -> all_shipped x ->
  forall val', total_named (mass_called val') (xi_out x) = total_named (mass_called val') (xi_in x) /\
    total_named charge_called (xi_out x) = total_named charge_called (xi_in x).
Proof. intros. eapply doc_balance; eassumption. Qed.
Print Assumptions C85_balance.

Section Statements.
Variables (fuel : nat) (allowed : bool) (inf ninf : RNum) (tol : RNum -> RNum -> bool)
  (solve : (RNum -> RNum) -> RNum -> RNum -> RNum * RNum) (finf : RNum)
  (parse : string -> outcome (list (expr RNum))) (fcm fcq : bool).
Let reg := default_reg (N:=RNum) fuel allowed inf ninf tol solve (setParticleFactories (N:=RNum) finf) parse fcm fcq.

(** A database of shipped species that was initialised from the shipped interactions. *)
Definition shipped_db val ginv path text d ps f r s : Prop :=
  shipped_gas val ginv path text d ps /\ initBinary reg d f (map (shipped_prop val) ps) = Ok (r, s).
Lemma shipped_initialised val ginv path text d ps f r s : shipped_db val ginv path text d ps f r s ->
  initialised fuel allowed inf ninf tol solve finf parse fcm fcq d f (map (shipped_prop val) ps) r s.
Proof.
  intros [Hg Hi]. split; [eapply gas_unique; exact Hg|]. split; [eapply gas_pos; exact Hg|]. split; [eapply gas_set_ok; exact Hg|].
  split; [eapply gas_plain_names; exact Hg|]. split; [eapply gas_plain; exact Hg|exact Hi].
Qed.
(** Over a run, particles of any shipped species keep the total of every mass that the
    constants can give them (hence the nuclei of every element), charge and momentum. *)
Theorem C85_run : forall val ginv path text d ps f r s K rfuel dt c nprops res er g k st,
  shipped_db val ginv path text d ps f r s -> ran s K rfuel dt c nprops res er g k st ->
  (forall val', amount (fun p => mass_called val' (name_of r (p_species p))) (s_mem st) (s_ranges st) (s_res st) =
     amount (fun p => mass_called val' (name_of r (p_species p))) (c_mem c) (c_ranges c) res) /\
  amount (fun p => charge_called (name_of r (p_species p))) (s_mem st) (s_ranges st) (s_res st) =
    amount (fun p => charge_called (name_of r (p_species p))) (c_mem c) (c_ranges c) res /\
  (forall i, amount (momentum_of (mass_of r) i) (s_mem st) (s_ranges st) (s_res st) = amount (momentum_of (mass_of r) i) (c_mem c) (c_ranges c) res).
Proof.
  intros until st. intros Hs Hr. pose proof (shipped_initialised _ _ _ _ _ _ _ _ _ Hs) as Hi. destruct Hs as [Hg _]. split; [|split].
  - intros val'. eapply C73_C78_conserved with (h := mass_called val'); [exact Hi|exact Hr|]. exact (proj1 (gas_balances _ _ _ _ _ _ Hg val')).
  - eapply C73_C78_conserved with (h := charge_called); [exact Hi|exact Hr|]. exact (proj2 (gas_balances _ _ _ _ _ _ Hg val)).
  - intros i. eapply C73_C78_momentum; [exact Hi|exact Hr|]. exact (gas_mass_balance _ _ _ _ _ _ Hg).
Qed.

(** C86.  Without the two pairs whose cross sections can be negative, kinetic energy changes
    over a run by exactly the energies of the reactions in the log: minus the threshold
    energy, or the <KineticEnergyChange> where there is one. *)
Theorem C86_energy : forall val ginv path text d ps f r s K rfuel dt c nprops res er g k st,
  shipped_db val ginv path text d ps f r s -> ran s K rfuel dt c nprops res er g k st ->
  0 < val "eV"%string -> 0 < val "m_e"%string -> (forall y, 0 < y -> 0 <= ginv y) -> no_log_lotz ps ->
  0 <= inf -> solver_in_bracket solve ->
  amount (kinetic_of (mass_of r)) (s_mem st) (s_ranges st) (s_res st) =
    amount (kinetic_of (mass_of r)) (c_mem c) (c_ranges c) res +
    over_collisions (per_channel d f r s (fun _ _ x q => energy_given x q)) (s_log st).
Proof. intros until st. intros [Hg Hi] (?&?&?&?&?) ? ? ? ? ? ?. eapply gas_energy; eassumption. Qed.
(** Every <KineticEnergyChange> of the shipped file is positive: the channel adds that energy
    to its particles, ... *)
Theorem C86_adds : forall val ginv path text d ps f r s A B j q x e,
  shipped_db val ginv path text d ps f r s -> 0 < val "eV"%string ->
  nth_error (pair_sets s A B) j = Some q -> entry d f r A B j = Some x -> xi_kec x = Some e ->
  0 < e /\ energy_given x q = e.
Proof. intros until e. intros [Hg Hi] HeV Hq Hx He. eapply kec_reaction; eassumption. Qed.
(** ... so a run whose reactions all have one never lowers the kinetic energy: that an
    excitation of a molecule takes its energy from the particles is false of these data. *)
Theorem C86_excitation_refuted : forall val ginv path text d ps f r s K rfuel dt c nprops res er g k st,
  shipped_db val ginv path text d ps f r s -> ran s K rfuel dt c nprops res er g k st ->
  0 < val "eV"%string -> 0 < val "m_e"%string -> (forall y, 0 < y -> 0 <= ginv y) -> no_log_lotz ps ->
  0 <= inf -> solver_in_bracket solve ->
  (forall A B ij n x, In (A, B, ij, n) (s_log st) -> (0 <= n)%Z -> entry d f r A B (Z.to_nat n) = Some x -> xi_kec x <> None) ->
  amount (kinetic_of (mass_of r)) (c_mem c) (c_ranges c) res <= amount (kinetic_of (mass_of r)) (s_mem st) (s_ranges st) (s_res st) /\
  ((exists A B ij n, In (A, B, ij, n) (s_log st) /\ (0 <= n)%Z) ->
   amount (kinetic_of (mass_of r)) (c_mem c) (c_ranges c) res < amount (kinetic_of (mass_of r)) (s_mem st) (s_ranges st) (s_res st)).
Proof.
  intros until st. intros Hs Hr HeV Hme Hgi Hno Hinf Hsol Hall.
  rewrite (C86_energy val ginv path text d ps f r s K rfuel dt c nprops res er g k st Hs Hr HeV Hme Hgi Hno Hinf Hsol).
  pose proof Hs as [Hg Hi]. destruct Hr as (Hg1 & Hb & Hdj & Ht & Hrun).
  assert (P : forall A B ij n, In (A, B, ij, n) (s_log st) -> (0 <= n)%Z -> 0 < per_channel d f r s (fun _ _ x q => energy_given x q) A B (Z.to_nat n)).
  { intros A B ij n I Hn. destruct (doc_never fuel allowed inf ninf tol solve finf parse fcm fcq d f _ r s (gas_unique _ _ _ _ _ _ Hg) (gas_pos _ _ _ _ _ _ Hg)
      (gas_set_ok _ _ _ _ _ _ Hg) (gas_plain_names _ _ _ _ _ _ Hg) (gas_plain _ _ _ _ _ _ Hg) Hi K rfuel dt c nprops res er g k st Hg1 Hb Hdj Ht Hrun A B ij n I Hn) as (x & q & Ex & Hq & _).
    unfold per_channel. rewrite Ex, Hq. pose proof (Hall A B ij n x I Hn Ex) as Hk. destruct (xi_kec x) as [e|] eqn:Ek; [|contradiction].
    destruct (C86_adds val ginv path text d ps f r s A B _ q x e Hs HeV Hq Ex Ek) as [Pe ->]. exact Pe. }
  revert P. generalize (s_log st) as l. set (h := per_channel d f r s _). clearbody h. intros l P.
  assert (G : 0 <= over_collisions h l /\ ((exists A B ij n, In (A, B, ij, n) l /\ (0 <= n)%Z) -> 0 < over_collisions h l)).
  { unfold over_collisions. induction l as [|[[[A B] ij] n] l IH]; [cbn; split; [lra|intros (A & B & ij & n & [] & _)]|].
    cbn [map Rsum fst snd]. destruct IH as [I1 I2]; [intros A' B' ij' n' I Hn; apply (P A' B' ij' n'); [now right|exact Hn]|].
    destruct (0 <=? n)%Z eqn:En.
    - apply Z.leb_le in En. pose proof (P A B ij n (or_introl eq_refl) En). split; [lra|intros _; lra].
    - split; [lra|]. intros (A' & B' & ij' & n' & [E|I] & Hn); [injection E as <- <- <- <-; apply Z.leb_gt in En; lia|].
      apply Z.leb_gt in En. specialize (I2 ltac:(exists A', B', ij', n'; auto)). lra. }
  destruct G as [G1 G2]. split; [lra|]. intros X. specialize (G2 X). lra.
Qed.

(** C87.  The log of a run that completes has no reaction with fewer than two or more than
    three products: the library loads such an interaction and throws when it is selected. *)
Theorem C87_products : forall d f props r s K rfuel dt c nprops res er g k st A B ij n,
  initialised fuel allowed inf ninf tol solve finf parse fcm fcq d f props r s -> ran s K rfuel dt c nprops res er g k st ->
  In (A, B, ij, n) (s_log st) -> (0 <= n)%Z ->
  exists x q, entry d f r A B (Z.to_nat n) = Some x /\ nth_error (pair_sets s A B) (Z.to_nat n) = Some q /\
    In x (x_inter d) /\ among props x /\
    (is_reaction q = true -> length (products x) = 2 \/ length (products x) = 3)%nat.
Proof. intros until n. intros (?&?&?&?&?&?) (?&?&?&?&?) I Hn. eapply doc_never; eassumption. Qed.

(** C88.  A document loads, with every filter, if each of its interactions among the species,
    with a cross section and two reactants, is loadable. *)
Theorem C88_loads : forall d f props, 1 <= finf -> unique_names props -> (forall p, In p props -> 0 < pr_mass p) ->
  set_ok (x_inter d) -> plain_names props (x_inter d) ->
  (forall x, In x (x_inter d) -> among props x -> xi_cs x <> None -> length (reactants x) = 2%nat ->
     loadable finf (xs_load (N:=RNum) fuel allowed inf ninf tol solve) props x) ->
  exists s, initBinary reg d f props = Ok (sort_props props, s).
Proof. intros. now apply document_loads. Qed.
(** The shipped data do, for any choice of species, if electrons are lighter than atoms. *)
Theorem C88_shipped : forall val ginv path text d ps f,
  shipped_gas val ginv path text d ps -> 0 < val "eV"%string -> light_electrons val ps ->
  1 < finf -> (9900 <= Z.of_nat fuel)%Z -> (forall h a b, tol (fst (solve h a b)) (snd (solve h a b)) = true) ->
  exists s, initBinary reg d f (map (shipped_prop val) ps) = Ok (sort_props (map (shipped_prop val) ps), s).
Proof.
  intros val ginv path text d ps f Hg HeV Hl Hfi Hfu Hso. apply C88_loads.
  - lra.
  - eapply gas_unique; exact Hg.
  - eapply gas_pos; exact Hg.
  - eapply gas_set_ok; exact Hg.
  - eapply gas_plain_names; exact Hg.
  - intros x Hx Ha Hcs H2. eapply gas_loadable; [exact Hg|exact Hl|exact Hfi| |exact Hx|exact Ha|exact Hcs|exact H2].
    intros c. now apply shipped_loads.
Qed.
End Statements.
Print Assumptions C85_run.
Print Assumptions C86_energy.
Print Assumptions C86_adds.
Print Assumptions C86_excitation_refuted.
Print Assumptions C87_products.
Print Assumptions C88_loads.
Print Assumptions C88_shipped.

(** Electrons and O2, whose only channel is the excitation e^- + O2 -> e^- + O2(v1) with a
    <KineticEnergyChange> of 0.19 eV: one electron of speed 5 hits one molecule. *)
Example C85_C86_C87_case : exists s q vol st, let fuel := Z.to_nat 9900 in
  shipped_db fuel true 0 0 tol86 solve86 2 (fun _ => Ok []) false false val86 (fun _ => 1) (fun _ => []) (fun _ => (""%string, ""%string)) doc86 ps86 FNull r86 s /\
  ran s 1 2 1 (rcell vol) 3 [] [] keenG 0 st /\ s_log st = [(0, 1, (0, 1), 0%Z)]%nat /\
  nth_error (pair_sets s 0 1) 0 = Some q /\
  (exists x, entry doc86 FNull r86 0 1 0 = Some x /\ products x = ["e^-"; "O2(v1)"]%string /\ energy_given x q = 95 / 12) /\
  amount (fun p => charge_called (name_of r86 (p_species p))) (s_mem st) (s_ranges st) (s_res st) = -1 /\
  amount (momentum_of (mass_of r86) 2) (s_mem st) (s_ranges st) (s_res st) = 4 /\
  amount (kinetic_of (mass_of r86)) (c_mem (rcell vol)) (c_ranges (rcell vol)) [] = 25 / 2 /\
  amount (kinetic_of (mass_of r86)) (s_mem st) (s_ranges st) (s_res st) = 25 / 2 + 95 / 12.
Proof.
  assert (Hf : (9900 <= Z.of_nat (Z.to_nat 9900))%Z) by (rewrite Z2Nat.id; lia). revert Hf. generalize (Z.to_nat 9900). intros fuel Hf.
  destruct (run86 fuel Hf) as (s & q & vol & st & Hi & Ex & Hq & Hr & Hl). exists s, q, vol, st. cbv zeta.
  assert (HeV : 0 < val86 "eV") by (rewrite eV86; lra).
  assert (Hs : shipped_db fuel true 0 0 tol86 solve86 2 (fun _ => Ok []) false false val86 (fun _ => 1) (fun _ => []) (fun _ => (""%string, ""%string)) doc86 ps86 FNull r86 s) by (split; [exact gas86|exact Hi]).
  assert (Hran : ran s 1 2 1 (rcell vol) 3 [] [] keenG 0 st).
  { split; [exact keenG_ok|]. split; [apply rcell_bounded|]. split; [apply rcell_disjoint|]. split; [apply rcell_typed|exact Hr]. }
  split; [exact Hs|]. split; [exact Hran|]. split; [exact Hl|]. split; [exact Hq|].
  match type of Ex with _ = Some ?X => set (x := X) in * end.
  assert (Ek : xi_kec x = Some (Q2R (dec 19 (-2)) * val86 "eV")) by reflexivity.
  assert (He : energy_given x q = Q2R (dec 19 (-2)) * val86 "eV") by (eapply C86_adds; [exact Hs|exact HeV|exact Hq|exact Ex|exact Ek]).
  assert (Ee : Q2R (dec 19 (-2)) * val86 "eV" = 95 / 12) by (rewrite eV86; unfold Q2R, dec; cbn; lra). rewrite Ee in He.
  split; [exists x; split; [exact Ex|]; split; [reflexivity|exact He]|].
  destruct mass86 as (M1 & M2 & M3). assert (m0 : mass_of r86 0 = 1) by exact M1. assert (m1 : mass_of r86 1 = 2) by exact M2.
  edestruct C85_run as (_ & Hc & Hp); [exact Hs|exact Hran|].
  split; [rewrite Hc; unfold amount, content; cbn -[name_of charge_called r86]; change (name_of r86 0) with "e^-"%string; change (name_of r86 1) with "O2"%string; change (charge_called "e^-") with (-1); change (charge_called "O2") with 0; lra|].
  split; [rewrite Hp; unfold amount, content, momentum_of; cbn -[mass_of r86]; rewrite m0, m1; lra|].
  assert (K0 : amount (kinetic_of (mass_of r86)) (c_mem (rcell vol)) (c_ranges (rcell vol)) [] = 25 / 2).
  { unfold amount, content, kinetic_of, kinetic, norm2; cbn -[mass_of r86]; rewrite m0, m1; lra. }
  split; [exact K0|].
  assert (Hk : forall a b, a = amount (kinetic_of (mass_of r86)) (c_mem (rcell vol)) (c_ranges (rcell vol)) [] + b -> b = 95 / 12 -> a = 25 / 2 + 95 / 12) by (intros a b -> ->; rewrite K0; reflexivity).
  eapply Hk; [eapply C86_energy; [exact Hs|exact Hran|exact HeV| | | | |]|].
  - unfold val86; cbn; lra.
  - intros; lra.
  - split; intros [(p & Hp1 & E) _]; destruct Hp1 as [<-|[<-|[<-|[]]]]; discriminate.
  - lra.
  - intros h a b Hab; cbn; lra.
  - rewrite Hl. unfold over_collisions. cbn [map fst snd Z.leb Z.compare Z.to_nat Rsum]. unfold per_channel. rewrite Ex, Hq, He. lra.
Qed.
(** The shipped attachment e^- + SF6 -> SF6^-, the one interaction of this kind, is never in
    such a log. *)
Example C87_case : forall fuel allowed inf ninf tol solve finf parse fcm fcq val ginv path text d ps f r s K rfuel dt c nprops res er g k st A B ij n x q,
  shipped_db fuel allowed inf ninf tol solve finf parse fcm fcq val ginv path text d ps f r s -> ran s K rfuel dt c nprops res er g k st ->
  In (A, B, ij, n) (s_log st) -> (0 <= n)%Z -> entry d f r A B (Z.to_nat n) = Some x -> nth_error (pair_sets s A B) (Z.to_nat n) = Some q ->
  is_reaction q = true -> products x <> ["SF6^-"%string].
Proof.
  intros until q. intros Hs Hr I Hn Ex Hq Hre E.
  apply shipped_initialised in Hs. edestruct C87_products as (x' & q' & Ex' & Hq' & _ & _ & H); [exact Hs|exact Hr|exact I|exact Hn|].
  rewrite Ex in Ex'. rewrite Hq in Hq'. injection Ex' as <-. injection Hq' as <-. specialize (H Hre). rewrite E in H. cbn in H. lia.
Qed.
Lemma attachment_shipped : exists k i, nth_error shipped_interactions k = Some i /\ expand_names (si_out i) = ["SF6^-"%string] /\ expand_names (si_in i) = ["e^-"; "SF6"]%string /\
  match si_cs i with SNone => False | _ => True end.
Proof. exists 111%nat. eexists. split; [reflexivity|]. repeat split. Qed.
Example C88_case : exists s, initBinary (default_reg (N:=RNum) (Z.to_nat 9900) true 0%R 0%R tol86 solve86 (setParticleFactories (N:=RNum) 2%R) (fun _ => Ok []) false false)
  doc86 FNull (map (shipped_prop val86) ps86) = Ok (sort_props (map (shipped_prop val86) ps86), s).
Proof.
  apply (C88_shipped (Z.to_nat 9900) true 0%R 0%R tol86 solve86 2%R (fun _ => Ok []) false false val86 (fun _ => 1) (fun _ => []) (fun _ => (""%string, ""%string))).
  - exact gas86.
  - rewrite eV86; lra.
  - exact light86.
  - lra.
  - rewrite Z2Nat.id; lia.
  - reflexivity.
Qed.
