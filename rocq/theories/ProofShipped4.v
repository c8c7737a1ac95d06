(** A run with one collision in a gas of shipped species. *)
From Coq Require Import Reals Qreals Lra Lia String Ascii ZArith QArith Bool Arith Sorted Permutation List.
From Verif Require Import Base Num ModelTerm ModelCollide ModelFactories ModelXsec ModelSet ModelEq ModelFilter ModelDB ModelShippedTables ModelShipped
  SpecTerm SpecPhys SpecFactories SpecXsec SpecSet SpecEq SpecFilter SpecDB SpecMore SpecRun SpecInit SpecLoadable SpecShipped
  ProofTerm ProofCollide ProofXsec ProofData ProofInelastic ProofSelect ProofSet ProofDriver ProofDriver3 ProofRun ProofRun2 ProofRun3 ProofDB ProofInit ProofInit2 ProofLoadable ProofShipped ProofShipped2 ProofShipped3
  Properties1 Properties3.
From Coq Require Import List.
Import ListNotations.
Local Open Scope R_scope.
Local Open Scope list_scope.

(** Every test is accepted. *)
Definition keenG : rng RNum := mkRng (N:=RNum) (fun _ => 0) (fun _ => / 2).
Lemma keenG_ok : rng_ok keenG. Proof. intros k; cbn; lra. Qed.
Lemma rcell_typed vol : typed (c_mem (rcell vol)) (c_ranges (rcell vol)).
Proof.
  intros [|[|A]] r i Hr Hi; cbn in Hr; [injection Hr as <-|injection Hr as <-|destruct A; discriminate]; unfold in_range in Hi; cbn in Hi.
  - assert (i = 0%nat) as -> by lia. exists exA. split; reflexivity.
  - assert (i = 1%nat) as -> by lia. exists exB. split; reflexivity.
Qed.
Lemma rcell_bounded vol : bounded (2 ^ 31) (c_ranges (rcell vol)).
Proof. repeat constructor; unfold rsize; cbn; lia. Qed.

(** ** One particle of each of two species, one reaction between them, one collision *)
Section OneRun.
Variables (K : R) (mass charge : Z -> R) (kec : option R) (th sg m w : R) (q : equation RNum) (db : nat -> nat -> list (equation RNum)) (nprops : nat).
Hypothesis Hq : loaded_reaction mass charge 0 1 kec th q.
Hypothesis Hsg : sigma (N:=RNum) K (q_cs q) 5 = Ok sg.
Hypothesis Psg : 0 < sg.
Hypothesis Hm : findMaxSigmaV (N:=RNum) K (q_cs q) 5 = Ok (m, w).
Hypothesis Pm : 0 < m.
Hypothesis db00 : db 0%nat 0%nat = [].
Hypothesis db01 : db 0%nat 1%nat = [q].
Hypothesis db11 : db 1%nat 1%nat = [].
Hypothesis np : (2 <= nprops)%nat.
Let vol := 4 * m / 5.
Lemma one_pair k : exists k', selectRandomPair (N:=RNum) 2 (0, 1)%nat (1, 2)%nat keenG k = Ok (0%nat, 1%nat, k').
Proof.
  destruct (rrand_pos keenG (0, 1)%nat keenG_ok ltac:(cbn; lia) k) as (i & Ei & Hi). unfold in_range in Hi. cbn in Hi. assert (i = 0)%nat as -> by lia.
  destruct (rrand_pos keenG (1, 2)%nat keenG_ok ltac:(cbn; lia) (k + 1)) as (j & Ej & Hj). unfold in_range in Hj. cbn in Hj. assert (j = 1)%nat as -> by lia.
  unfold selectRandomPair. rewrite Ei. cbn [obind pick_other]. rewrite Ej. cbn. eauto.
Qed.
Lemma one_test_log (s : dstate RNum) : s_mem s = [exA; exB] -> s_ranges s = [(0, 1); (1, 2)]%nat -> s_res s = [] -> s_log s = [] ->
  exists s', one_test (N:=RNum) K true 2 [q] (0 + m) 0 1 keenG s = Ok s' /\ s_ranges s' = [(0, 0); (1, 1)]%nat /\ s_log s' = [(0, 1, (0, 1), 0%Z)]%nat.
Proof.
  intros E1 E2 E3 E4. unfold one_test. rewrite E1, E2, E3, E4. unfold oget at 1 2. cbn [nth_error obind].
  destruct (one_pair (s_pos s)) as (k1 & Ep). rewrite Ep. cbn [obind oget nth_error].
  unfold set_interact. set (v := vabs _). assert (Hv : v = 5). { subst v. unfold vabs, vsub. cbn. replace (_ + _)%R with (5 * 5)%R by ring. apply sqrt_square; lra. }
  clearbody v. subst v. cbv zeta.
  assert (Ec : exists c k3, calculateOutPath (N:=RNum) K [q] (0 + m)%R 5 keenG k1 = Ok (0%Z, c, k3)).
  { destruct (C31_C32_C33_outpath K [q] (0 + m) 5 keenG k1 [sg]) as (jj & c & k3 & Eo & _ & Hc & Hcase & _).
    - constructor; [exact Hsg|constructor].
    - constructor; [lra|constructor].
    - exact keenG_ok.
    - destruct Hc as [_ Hc]; [cbn; lra|]. destruct Hcase as [->|([|[|n]] & -> & Hn & _)]; [|eauto|discriminate..].
      exfalso. apply (Zlt_not_le (-1) 0); [lia|]. apply Hc. cbn. lra. }
  destruct Ec as (c & k3 & Ec).
  match goal with |- context [calculateOutPath ?a ?b ?c ?d ?e ?f] => change (calculateOutPath a b c d e f) with (calculateOutPath (N:=RNum) K [q] (0 + m)%R 5 keenG k1) end.
  rewrite Ec. cbn [obind fst oget nth_error Z.to_nat]. change (0 <=? 0)%Z with true.
  change (p_species exB <? p_species exA)%Z with false. cbv iota. cbn [obind].
  destruct (react_products mass charge _ _ _ _ _ Hq true exA exB [] keenG k3) as (new & k4 & Em4 & Hne & Hsp & _).
  rewrite Em4. cbn [obind fst negb orb app]. change (0 <? 0)%Z with false.
  destruct new as [|n0' new]; [contradiction|]. cbn [length Nat.leb orb].
  eexists. split; [unfold retval_inplace; cbn; reflexivity|]. split; reflexivity.
Qed.
Lemma one_run : exists st, driver (N:=RNum) K 2 true 1 (rcell vol) nprops db [] [] keenG 0 = Ok st /\ s_log st = [(0, 1, (0, 1), 0%Z)]%nat.
Proof.
  unfold driver. cbv zeta. replace (Nat.min (length (c_ranges (rcell vol))) nprops) with 2%nat by (change (length (c_ranges (rcell vol))) with 2%nat; lia).
  change (species_pairs 2) with [(0, 0); (0, 1); (1, 1)]%nat.
  cbn [first_pass]. rewrite db00, db01, db11. unfold oget at 1 2 3 4 5 6. cbn [nth_error rcell c_ranges obind].
  assert (Em : findMaxSigmaVProduct (N:=RNum) K [q] (c_maxv (rcell vol) 0 1) = Ok (0 + m)).
  { unfold findMaxSigmaVProduct. cbn [ofold c_maxv rcell]. rewrite Hm. reflexivity. }
  rewrite Em. cbn [obind].
  change (first_weight (c_mem (rcell vol)) (0, 1)%nat) with (Ok (A:=RNum) 1). change (first_weight (c_mem (rcell vol)) (1, 2)%nat) with (Ok (A:=RNum) 2).
  cbn [obind oget nth_error]. unfold second_pass. cbn [ofold ct_A ct_B ct_tests ct_msv].
  set (x := promote _ _).
  assert (Hx : (1 < x)%R). { subst x. unfold promote, estimate. cbn. unfold nmin. cbn. destruct (Rltb_spec 2 1); [lra|]. unfold vol.
    replace (1 * 2 * 1 * 1 * 1 * (0 + m) / (4 * m / 5 * 1))%R with (5 / 2)%R by (field; lra). destruct (Rltb _ _); lra. }
  clearbody x. rewrite db01. cbn [test_loop]. replace (n1 <? x)%num with true by (symmetry; unR; destruct (Rltb_spec 1 x); [reflexivity|lra]).
  unfold oget at 1 2. cbn [nth_error s_ranges obind]. change (rsize (0, 1)%nat) with 1%nat. change (rsize (1, 2)%nat) with 1%nat.
  cbn [Nat.eqb Nat.ltb Nat.leb andb orb].
  set (st := mkState (N:=RNum) _ _ _ _ _ _).
  destruct (one_test_log st eq_refl eq_refl eq_refl eq_refl) as (s1 & E1 & R1 & L1).
  match goal with |- context [one_test ?a ?b ?c ?d ?e ?f ?g ?h ?i] => assert (X : one_test a b c d e f g h i = Ok s1) by exact E1; rewrite X end. cbn [obind].
  destruct (n1 <? _)%num; [|cbn [obind ofold]; eexists; split; [reflexivity|exact L1]].
  unfold oget. rewrite R1. cbn [nth_error obind]. change (rsize (0, 0)%nat) with 0%nat. cbn [Nat.eqb andb orb obind ofold].
  eexists. split; [reflexivity|exact L1].
Qed.
End OneRun.

(** ** Electrons in O2 that can only be excited to O2(v1) *)
Definition val86 (n : string) : R := if String.eqb n "eV" then 125 / 3 else 1.
Definition e86 := mkSP "e^-" [(1%Z, "m_e"%string)] (-1).
Definition o86 := mkSP "O2" [(2%Z, "element::O::mass"%string)] 0.
Definition v86 := mkSP "O2(v1)" [(2%Z, "element::O::mass"%string)] 0.
Definition ps86 := [v86; o86; e86].
Definition doc86 : document RNum := mkDoc (N:=RNum) (fun _ => Throw ExnNotFound) (fun _ => []) (fun _ => Throw ExnNotFound)
  (shipped_doc val86 (fun _ => 1) (fun _ => []) (fun _ => (""%string, ""%string))).
Definition among86 (t : xterm) : bool := existsb (String.eqb (x_P t)) ["O2(v1)"; "O2"; "e^-"]%string.
Definition only86 (ki : nat * ship_inter) : bool :=
  match si_cs (snd ki) with SNone => true | _ => negb (forallb among86 (si_in (snd ki) ++ si_out (snd ki))) || Nat.eqb (fst ki) 37 end.
Lemma all_only86 : forallb only86 (combine (seq 0 (length shipped_interactions)) shipped_interactions) = true.
Proof. vm_compute. reflexivity. Qed.
Lemma mass86 : linear val86 (sp_mass e86) = 1 /\ linear val86 (sp_mass o86) = 2 /\ linear val86 (sp_mass v86) = 2.
Proof. unfold linear, val86. cbn. lra. Qed.
Lemma gas86 : shipped_gas val86 (fun _ => 1) (fun _ => []) (fun _ => (""%string, ""%string)) doc86 ps86.
Proof.
  split; [|split; [|split; [|reflexivity]]].
  - repeat constructor; cbn; intuition discriminate.
  - intros p Hp. assert (E : ship_named (sp_name p) = Some p) by (destruct Hp as [<-|[<-|[<-|[]]]]; reflexivity).
    unfold ship_named in E. apply find_some in E. tauto.
  - destruct mass86 as (M1 & M2 & M3). intros p [<-|[<-|[<-|[]]]]; rewrite ?M1, ?M2, ?M3; lra.
Qed.
Lemma light86 : light_electrons val86 ps86.
Proof.
  destruct mass86 as (M1 & M2 & M3). intros p [<-|[<-|[<-|[]]]] H1 H2; rewrite ?M1, ?M2, ?M3; unfold val86; cbn; try lra. exfalso. now apply H1.
Qed.
Definition r86 := map (shipped_prop val86) [e86; o86; v86].
Lemma sort86 : sort_props (map (shipped_prop val86) ps86) = r86.
Proof.
  destruct mass86 as (M1 & M2 & M3). unfold ps86, r86, sort_props. cbn [map fold_right sort_insert].
  assert (E1 : prop_ltb (shipped_prop val86 e86) (shipped_prop val86 o86) = true).
  { unfold prop_ltb, shipped_prop. cbn [pr_mass pr_name]. rewrite M1, M2. unR. destruct (Rltb_spec 1 2); [reflexivity|lra]. }
  assert (E2 : prop_ltb (shipped_prop val86 e86) (shipped_prop val86 v86) = true).
  { unfold prop_ltb, shipped_prop. cbn [pr_mass pr_name]. rewrite M1, M3. unR. destruct (Rltb_spec 1 2); [reflexivity|lra]. }
  assert (E3 : prop_ltb (shipped_prop val86 o86) (shipped_prop val86 v86) = true).
  { unfold prop_ltb, shipped_prop. cbn [pr_mass pr_name]. rewrite M2, M3. unR. destruct (Rltb_spec 2 2); [reflexivity|]. destruct (Reqb_spec 2 2); [reflexivity|lra]. }
  rewrite E1. cbn [sort_insert]. rewrite E2, E3. reflexivity.
Qed.

Lemma some_inj {A} {a b : A} : Some a = Some b -> a = b. Proof. now intros [=]. Qed.
Section Run86.
Variable fuel : nat.
Hypothesis Hfuel : (9900 <= Z.of_nat fuel)%Z.
Definition tol86 (a b : R) := true.
Definition solve86 (f : R -> R) (a b : R) := (a, b).
Notation reg := (default_reg (N:=RNum) fuel true 0%R 0%R tol86 solve86 (setParticleFactories (N:=RNum) 2%R) (fun _ => Ok []) false false).
Notation x86 := (shipped_x val86 (fun _ => 1) (fun _ => []) (fun _ => (""%string, ""%string)) 37 (mkSI [t1 "e^-"; t1 "O2"] [t1 "e^-"; t1 "O2(v1)"] (SData tab37) (Some (dec 19 (-2))))).
Lemma eV86 : val86 "eV" = 125 / 3. Proof. reflexivity. Qed.
Lemma loads86 f : exists s, initBinary reg doc86 f (map (shipped_prop val86) ps86) = Ok (r86, s).
Proof.
  rewrite <- sort86. apply document_loads.
  - lra.
  - eapply gas_unique; exact gas86.
  - eapply gas_pos; exact gas86.
  - eapply gas_set_ok; exact gas86.
  - eapply gas_plain_names; exact gas86.
  - intros x Hx Ha Hcs Hl. eapply gas_loadable; [exact gas86|exact light86|lra| |exact Hx|exact Ha|exact Hcs|exact Hl].
    intros c. apply shipped_loads; [exact Hfuel|reflexivity|rewrite eV86; lra].
Qed.
Lemma channel86 A B x : In x (x_inter doc86) -> belongs r86 A B x -> x = x86.
Proof.
  intros Hx Hb. change (x_inter doc86) with (shipped_doc val86 (fun _ => 1) (fun _ => []) (fun _ => (""%string, ""%string))) in Hx.
  unfold shipped_doc in Hx. apply in_map_iff in Hx as ([k i] & <- & Hi). cbn [fst snd] in *.
  pose proof all_only86 as C. rewrite forallb_forall in C. specialize (C _ Hi). unfold only86 in C. cbn [fst snd] in C.
  assert (Hn : map (pr_name (N:=RNum)) r86 = ["e^-"; "O2"; "O2(v1)"]%string) by reflexivity.
  assert (Kt : forall t, known r86 t -> among86 t = true).
  { intros t Ht. unfold known in Ht. rewrite Hn in Ht. unfold among86. apply existsb_exists. exists (x_P t). split; [|apply String.eqb_refl]. cbn [In] in Ht |- *. clear -Ht. tauto. }
  assert (F : forallb among86 (si_in i ++ si_out i) = true).
  { apply forallb_forall. intros t Ht. apply Kt. destruct Hb as (_ & (pA & pB & HA & HB & W1 & W2) & _ & Ho). cbn [xi_in xi_out shipped_x] in *.
    apply in_app_iff in Ht as [Ht|Ht]; [|rewrite List.Forall_forall in Ho; now apply Ho].
    assert (IA : In (pr_name pA) (map (pr_name (N:=RNum)) r86)) by (apply in_map; eapply nth_error_In; exact HA).
    assert (IB : In (pr_name pB) (map (pr_name (N:=RNum)) r86)) by (apply in_map; eapply nth_error_In; exact HB).
    unfold known. destruct (Nat.eq_dec A B) as [E|E].
    - destruct (W1 E) as (u & Eu & Ex & _). rewrite Eu in Ht. destruct Ht as [<-|[]]. now rewrite Ex.
    - destruct (W2 E) as (u & w & P & [Hu _] & [Hw _]). apply (Permutation_in _ P) in Ht. destruct Ht as [<-|[<-|[]]]; [now rewrite Hu|now rewrite Hw]. }
  rewrite F in C. destruct Hb as (Hcs & _). cbn [xi_cs shipped_x] in Hcs.
  assert (k = 37%nat) as -> by (destruct (si_cs i); [exfalso; now apply Hcs|now apply Nat.eqb_eq..]).
  enough (i = mkSI [t1 "e^-"; t1 "O2"] [t1 "e^-"; t1 "O2(v1)"] (SData tab37) (Some (dec 19 (-2)))) as -> by exact eq_refl.
  rename Hi into G. clear -G.
  assert (N : forall (l : list ship_inter) o k i, In (k, i) (combine (seq o (length l)) l) -> (o <= k)%nat /\ nth_error l (k - o) = Some i).
  { clear. induction l as [|a l IH]; intros o k i H; [destruct H|]. cbn [length seq combine] in H. destruct H as [H|H].
    - injection H as <- <-. split; [lia|]. now rewrite Nat.sub_diag.
    - apply IH in H as [L H]. split; [lia|]. replace (k - o)%nat with (S (k - S o)) by lia. exact H. }
  apply N in G as [_ G]. cbn [Nat.sub] in G. 
  assert (E : nth_error shipped_interactions 37 = Some (mkSI [t1 "e^-"; t1 "O2"] [t1 "e^-"; t1 "O2(v1)"] (SData tab37) (Some (dec 19 (-2))))) by reflexivity.
  rewrite E in G. exact (eq_sym (some_inj G)).
Qed.
Lemma pairs86 s : initBinary reg doc86 FNull (map (shipped_prop val86) ps86) = Ok (r86, s) ->
  forall A B, (A <= B < 3)%nat -> exists xs qs, pair_interactions doc86 FNull r86 A B = Ok xs /\ pair_sets s A B = qs /\
    List.Forall2 (loads_for reg r86 A B) xs qs /\ (forall x, In x xs <-> x = x86 /\ belongs r86 A B x86) /\ set_ok xs.
Proof.
  intros Hinit A B HAB.
  pose proof (gas_unique _ _ _ _ _ _ gas86) as U. pose proof (gas_set_ok _ _ _ _ _ _ gas86) as Hd. pose proof (gas_plain_names _ _ _ _ _ _ gas86) as Hn.
  destruct (cell_equation (fun _ => True) reg doc86 FNull (map (shipped_prop val86) ps86) r86 s ProofOrder.R_mass_order) with (A := A) (B := B) as (xs & qs & Ex & Eq & Hx & HF); try assumption.
  { apply List.Forall_forall. intros; exact I. }
  exists xs, qs. split; [exact Ex|]. split; [|split; [exact HF|]].
  { unfold pair_sets. destruct (Nat.ltb_spec B A); [lia|]. rewrite Eq. reflexivity. }
  assert (U' : unique_names r86) by (rewrite <- sort86; unfold unique_names; eapply Permutation_NoDup; [apply Permutation_map, sort_perm|exact U]).
  assert (Hn' : plain_names r86 (x_inter doc86)).
  { destruct Hn as [N1 N2]. split; [|exact N2]. intros p Hp. apply N1. rewrite <- sort86 in Hp. eapply Permutation_in; [apply Permutation_sym, sort_perm|exact Hp]. }
  destruct (pair_selected doc86 FNull r86 A B xs Hd U' Hn' Ex) as (m & _ & Hs & Hm & Hf). cbn [run_filter] in Hf. injection Hf as ->.
  split; [|exact Hs]. intros x. rewrite Hm. split.
  - intros [Hi Hb]. pose proof (channel86 A B x Hi Hb) as ->. split; [reflexivity|exact Hb].
  - intros [-> Hb]. split; [|exact Hb]. apply doc_nth. reflexivity.
Qed.
Lemma belongs86 : belongs r86 0 1 x86.
Proof.
  split; [discriminate|]. split; [|split; [discriminate|]].
  - exists (shipped_prop val86 e86), (shipped_prop val86 o86). split; [reflexivity|]. split; [reflexivity|]. split; [discriminate|].
    intros _. exists (t1 "e^-"), (t1 "O2"). split; [apply Permutation_refl|]. split; split; auto.
  - cbn [xi_out shipped_x si_out]. constructor; [|constructor; [|constructor]]; unfold known; cbn [map r86 shipped_prop pr_name sp_name e86 o86 v86 x_P t1 In]; auto.
Qed.
Lemma not_belongs86 A : ~ belongs r86 A A x86.
Proof. intros (_ & (pA & pB & _ & _ & W & _) & _). destruct (W eq_refl) as (t & E & _). discriminate. Qed.
Lemma singleton86 (xs : list (xinter RNum)) a : set_ok xs -> (forall x, In x xs <-> x = a) -> xs = [a].
Proof.
  intros Hs Hi. destruct xs as [|x [|y l]].
  - destruct (proj2 (Hi a) eq_refl).
  - rewrite (proj1 (Hi x)); [reflexivity|now left].
  - exfalso. inversion Hs as [|? ? _ F]; subst. inversion F as [|? ? L _]; subst.
    rewrite (proj1 (Hi x) (or_introl eq_refl)), (proj1 (Hi y) (or_intror (or_introl eq_refl))) in L. lia.
Qed.
Lemma speed86 : forall e : Q, row_speed (ReducedMass (N:=RNum) 1 2) (fst (loaded_row val86 (e, 0%Q))) = sqrt (125 * Q2R e).
Proof.
  intros e. cbn [loaded_row fst snd row_speed]. rewrite ProofCollide.rm_val, eV86. f_equal. field.
Qed.
Lemma table86 (c : xsec RNum) : xs_load (N:=RNum) fuel true 0%R 0%R tol86 solve86 (ReducedMass (N:=RNum) 1 2) (DData (map (loaded_row val86) tab37)) = Ok c ->
  exists sg m w, sigma (N:=RNum) 1 c 5 = Ok sg /\ 0 < sg /\ findMaxSigmaV (N:=RNum) 1 c 5 = Ok (m, w) /\ 0 < m.
Proof.
  intros Hc. assert (Hmu : 0 < rm_value (ReducedMass (N:=RNum) 1 2)) by (apply mu_pos; lra).
  destruct (data_load_spec 1 fuel true 0 0 tol86 solve86 (ReducedMass (N:=RNum) 1 2) (map (loaded_row val86) tab37) Hmu Hfuel) as (t & _ & _ & _ & _ & H).
  assert (Fr : first_row (ReducedMass (N:=RNum) 1 2) (map (loaded_row val86) tab37) 5 (Q2R (dec 1 (-23)))).
  { exists [loaded_row val86 (dec 19 (-2), dec 0 0)], (fst (loaded_row val86 (dec 2 (-1), 0%Q))), (map (loaded_row val86) (skipn 2 tab37)).
    split; [reflexivity|]. split.
    - rewrite speed86. replace (125 * Q2R (dec 2 (-1))) with (5 * 5) by (unfold Q2R, dec; cbn; lra). apply sqrt_square. lra.
    - constructor; [|constructor]. change (fst (loaded_row val86 (dec 19 (-2), dec 0 0))) with (fst (loaded_row val86 (dec 19 (-2), 0%Q))). rewrite speed86.
      intros E. assert (E' : sqrt (125 * Q2R (dec 19 (-2))) * sqrt (125 * Q2R (dec 19 (-2))) = 25) by (rewrite E; lra).
      rewrite sqrt_sqrt in E'; unfold Q2R, dec in E' |- *; cbn in E' |- *; lra. }
  assert (Ps : 0 < Q2R (dec 1 (-23))) by (apply Q_pos; reflexivity).
  destruct H as (c' & E & Hr & _). { exists 5, (Q2R (dec 1 (-23))). split; [exact Fr|lra]. }
  rewrite Hc in E. injection E as <-. specialize (Hr _ _ Fr). unfold sigma_is in Hr. exists (Q2R (dec 1 (-23))).
  cbn [xs_load] in Hc. apply obind_ok in Hc as (dd & _ & Hc). injection Hc as <-. cbn [sigma findMaxSigmaV] in *.
  unfold data_max. unfold data_sigma in Hr. rewrite Hr. cbn [obind].
  match goal with |- context [max_step ?a ?b ?c] => destruct (max_step a b c) as [m w] eqn:Em; set (m0 := a) in Em end.
  exists m, w. split; [exact Hr|]. split; [exact Ps|]. split; [reflexivity|].
  unfold max_step in Em. unR. destruct (Rltb_spec (fst m0) (5 * Q2R (dec 1 (-23)))) as [L|L].
  - injection Em as <- _. lra.
  - rewrite Em in L. cbn [fst] in L. lra.
Qed.
Lemma run86 : exists s q vol st,
  initBinary reg doc86 FNull (map (shipped_prop val86) ps86) = Ok (r86, s) /\
  entry doc86 FNull r86 0 1 0 = Some x86 /\ nth_error (pair_sets s 0 1) 0 = Some q /\
  driver (N:=RNum) 1 2 true 1 (rcell vol) 3 (pair_sets s) [] [] keenG 0 = Ok st /\ s_log st = [(0, 1, (0, 1), 0%Z)]%nat.
Proof.
  destruct (loads86 FNull) as (s & Hinit).
  destruct (pairs86 s Hinit 0 0 ltac:(lia)) as (x00 & q00 & _ & E00 & F00 & I00 & _).
  destruct (pairs86 s Hinit 1 1 ltac:(lia)) as (x11 & q11 & _ & E11 & F11 & I11 & _).
  destruct (pairs86 s Hinit 0 1 ltac:(lia)) as (x01 & q01 & P01 & E01 & F01 & I01 & S01).
  assert (x00 = []) as -> by (destruct x00 as [|x l]; [reflexivity|exfalso; destruct (proj1 (I00 x) (or_introl eq_refl)) as [_ Hb]; exact (not_belongs86 0 Hb)]).
  assert (x11 = []) as -> by (destruct x11 as [|x l]; [reflexivity|exfalso; destruct (proj1 (I11 x) (or_introl eq_refl)) as [_ Hb]; exact (not_belongs86 1 Hb)]).
  assert (x01 = [x86]) as -> by (apply singleton86; [exact S01|]; intros x; rewrite I01; split; [tauto|intros ->; split; [reflexivity|exact belongs86]]).
  assert (G00 : pair_sets s 0 0 = []) by (rewrite E00; inversion F00; reflexivity). assert (G11 : pair_sets s 1 1 = []) by (rewrite E11; inversion F11; reflexivity).
  inversion F01 as [|x q l l' L F' Q2 Q3]; subst q01. inversion F'; subst l'. symmetry in Q3.
  assert (Hq : nth_error (pair_sets s 0 1) 0 = Some q) by (rewrite Q3; reflexivity).
  assert (Ex : entry doc86 FNull r86 0 1 0 = Some x86) by (unfold entry; rewrite P01; reflexivity).
  assert (Hpos : forall p, In p r86 -> 0 < pr_mass p).
  { intros p Hp. apply (gas_pos _ _ _ _ _ _ gas86). rewrite <- sort86 in Hp. eapply Permutation_in; [apply Permutation_sym, sort_perm|exact Hp]. }
  pose proof L as (pA & pB & Lx & HA & HB & _ & _ & _ & _ & Hmu & _).
  injection HA as <-. injection HB as <-. cbn [pr_mass shipped_prop] in Hmu. destruct mass86 as (M1 & M2 & M3). rewrite M1, M2 in Hmu.
  destruct (cs_case _ _ _ _ _ _ _ _ _ _ _ _ _ Lx) as (lab & dc & Ecs & El). rewrite Hmu in El. 
  change (xi_cs x86) with (Some (Some "data"%string, DData (map (loaded_row val86) tab37))) in Ecs. injection Ecs as _ <-.
  destruct (table86 _ El) as (sg & m & w & Esg & Psg & Em & Pm).
  assert (HeV : 0 < val86 "eV") by (rewrite eV86; lra).
  destruct (kec_reaction val86 (fun _ => 1) (fun _ => []) (fun _ => (""%string, ""%string)) doc86 ps86 gas86 HeV fuel true 0%R 0%R tol86 solve86 2%R (fun _ => Ok []) false false FNull r86 s Hinit 0 1 0 q x86 (Q2R (dec 19 (-2)) * val86 "eV") Hq Ex eq_refl) as [Pe He].
  assert (Hre : is_reaction q = true). { unfold energy_given in He. destruct (is_reaction q); [reflexivity|]. exfalso. lra. }
  assert (Hlo : exists th, loaded_reaction (mass_of r86) (charge_of r86) 0 1 (xi_kec x86) th q).
  { destruct (model_cases _ _ _ _ _ _ _ _ _ _ _ _ _ Lx) as [E|[(al & E & _)|(th & _ & E)]]; [unfold is_reaction in Hre; rewrite E in Hre; discriminate|discriminate|].
    exists th. eapply (loaded_gas fuel true 0%R 0%R tol86 solve86 2%R (fun _ => Ok []) false false r86 Hpos 0 1 _ q L); [|left; reflexivity|exact E].
    apply (gas_plain _ _ _ _ _ _ gas86); [apply doc_nth; reflexivity|]. eapply source_among; [exact Hinit|exact belongs86]. }
  destruct Hlo as (th & Hlo).
  destruct (one_run 1 (mass_of r86) (charge_of r86) (xi_kec x86) th sg m w q (pair_sets s) 3 Hlo Esg Psg Em Pm G00 Q3 G11 ltac:(lia)) as (st & Hr & Hl).
  exists s, q, (4 * m / 5), st. auto.
Qed.
End Run86.
