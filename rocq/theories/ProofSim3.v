(** Proofs about examples/simtest: the driver call. *)
From Coq Require Import Reals Qreals Lra Lia String Ascii ZArith QArith Bool Arith Sorted Permutation List.
From Verif Require Import Base Num ModelTerm ModelCollide ModelFactories ModelXsec ModelSet ModelEq ModelFilter ModelDB ModelMisc ModelShippedTables ModelShipped ModelSim
  SpecTerm SpecPhys SpecFactories SpecXsec SpecSet SpecEq SpecFilter SpecDB SpecMore SpecRun SpecInit SpecLoadable SpecShipped SpecSim
  ProofCollide ProofXsec ProofData ProofInelastic ProofThr ProofFilter ProofFilter3 ProofDB ProofDB3 ProofDriver2 ProofDriver5 ProofInit ProofInit2 ProofShipped ProofShipped2 ProofShipped3 ProofMisc ProofSelect ProofTop3 ProofSim ProofSim2.
From Coq Require Import List.
Import ListNotations.
Local Open Scope R_scope.

(** ** Bounds on the measured velocities *)
Definition boxed (V : R) (v : vec RNum) : Prop := Rabs (vx v) <= V /\ Rabs (vy v) <= V /\ Rabs (vz v) <= V.
Lemma min_boxed V (a b : R) : Rabs a <= V -> Rabs b <= V -> Rabs (nmin (N:=RNum) a b) <= V.
Proof. intros Ha Hb. unfold nmin. destruct (_ <? _)%num; assumption. Qed.
Lemma max_boxed V (a b : R) : Rabs a <= V -> Rabs b <= V -> Rabs (nmax (N:=RNum) a b) <= V.
Proof. intros Ha Hb. unfold nmax. destruct (_ <? _)%num; assumption. Qed.
Lemma extrema_boxed V vs : 0 <= V -> (forall v, In v vs -> boxed V v) -> boxed V (fst (cell_extrema (N:=RNum) vs)) /\ boxed V (snd (cell_extrema (N:=RNum) vs)).
Proof.
  intros HV H. unfold cell_extrema.
  assert (Z : boxed V (@vzero RNum)) by (unfold boxed, vzero; cbn [vx vy vz]; change (@n0 RNum) with 0; rewrite Rabs_R0; auto).
  assert (G : forall vs d0, (forall v, In v vs -> boxed V v) -> boxed V (fst d0) -> boxed V (snd d0) ->
    let d := fold_left (fun d v => (vmin2 (N:=RNum) (fst d) v, vmax2 (snd d) v)) vs d0 in boxed V (fst d) /\ boxed V (snd d)).
  { clear. induction vs as [|v vs IH]; intros d0 H H1 H2; cbn [fold_left]; [auto|]. apply IH; [intros w Hw; apply H; now right|..].
    - destruct H1 as (A & B & C). destruct (H v (or_introl eq_refl)) as (A' & B' & C'). cbn [fst]. unfold boxed, vmin2. cbn [vx vy vz]. repeat split; apply min_boxed; assumption.
    - destruct H2 as (A & B & C). destruct (H v (or_introl eq_refl)) as (A' & B' & C'). cbn [snd]. unfold boxed, vmax2. cbn [vx vy vz]. repeat split; apply max_boxed; assumption. }
  apply G; assumption.
Qed.
Lemma abs_inv u V : Rabs u <= V -> - V <= u <= V.
Proof. intros H. split_Rabs; lra. Qed.
Lemma abs_boxed V (a b : vec RNum) : 0 <= V -> boxed V a -> boxed V b -> 0 <= (vabs (vsub a b) : R) /\ (vabs (vsub a b) : R) ^ 2 <= 12 * V ^ 2.
Proof.
  intros HV (A1 & A2 & A3) (B1 & B2 & B3). destruct a as [x y z], b as [x' y' z']. cbn [vx vy vz] in *.
  change (T RNum) with R in *. unfold vabs, vsqr, vsub, sqr. cbn [vx vy vz]. unR.
  set (q := _ + _). assert (Hq : 0 <= q <= 12 * V ^ 2).
  { assert (S : forall u w, Rabs u <= V -> Rabs w <= V -> 0 <= (u - w) * (u - w) <= 4 * V ^ 2).
    { intros u w Hu Hw. apply abs_inv in Hu, Hw. split; [apply Rle_0_sqr|].
      assert (0 <= (2 * V - (u - w)) * (2 * V + (u - w))) by (apply Rmult_le_pos; lra). cbn [pow]. lra. }
    pose proof (S x x' A1 B1). pose proof (S y y' A2 B2). pose proof (S z z' A3 B3). unfold q. lra. }
  split; [apply sqrt_pos|]. cbn [pow]. rewrite Rmult_1_r, sqrt_sqrt by lra. lra.
Qed.
Lemma maxv_boxed V a b : 0 <= V -> boxed V (fst a) -> boxed V (snd a) -> boxed V (fst b) -> boxed V (snd b) ->
  0 <= (maxRelativeVelocity (N:=RNum) a b : R) /\ (maxRelativeVelocity (N:=RNum) a b : R) ^ 2 <= 12 * V ^ 2.
Proof.
  intros HV A1 A2 B1 B2. unfold maxRelativeVelocity, nmax. destruct (_ <? _)%num; apply abs_boxed; assumption.
Qed.
Lemma firstn_in {A} (l : list A) n x : In x (firstn n l) -> In x l.
Proof. revert l. induction n as [|n IH]; intros [|y l]; cbn; try tauto. intros [->|H]; auto. Qed.
Lemma skipn_in {A} (l : list A) n x : In x (skipn n l) -> In x l.
Proof. revert l. induction n as [|n IH]; intros [|y l]; cbn; try tauto. intros H. auto. Qed.
Lemma cell_boxed V mem rs A B : 0 <= V -> (forall p, In p mem -> boxed V (p_vel p)) ->
  0 <= (c_maxv (sim_cell (N:=RNum) n1 mem rs) A B : R) /\ (c_maxv (sim_cell (N:=RNum) n1 mem rs) A B : R) ^ 2 <= 12 * V ^ 2.
Proof.
  intros HV H. cbn [c_maxv sim_cell].
  assert (M : forall A, boxed V (fst (measured mem rs A)) /\ boxed V (snd (measured mem rs A))).
  { intros C. unfold measured. destruct (nth_error rs C) as [rg|].
    - apply extrema_boxed; [exact HV|]. intros v Hv. apply in_map_iff in Hv as (p & <- & Hp). apply H. eapply skipn_in, firstn_in; exact Hp.
    - cbn. unfold boxed, vzero. cbn [vx vy vz]. change (@n0 RNum) with 0. rewrite Rabs_R0. auto. }
  destruct (M A), (M B). now apply maxv_boxed.
Qed.

Section Run.
Variables (fuel : nat) (allowed : bool) (inf ninf : RNum) (tol : RNum -> RNum -> bool)
  (solve : (RNum -> RNum) -> RNum -> RNum -> RNum * RNum) (finf : RNum)
  (parse : string -> outcome (list (expr RNum))) (fcm fcq : bool).
Notation reg := (default_reg (N:=RNum) fuel allowed inf ninf tol solve (setParticleFactories (N:=RNum) finf) parse fcm fcq).
Variables (val : string -> R) (ginv : R -> R) (path : nat -> list string) (text : nat -> string * string) (d : document RNum).
Hypothesis Hdata : sim_data val ginv path text d.
Notation props := (map (shipped_prop val) sim_particles).
Variables (r : list (prop RNum)) (s : sets RNum).
Hypothesis Hinit : sim_database reg d = Ok (r, s).
Notation Hi := (sim_init fuel allowed inf ninf tol solve finf parse fcm fcq val ginv path text d Hdata r s Hinit).
Notation Hg := (sim_gas val ginv path text d Hdata).

(** The j-th equation of a pair. *)
Lemma sim_channel A B q : In q (pair_sets s A B) -> (A <= B)%nat /\ exists pA pB k i,
  nth_error r A = Some pA /\ nth_error r B = Some pB /\ sim_kept k i /\ load_equation reg r (sx val ginv path text k i) = Ok q /\
  written_as A B (pr_name pA) (pr_name pB) (si_in i) /\ e_mu (q_core q) = ReducedMass (pr_mass pA) (pr_mass pB).
Proof.
  intros Hq. pose proof Hq as Hq'. apply In_nth_error in Hq as (j & Hj).
  destruct (channel val ginv path text d sim_particles Hg fuel allowed inf ninf tol solve finf parse fcm fcq sim_filter r s Hi A B j q Hj) as (L & x & _ & _ & _ & _ & Lf).
  split; [exact L|]. destruct Lf as (pA & pB & _ & HA & HB & _).
  destruct (sim_pair fuel allowed inf ninf tol solve finf parse fcm fcq val ginv path text d Hdata r s Hinit A B pA pB L HA HB) as (xs & qs & Eq & HF & _ & Hx).
  rewrite Eq in Hq'. assert (X : exists x0, In x0 xs /\ load_equation reg r x0 = Ok q).
  { clear -HF Hq'. induction HF as [|x0 q0 xs qs H0 HF IH]; [destruct Hq'|]. destruct Hq' as [<-|Hq']; [exists x0; split; [now left|exact H0]|].
    destruct (IH Hq') as (y & Hy & E). exists y. split; [now right|exact E]. }
  destruct X as (x0 & Ix & E). pose proof (proj1 (Hx x0) Ix) as (k & i & Hk & -> & W). exists pA, pB, k, i. do 5 (split; [assumption|]).
  assert (LB : (B < length r)%nat) by (apply nth_error_Some; congruence).
  assert (Lf : loads_for reg r A B (sx val ginv path text k i) q).
  { apply (pair_equation (fun _ => True) reg d sim_filter props r s ProofOrder.R_mass_order); [apply List.Forall_forall; intros; exact I|apply (gas_unique _ _ _ _ _ _ Hg)|exact Hi|split; [exact L|exact LB]| |exact E].
    apply (kept_iff fuel allowed inf ninf tol solve finf parse fcm fcq val ginv path text d Hdata r s Hinit A B pA pB); [assumption|assumption|]. exists k, i. auto. }
  destruct Lf as (pA' & pB' & _ & HA' & HB' & _ & _ & _ & _ & Em & _). rewrite HA in HA'. injection HA' as <-. rewrite HB in HB'. injection HB' as <-. exact Em.
Qed.
Lemma sim_mass p : In p r -> 0 < pr_mass p.
Proof.
  intros Hp. apply (gas_pos _ _ _ _ _ _ Hg). eapply Permutation_in; [|exact Hp]. apply Permutation_sym.
  exact (sim_perm fuel allowed inf ninf tol solve finf parse fcm fcq val ginv path text d Hdata r s Hinit).
Qed.
Lemma kept_positive k i : sim_kept k i -> positive (si_in i).
Proof. intros [[-> ->]|[[-> ->]|[[-> ->]|[-> ->]]]]; cbn [si_in]; repeat constructor; cbn; lia. Qed.
Lemma kept_model k i q : sim_kept k i -> load_equation reg r (sx val ginv path text k i) = Ok q -> q_model q = MElastic (e_mu (q_core q)).
Proof.
  intros Hk E. destruct (ProofEq3.load_equation_core _ _ _ _ E) as (same & Ec & ld & Er & Em & _). destruct (kept_cand k i Hk) as (Es & _).
  assert (S : same = true).
  { apply (ProofEq3.same_loaded (fun _ => True) ProofOrder.R_mass_order r) with (e := q_core q) (same := same) (2 := Ec); [apply List.Forall_forall; intros; exact I|now apply (kept_positive k)|].
    cbn [xi_in xi_out sx shipped_x]. unfold sides_agree. rewrite Es. split; [tauto|auto]. }
  subst same. unfold model_label in Er. cbn [xi_model sx shipped_x] in Er. cbn in Er. injection Er as <-. now injection Em as <-.
Qed.
Lemma kept_xs k i q : sim_kept k i -> load_equation reg r (sx val ginv path text k i) = Ok q ->
  exists dc, xs_load (N:=RNum) fuel allowed inf ninf tol solve (e_mu (q_core q)) dc = Ok (q_cs q) /\
    ((k <> 126%nat /\ ((exists v, dc = DConstant (N:=RNum) v None) \/ exists v, dc = DVHS (N:=RNum) v None)) \/
     (k = 126%nat /\ dc = DData (N:=RNum) (map (fun x => (QEnergy (N:=RNum) (Q2R (fst x) * val "eV"%string)%R, Q2R (snd x))) tab126))).
Proof.
  intros Hk E. destruct (cs_case _ _ _ _ _ _ _ _ _ _ _ _ _ E) as (l & dc & Ecs & El). exists dc. split; [exact El|].
  destruct Hk as [[-> ->]|[[-> ->]|[[-> ->]|[-> ->]]]]; cbn [xi_cs sx shipped_x si_cs shipped_cs] in Ecs; injection Ecs as _ <-.
  - left. split; [discriminate|]. right. eauto.
  - left. split; [discriminate|]. right. eauto.
  - right. split; reflexivity.
  - left. split; [discriminate|]. left. eauto.
Qed.
Lemma tab126_end : In (ModelShippedTables.dec 1 3, ModelShippedTables.dec 1274 (-23)) tab126.
Proof. apply (nth_error_In _ (length tab126 - 1)). vm_compute. reflexivity. Qed.
Lemma channel_safe A B q K inplace : In q (pair_sets s A B) -> safe_eq (N:=RNum) K inplace q /\ appends (q_model q).
Proof.
  intros Hq. destruct (sim_channel A B q Hq) as (_ & pA & pB & k & i & HA & HB & Hk & E & W & Em). rewrite (kept_model k i q Hk E). split; [|exact I]. split.
  - intros v. destruct (kept_xs k i q Hk E) as (dc & El & [[_ [[w ->]|[w ->]]]|[_ ->]]); cbn [xs_load] in El.
    + apply obind_ok in El as ([e t] & _ & El). injection El as <-. discriminate.
    + apply obind_ok in El as ([e t] & _ & El). injection El as <-. discriminate.
    + apply obind_ok in El as (dd & Ed & El). injection El as <-. unfold data_init in Ed. apply obind_ok in Ed as (t' & Et & Ed). apply obind_ok in Ed as ([[[C a] b] v0] & _ & Ed). injection Ed as <-.
      cbn [sigma]. apply eval_def. cbn [d_table]. now apply check_nonempty in Et.
  - intros p1 p2 l g k0. destruct (ProofInelastic.elastic_out_in (e_mu (q_core q)) p1 p2 l g k0) as (q1 & q2 & E1 & E2 & _). rewrite (kept_model k i q Hk E). destruct inplace; [rewrite E1|rewrite E2]; discriminate.
Qed.
Lemma me_named p : In p r -> pr_name p = "e^-"%string -> pr_mass p = val "m_e"%string.
Proof.
  intros Hp E. apply (Permutation_in p (Permutation_sym (sim_perm fuel allowed inf ninf tol solve finf parse fcm fcq val ginv path text d Hdata r s Hinit))) in Hp.
  apply in_map_iff in Hp as (sp & <- & Hsp). cbn in Hsp. destruct Hsp as [<-|[<-|[<-|[<-|[<-|[]]]]]]; try discriminate. cbn. lra.
Qed.
Lemma ar_named p : In p r -> pr_name p = "Ar"%string -> pr_mass p = val "element::Ar::mass"%string.
Proof.
  intros Hp E. apply (Permutation_in p (Permutation_sym (sim_perm fuel allowed inf ninf tol solve finf parse fcm fcq val ginv path text d Hdata r s Hinit))) in Hp.
  apply in_map_iff in Hp as (sp & <- & Hsp). cbn in Hsp. destruct Hsp as [<-|[<-|[<-|[<-|[<-|[]]]]]]; try discriminate. cbn. lra.
Qed.
Lemma channel_max A B q K V v : In q (pair_sets s A B) -> 0 <= v -> v ^ 2 <= 12 * V ^ 2 ->
  val "m_e"%string * val "element::Ar::mass"%string / (val "m_e"%string + val "element::Ar::mass"%string) * (12 * V ^ 2) / 2 <= 1000 * val "eV"%string ->
  exists m, findMaxSigmaV (N:=RNum) K (q_cs q) v = Ok m.
Proof.
  intros Hq Hv HV Ht. destruct (sim_channel A B q Hq) as (_ & pA & pB & k & i & HA & HB & Hk & E & W & Em).
  destruct (kept_xs k i q Hk E) as (dc & El & [[_ [[w ->]|[w ->]]]|[-> ->]]); cbn [xs_load] in El.
  - apply obind_ok in El as ([e t] & _ & El). injection El as <-. cbn. eauto.
  - apply obind_ok in El as ([e t] & _ & El). injection El as <-. cbn [findMaxSigmaV]. destruct (_ <=? _)%num; [|eauto]. cbn. eauto.
  - apply obind_ok in El as (dd & Ed & El). injection El as <-. unfold data_init in Ed. apply obind_ok in Ed as (t' & Et & Ed). apply obind_ok in Ed as ([[[C a] b] v0] & _ & Ed). injection Ed as <-.
    cbn [findMaxSigmaV]. apply max_def. cbn [d_table].
    apply (kept_pair fuel allowed inf ninf tol solve finf parse fcm fcq val ginv path text d Hdata r s Hinit A B pA pB _ i HA HB Hk) in W.
    destruct W as [[W _]|[[W _]|[[_ W]|[W _]]]]; try discriminate W.
    assert (Mu : (rm_value (e_mu (q_core q)) : R) = val "m_e"%string * val "element::Ar::mass"%string / (val "m_e"%string + val "element::Ar::mass"%string) /\ 0 < (rm_value (e_mu (q_core q)) : R)).
    { rewrite Em. assert (IA := nth_error_In _ _ HA). assert (IB := nth_error_In _ _ HB). pose proof (sim_mass _ IA) as PA. pose proof (sim_mass _ IB) as PB. split; [|now apply mu_pos]. rewrite rm_val.
      destruct W as [[N1 N2]|[N1 N2]].
      - rewrite (me_named _ IA N1), (ar_named _ IB N2). reflexivity.
      - rewrite (ar_named _ IA N1), (me_named _ IB N2). rewrite Rmult_comm, Rplus_comm. reflexivity. }
    destruct Mu as [Mu Mp]. destruct (load_spec (e_mu (q_core q)) (map (fun x => (QEnergy (N:=RNum) (Q2R (fst x) * val "eV"%string)%R, Q2R (snd x))) tab126) Mp) as [Inc _].
    apply (check_reaches v _ _ Inc Et). eapply load_reaches; [exact Mp| |exact Hv|].
    + apply in_map_iff. eexists. split; [reflexivity|]. exact tab126_end.
    + cbn [fst]. replace (Q2R (ModelShippedTables.dec 1 3)) with 1000 by (unfold ModelShippedTables.dec, Q2R; cbn; lra).
      eapply Rle_trans; [|exact Ht]. rewrite <- Mu. unfold Rdiv. apply Rmult_le_compat_r; [lra|]. apply Rmult_le_compat_l; [lra|exact HV].
Qed.

Lemma kept_same A B pA pB k i k' i' : nth_error r A = Some pA -> nth_error r B = Some pB -> sim_kept k i -> sim_kept k' i' ->
  written_as A B (pr_name pA) (pr_name pB) (si_in i) -> written_as A B (pr_name pA) (pr_name pB) (si_in i') -> k' = k /\ i' = i.
Proof.
  intros HA HB Hk Hk' W W'.
  apply (kept_pair fuel allowed inf ninf tol solve finf parse fcm fcq val ginv path text d Hdata r s Hinit A B pA pB k i HA HB Hk) in W.
  apply (kept_pair fuel allowed inf ninf tol solve finf parse fcm fcq val ginv path text d Hdata r s Hinit A B pA pB k' i' HA HB Hk') in W'.
  assert (k' = k). { clear -W W'. intuition congruence. }
  subst k'. split; [reflexivity|]. pose proof (kept_nth k i Hk) as N1. rewrite (kept_nth k i' Hk') in N1. now injection N1.
Qed.
Lemma pair_single A B : (length (pair_sets s A B) <= 1)%nat.
Proof.
  destruct (pair_sets s A B) as [|q l] eqn:Eq; [cbn; lia|]. assert (Hq : In q (pair_sets s A B)) by (rewrite Eq; now left).
  destruct (sim_channel A B q Hq) as (L & pA & pB & k & i & HA & HB & Hk & _ & W & _).
  destruct (sim_pair fuel allowed inf ninf tol solve finf parse fcm fcq val ginv path text d Hdata r s Hinit A B pA pB L HA HB) as (xs & qs & E & HF & ND & Hx).
  rewrite Eq in E. subst qs. assert (U : forall x, In x xs -> x = sx val ginv path text k i).
  { intros x Ix. apply Hx in Ix as (k' & i' & Hk' & -> & W'). destruct (kept_same A B pA pB k i k' i' HA HB Hk Hk' W W') as [-> ->]. reflexivity. }
  assert (Le : length xs = length (q :: l)) by (clear -HF; induction HF; [reflexivity|cbn; now f_equal]). rewrite <- Le.
  destruct xs as [|x [|y xs]]; [cbn; lia|cbn; lia|].
  exfalso. rewrite (U x (or_introl eq_refl)), (U y (or_intror (or_introl eq_refl))) in ND. inversion ND as [|? ? Hn _]; subst. apply Hn. now left.
Qed.

(** ** The driver call *)
Lemma sim_undefined K rfuel dt ps g k : rng_ok g -> slow val ps -> (Z.of_nat (length ps) < 2 ^ 31)%Z ->
  (forall p, In p ps -> (0 <= p_species p < Z.of_nat (length r))%Z) ->
  (sim_run (N:=RNum) K rfuel dt (length r) (pair_sets s) ps g k = UB <-> exists n, In n ["87Rb"; "Ar"; "e^-"; "Hg"]%string /\ missing r ps n).
Proof.
  intros Hrg (V & Hbox & Htab) Hlen Hsp. cbv zeta in Htab.
  assert (Lr : length r = 5%nat).
  { rewrite <- (Permutation_length (sim_perm fuel allowed inf ninf tol solve finf parse fcm fcq val ginv path text d Hdata r s Hinit)). reflexivity. }
  destruct (proj2 (sort_defined (length r) ps)) as ([mem rs] & Es); [split; [lia|exact Hsp]|]. unfold sim_run. rewrite Es. cbn [obind].
  destruct (sort_cell _ _ _ _ Es Hlen) as (Bd & Dj & Mm & Mt & _). destruct (sort_sorted _ _ _ _ Es) as (Pm & Ll & _).
  assert (HV : exists V, 0 <= V /\ (forall p, In p mem -> boxed V (p_vel p)) /\
     val "m_e"%string * val "element::Ar::mass"%string / (val "m_e"%string + val "element::Ar::mass"%string) * (12 * V ^ 2) / 2 <= 1000 * val "eV"%string).
  { destruct mem as [|p0 mem'].
    - exists 0. split; [lra|]. split; [intros p []|]. pose proof (proj1 (proj2 (proj2 Hdata))). nra.
    - exists V. split; [|split; [|exact Htab]].
      + destruct (Hbox p0) as [H _]; [eapply Permutation_in; [exact Pm|now left]|]. pose proof (Rabs_pos (vx (p_vel p0))). eapply Rle_trans; eassumption.
      + intros p Hp. apply Hbox. eapply Permutation_in; eassumption. }
  clear V Hbox Htab. destruct HV as (V & HV & Hbox & Htab).
  rewrite (driver_ub K rfuel false dt (sim_cell n1 mem rs) (length r) (pair_sets s) [] [] g k (2 ^ 31)%Z); cbn [c_ranges c_mem sim_cell].
  - rewrite Ll, Nat.min_id. unfold empty_needed. split.
    + intros (A & B & rg & L & Hne & Hr & Z0).
      destruct (pair_sets s A B) as [|q l] eqn:Eq; [congruence|]. assert (Hq : In q (pair_sets s A B)) by (rewrite Eq; now left).
      destruct (sim_channel A B q Hq) as (_ & pA & pB & k0 & i & HA & HB & Hk & _ & W & _).
      assert (Cn : sim_collide (pr_name pA) (pr_name pB)) by (apply (pair_names fuel allowed inf ninf tol solve finf parse fcm fcq val ginv path text d Hdata r s Hinit A B pA pB HA HB); eauto).
      assert (F : In (pr_name pA) ["87Rb"; "Ar"; "e^-"; "Hg"]%string /\ In (pr_name pB) ["87Rb"; "Ar"; "e^-"; "Hg"]%string).
      { unfold sim_collide, sim_pairs in Cn. cbn [In] in Cn. destruct Cn as [[C|[C|[C|[C|[]]]]]|[C|[C|[C|[C|[]]]]]]; injection C as <- <-; cbn [In]; auto 9. }
      destruct Hr as [Hr|Hr]; pose proof (proj1 (Mt _ _ Hr) Z0) as NO; [exists (pr_name pA)|exists (pr_name pB)]; (split; [apply F|]); [exists A, pA|exists B, pB]; auto.
    + intros (n & Hn & (A & p & HA & En & NO)).
      assert (LA : (A < length r)%nat) by (apply nth_error_Some; congruence).
      destruct (nth_error rs A) as [rg|] eqn:ER; [|apply nth_error_None in ER; lia]. pose proof (proj2 (Mt A rg ER) NO) as Z0.
      assert (Part : exists m, In m five /\ sim_collide n m).
      { cbn [In] in Hn. unfold sim_collide, sim_pairs. cbn [In]. destruct Hn as [<-|[<-|[<-|[<-|[]]]]]; [exists "87Rb"%string|exists "Ar"%string|exists "Ar"%string|exists "e^-"%string]; (split; [cbn; auto 9|auto 9]). }
      destruct Part as (m & Hm & Cm). destruct (sim_index fuel allowed inf ninf tol solve finf parse fcm fcq val ginv path text d Hdata r s Hinit m Hm) as (B & pB & HB & EB).
      assert (LB : (B < length r)%nat) by (apply nth_error_Some; congruence).
      assert (Ne : forall A' B' pA' pB', (A' <= B')%nat -> nth_error r A' = Some pA' -> nth_error r B' = Some pB' -> sim_collide (pr_name pA') (pr_name pB') -> pair_sets s A' B' <> []).
      { intros A' B' pA' pB' L' HA' HB' Cn. destruct (sim_pair fuel allowed inf ninf tol solve finf parse fcm fcq val ginv path text d Hdata r s Hinit A' B' pA' pB' L' HA' HB') as (xs & qs & Eq & HF & _ & Hx).
        apply (pair_names fuel allowed inf ninf tol solve finf parse fcm fcq val ginv path text d Hdata r s Hinit A' B' pA' pB' HA' HB') in Cn as (k0 & i & Hk & W).
        assert (Ix : In (sx val ginv path text k0 i) xs) by (apply Hx; eauto). rewrite Eq. destruct HF; [destruct Ix|discriminate]. }
      destruct (Nat.le_ge_cases A B) as [L|L].
      * exists A, B, rg. split; [lia|]. split; [apply (Ne A B p pB L HA HB); rewrite En, EB; exact Cm|]. auto.
      * exists B, A, rg. split; [lia|]. split; [apply (Ne B A pB p L HB HA); rewrite En, EB; unfold sim_collide in *; tauto|]. auto.
  - now apply rpos_total.
  - exact Bd.
  - discriminate.
  - exact Mm.
  - intros A B. split.
    + apply List.Forall_forall. intros q Hq. now apply (channel_safe A B).
    + intros _. destruct (cell_boxed V mem rs A B HV Hbox) as [C0 C1]. set (v := c_maxv (sim_cell (N:=RNum) n1 mem rs) A B) in *. clearbody v. unfold findMaxSigmaVProduct.
      assert (G : forall qs acc, (forall q, In q qs -> In q (pair_sets s A B)) -> exists m, ofold (fun sum i => do m <- findMaxSigmaV (N:=RNum) K (q_cs i) v; Ok (sum + fst m)%num) acc qs = Ok m).
      { induction qs as [|q qs IH]; intros acc Hqs; [cbn; eauto|]. cbn [ofold].
        destruct (channel_max A B q K V v (Hqs q (or_introl eq_refl)) C0 C1 Htab) as (m & ->). cbn [obind]. apply IH. intros q' H'. apply Hqs. now right. }
      exact (G _ _ (fun q H => H)).
Qed.
End Run.
