(** Proofs about examples/simtest: the driver call completes. *)
From Coq Require Import Reals Qreals Lra Lia String Ascii ZArith QArith Bool Arith Sorted Permutation List.
From Verif Require Import Base Num ModelTerm ModelCollide ModelFactories ModelXsec ModelSet ModelEq ModelFilter ModelDB ModelMisc ModelShippedTables ModelShipped ModelSim
  SpecTerm SpecPhys SpecFactories SpecXsec SpecSet SpecEq SpecFilter SpecDB SpecMore SpecRun SpecInit SpecLoadable SpecShipped SpecSim
  ProofCollide ProofXsec ProofData ProofInelastic ProofThr ProofFilter ProofFilter3 ProofDB ProofDB3 ProofDriver ProofDriver2 ProofDriver3 ProofDriver4 ProofDriver5 ProofInit ProofInit2 ProofShipped ProofShipped2 ProofShipped3 ProofMisc ProofSelect ProofTop3 ProofSim ProofSim2 ProofSim3.
From Coq Require Import List.
Import ListNotations.
Local Open Scope R_scope.

(** A set interacts if its cross sections are defined at the relative speed. *)
Lemma set_total_at {N : Num} (K : N) rhs msv (pA pB : particle N) l g k :
  (forall e, In e rhs -> (exists s, sigma K (q_cs e) (vabs (vsub (p_vel pA) (p_vel pB))) = Ok s) /\
     forall p q l g k, exists x, model_interact false (q_model e) p q l g k = Ok x) ->
  exists x, set_interact K false rhs msv pA pB l g k = Ok x.
Proof.
  intros H. unfold set_interact.
  assert (C : exists cs, channel_cs K rhs (vabs (vsub (p_vel pA) (p_vel pB))) = Ok cs /\ length cs = length rhs).
  { unfold channel_cs. clear -H. induction rhs as [|e rhs IH]; cbn [omap]; [exists []; auto|].
    destruct (proj1 (H e (or_introl eq_refl))) as (s & ->). cbn [obind]. destruct IH as (cs & -> & L); [intros e' He'; apply H; now right|].
    cbn [obind]. eexists. split; [reflexivity|]. cbn. congruence. }
  destruct C as (cs & Ec & Lc). unfold calculateOutPath. rewrite Ec. cbn [obind].
  destruct (_ <? _)%num; cbn [obind fst]; [eexists; reflexivity|].
  destruct (pick_valid cs (g_exc g (k + 1) * cs_total cs)%num n0 0%Z) as [->|(n & c & Hn & ->)]; cbn [obind fst]; [eexists; reflexivity|].
  replace (0 <=? 0 + Z.of_nat n)%Z with true by (symmetry; apply Z.leb_le; lia). rewrite Z.add_0_l, Nat2Z.id.
  assert (n < length cs)%nat by (apply nth_error_Some; rewrite Hn; discriminate).
  unfold oget. destruct (nth_error rhs n) as [e|] eqn:Ee; [|apply nth_error_None in Ee; lia]. cbn [obind].
  destruct (H e (nth_error_In _ _ Ee)) as [_ Hm].
  destruct (p_species pB <? p_species pA)%Z; [destruct (Hm pB pA l g (k + 2)%nat) as ([[[? ?] ?] ?] & ->)|destruct (Hm pA pB l g (k + 2)%nat) as ([[[? ?] ?] ?] & ->)]; cbn [obind]; eexists; reflexivity.
Qed.

Section Run.
Variables (fuel : nat) (allowed : bool) (inf ninf : RNum) (tol : RNum -> RNum -> bool)
  (solve : (RNum -> RNum) -> RNum -> RNum -> RNum * RNum) (finf : RNum)
  (parse : string -> outcome (list (expr RNum))) (fcm fcq : bool).
Notation reg := (default_reg (N:=RNum) fuel allowed inf ninf tol solve (setParticleFactories (N:=RNum) finf) parse fcm fcq).
Variables (val : string -> R) (ginv : R -> R) (path : nat -> list string) (text : nat -> string * string) (d : document RNum).
Hypothesis Hdata : sim_data val ginv path text d.
Variables (r : list (prop RNum)) (s : sets RNum).
Hypothesis Hinit : sim_database reg d = Ok (r, s).

Lemma channel_sigma A B q K V v : In q (pair_sets s A B) -> 0 <= v -> v ^ 2 <= 12 * V ^ 2 ->
  val "m_e"%string * val "element::Ar::mass"%string / (val "m_e"%string + val "element::Ar::mass"%string) * (12 * V ^ 2) / 2 <= 1000 * val "eV"%string ->
  exists x, sigma (N:=RNum) K (q_cs q) v = Ok x.
Proof.
  intros Hq Hv HV Ht.
  destruct (channel_max fuel allowed inf ninf tol solve finf parse fcm fcq val ginv path text d Hdata r s Hinit A B q K V v Hq Hv HV Ht) as (m & Em).
  destruct (sim_channel fuel allowed inf ninf tol solve finf parse fcm fcq val ginv path text d Hdata r s Hinit A B q Hq) as (_ & pA & pB & k & i & HA & HB & Hk & E & W & _).
  destruct (kept_xs fuel allowed inf ninf tol solve finf parse fcm fcq val ginv path text r k i q Hk E) as (dc & El & [[_ [[w ->]|[w ->]]]|[-> ->]]); cbn [xs_load] in El.
  - apply obind_ok in El as ([e t] & _ & El). injection El as El. rewrite <- El. cbn. eauto.
  - apply obind_ok in El as ([e t] & _ & El). injection El as El. rewrite <- El. cbn. eauto.
  - apply obind_ok in El as (dd & Ed & El). injection El as El. rewrite <- El in Em |- *. cbn [findMaxSigmaV sigma] in Em |- *.
    unfold data_max in Em. cbv zeta in Em. apply obind_ok in Em as (x & Ex & _). exists x. exact Ex.
Qed.

Lemma sim_completes K dt ps g k m : rng_ok g -> slow val ps -> (Z.of_nat (length ps) < 2 ^ 31)%Z ->
  (forall p, In p ps -> (0 <= p_species p < Z.of_nat (length r))%Z) ->
  (forall rg, (2 <= rsize rg)%nat -> (snd rg <= length ps)%nat -> fair g rg m) ->
  (forall n, In n ["87Rb"; "Ar"; "e^-"; "Hg"]%string -> ~ missing r ps n) ->
  exists f0, forall rfuel, (f0 <= rfuel)%nat -> exists st, sim_run (N:=RNum) K rfuel dt (length r) (pair_sets s) ps g k = Ok st.
Proof.
  intros Hrg (V & Hbox & Htab) Hlen Hsp Hfair Hno. cbv zeta in Htab.
  assert (Lr : length r = 5%nat).
  { rewrite <- (Permutation_length (sim_perm fuel allowed inf ninf tol solve finf parse fcm fcq val ginv path text d Hdata r s Hinit)). reflexivity. }
  destruct (proj2 (sort_defined (length r) ps)) as ([mem rs] & Es); [split; [lia|exact Hsp]|]. unfold sim_run. rewrite Es. cbn [obind].
  destruct (sort_cell _ _ _ _ Es Hlen) as (Bd & Dj & Mm & Mt & _). destruct (sort_sorted _ _ _ _ Es) as (Pm & Ll & _).
  assert (HV : exists V, 0 <= V /\ (forall p, In p mem -> boxed V (p_vel p)) /\
     val "m_e"%string * val "element::Ar::mass"%string / (val "m_e"%string + val "element::Ar::mass"%string) * (12 * V ^ 2) / 2 <= 1000 * val "eV"%string).
  { destruct mem as [|p0 mem'].
    - exists 0. split; [lra|]. split; [intros p []|]. pose proof (proj1 (proj2 (proj2 Hdata))). nra.
    - exists V. split; [|split; [|exact Htab]].
      + destruct (Hbox p0) as [H _]; [eapply Permutation_in; [exact Pm|now left]|]. pose proof (Rabs_pos (vx (p_vel p0))). eapply Rle_trans; eassumption.
      + intros p Hp. apply Hbox. eapply Permutation_in; eassumption. }
  clear V Hbox Htab. destruct HV as (V & HV & Hbox & Htab).
  apply (driver_total (N:=RNum) K dt (sim_cell n1 mem rs) (length r) (pair_sets s) [] [] g k m Mm); [|exact dec_R_stops].
  cbn [c_ranges c_mem sim_cell]. rewrite Ll, Nat.min_id. intros A B HAB Hne.
  assert (Hl : forall C, (C < length r)%nat -> exists rg, nth_error rs C = Some rg).
  { intros C HC. destruct (nth_error rs C) eqn:E; [eauto|]. apply nth_error_None in E. lia. }
  destruct (Hl A ltac:(lia)) as (ra & EA). destruct (Hl B ltac:(lia)) as (rb & EB).
  assert (Sz : (0 < rsize ra)%nat /\ (0 < rsize rb)%nat).
  { destruct (pair_sets s A B) as [|q l] eqn:Eq; [congruence|]. assert (Hq : In q (pair_sets s A B)) by (rewrite Eq; now left).
    destruct (sim_channel fuel allowed inf ninf tol solve finf parse fcm fcq val ginv path text d Hdata r s Hinit A B q Hq) as (_ & pA & pB & k0 & i & HA & HB & Hk & _ & W & _).
    assert (Cn : sim_collide (pr_name pA) (pr_name pB)) by (apply (pair_names fuel allowed inf ninf tol solve finf parse fcm fcq val ginv path text d Hdata r s Hinit A B pA pB HA HB); eauto).
    assert (F : In (pr_name pA) ["87Rb"; "Ar"; "e^-"; "Hg"]%string /\ In (pr_name pB) ["87Rb"; "Ar"; "e^-"; "Hg"]%string).
    { unfold sim_collide, sim_pairs in Cn. cbn [In] in Cn. destruct Cn as [[C|[C|[C|[C|[]]]]]|[C|[C|[C|[C|[]]]]]]; injection C as <- <-; cbn [In]; auto 9. }
    split.
    - destruct (Nat.eq_dec (rsize ra) 0) as [Z0|]; [|lia]. exfalso. apply (Hno _ (proj1 F)). exists A, pA. split; [exact HA|]. split; [reflexivity|]. exact (proj1 (Mt A ra EA) Z0).
    - destruct (Nat.eq_dec (rsize rb) 0) as [Z0|]; [|lia]. exfalso. apply (Hno _ (proj2 F)). exists B, pB. split; [exact HB|]. split; [reflexivity|]. exact (proj1 (Mt B rb EB) Z0). }
  destruct (cell_boxed V mem rs A B HV Hbox) as [C0 C1].
  assert (Mx : exists msv, findMaxSigmaVProduct (N:=RNum) K (pair_sets s A B) (c_maxv (sim_cell (N:=RNum) n1 mem rs) A B) = Ok msv).
  { set (v := c_maxv (sim_cell (N:=RNum) n1 mem rs) A B) in *. clearbody v. unfold findMaxSigmaVProduct.
    assert (G : forall qs acc, (forall q, In q qs -> In q (pair_sets s A B)) -> exists m, ofold (fun sum i => do m <- findMaxSigmaV (N:=RNum) K (q_cs i) v; Ok (sum + fst m)%num) acc qs = Ok m).
    { induction qs as [|q qs IH]; intros acc Hqs; [cbn; eauto|]. cbn [ofold].
      destruct (channel_max fuel allowed inf ninf tol solve finf parse fcm fcq val ginv path text d Hdata r s Hinit A B q K V v (Hqs q (or_introl eq_refl)) C0 C1 Htab) as (m0 & ->). cbn [obind]. apply IH. intros q' H'. apply Hqs. now right. }
    exact (G _ _ (fun q H => H)). }
  destruct Mx as (msv & Em). exists msv, ra, rb. split; [exact Em|]. split; [exact EA|]. split; [exact EB|]. split; [apply Sz|]. split; [apply Sz|]. split.
  - intros (ra' & rb' & EA' & EB' & Hen). rewrite EA in EA'. rewrite EB in EB'. injection EA' as <-. injection EB' as <-.
    assert (Bs : forall C rg, nth_error rs C = Some rg -> (0 < rsize rg)%nat -> (0 < Z.of_nat (rsize rg) < 2 ^ 31)%Z).
    { intros C rg EC P0. unfold bounded in Bd. rewrite List.Forall_forall in Bd. specialize (Bd rg (nth_error_In _ _ EC)). cbn beta in Bd. lia. }
    split; [apply rrand_pos; [assumption|now apply (Bs A)]|]. split; [apply rrand_pos; [assumption|now apply (Bs B)]|].
    destruct (Nat.eq_dec A B) as [Q|Q]; [right|left; intros p; eapply Dj; eassumption].
    apply Hfair; [|rewrite <- (Permutation_length Pm); now apply (Mm B)]. subst. rewrite Nat.eqb_refl in Hen. rewrite EA in EB. injection EB as <-. assumption.
  - intros i j pA pB l k0 HpA HpB _. apply set_total_at. intros q Hq. split.
    + destruct (abs_boxed V (p_vel pA) (p_vel pB) HV (Hbox _ (nth_error_In _ _ HpA)) (Hbox _ (nth_error_In _ _ HpB))) as [B0 B1].
      exact (channel_sigma A B q K V _ Hq B0 B1 Htab).
    + destruct (sim_channel fuel allowed inf ninf tol solve finf parse fcm fcq val ginv path text d Hdata r s Hinit A B q Hq) as (_ & pA' & pB' & k' & i' & _ & _ & Hk & E & _).
      rewrite (kept_model fuel allowed inf ninf tol solve finf parse fcm fcq val ginv path text r k' i' q Hk E).
      intros p1 p2 l' g' k1. destruct (ProofInelastic.elastic_out_in (e_mu (q_core q)) p1 p2 l' g' k1) as (q1 & q2 & _ & E2 & _). eexists. exact E2.
Qed.
End Run.
