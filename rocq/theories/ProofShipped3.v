(** Energy in a gas of shipped species. *)
From Coq Require Import Reals Qreals Lra Lia String Ascii ZArith QArith Bool Arith Sorted Permutation List.
From Verif Require Import Base Num ModelTerm ModelCollide ModelFactories ModelXsec ModelSet ModelEq ModelFilter ModelDB ModelShippedTables ModelShipped
  SpecTerm SpecPhys SpecFactories SpecXsec SpecSet SpecEq SpecFilter SpecDB SpecMore SpecRun SpecInit SpecLoadable SpecShipped
  ProofCollide ProofXsec ProofData ProofInelastic ProofThr ProofRun ProofRun2 ProofInit ProofInit2 ProofLoadable ProofShipped ProofShipped2.
From Coq Require Import List.
Import ListNotations.
Local Open Scope R_scope.

(** ** Cross sections that are never negative *)
Definition doc_nonneg (d : xs_doc RNum) : Prop :=
  match d with
  | DConstant v _ => 0 <= v
  | DVHS i _ => 0 <= vhs_cs i /\ 0 <= vhs_ginv i
  | DData rows => List.Forall (fun r => (exists e, fst r = QEnergy e) /\ 0 <= snd r) rows
  | _ => False
  end.
Lemma rpow_nonneg x y : 0 <= Rpow x y.
Proof. unfold Rpow. destruct (Req_EM_T x 0); [destruct (Req_EM_T y 0); lra|]. unfold Rpower. left. apply exp_pos. Qed.
Section Load.
Variables (K : R) (fuel : nat) (allowed : bool) (inf ninf : RNum) (tol : RNum -> RNum -> bool) (solve : (RNum -> RNum) -> RNum -> RNum -> RNum * RNum).
Notation load := (xs_load (N:=RNum) fuel allowed inf ninf tol solve).
Lemma data_nonneg (mu : reducedMass RNum) (t : table RNum) d v s : data_init (N:=RNum) fuel allowed t mu = Ok d -> increasing t -> nonneg_values t ->
  List.Forall (fun y => 0 <= fst y) t -> data_sigma (N:=RNum) d v = Ok s -> 0 <= s.
Proof.
  intros Hd Hi Hn Hk Hs.
  assert (Hsplit : exists zs, t = zs ++ d_table d).
  { clear -Hd. unfold data_init in Hd. apply obind_ok in Hd as (t' & Ec & Hd). apply obind_ok in Hd as ([[[? ?] ?] ?] & _ & Hd). injection Hd as <-. cbn [d_table].
    revert Ec. induction t as [|x t IH]; [discriminate|]. destruct t as [|y t].
    - cbn. destruct (Reqb _ _); [discriminate|]. intros [= <-]. now exists [].
    - change (checkThreshold (x :: y :: t)) with (if ((neqb (snd x) n0) && (neqb (snd y) n0))%bool then checkThreshold (y :: t) else Ok (x :: y :: t)).
      destruct (_ && _)%bool; [|intros [= <-]; now exists []]. intros E. destruct (IH E) as (zs & Ez). exists (x :: zs). exact (f_equal (cons x) Ez). }
  destruct Hsplit as (zs & Hz).
  assert (Hne : d_table d <> []) by (intros Et; unfold data_sigma in Hs; rewrite Et in Hs; discriminate).
  destruct (exists_last Hne) as (t0 & x0 & Et). rewrite Et in Hz.
  - pose proof Hi as Hi'. rewrite Hz in Hi'. destruct (incr_app _ _ Hi') as (_ & It & _).
    assert (Hn' : nonneg_values (t0 ++ [x0])) by (unfold nonneg_values in *; rewrite Hz in Hn; apply List.Forall_app in Hn; tauto).
    destruct (Rle_or_lt v (fst x0)) as [L|L].
    + destruct (tab_gives_total (t0 ++ [x0]) It t0 x0 v eq_refl L) as (s' & Hg).
      assert (E : data_sigma (N:=RNum) d v = Ok s') by (apply tab_gives_sigma; rewrite Et; assumption).
      rewrite E in Hs. injection Hs as <-. eapply tab_gives_nonneg; [exact Hn'|exact It|exact Hg].
    + destruct (tail_spec fuel allowed t mu d t0 x0 Hd Hi Hn Hk Et) as (T1 & T2 & T3).
      destruct (Req_EM_T (snd x0) 0) as [Z|Z]; [rewrite (T1 Z v L) in Hs; injection Hs as <-; lra|].
      destruct (Rle_or_lt 0 s) as [P|P]; [exact P|]. exfalso.
      assert (F : ~ (allowed = true /\ fittable (d_table d))).
      { intros [F1 F2]. destruct (T2 Z F1 F2 v (v + 1) L ltac:(lra)) as (sv & sw & E & _ & Hp). rewrite E in Hs. injection Hs as Hs. lra. }
      rewrite (T3 Z F v L) in Hs. discriminate.
Qed.
Lemma xs_nonneg (mu : reducedMass RNum) dc c : 0 < rm_value mu -> doc_nonneg dc -> load mu dc = Ok c ->
  (forall v s, sigma_is K c v s -> 0 <= s) /\ forall E, getThresholdEnergy c = Ok E -> 0 <= E.
Proof.
  intros Hmu Hd Hl.
  assert (Hthr : forall (t : option (quantity RNum)) (E w : R), setThresholdEnergy (N:=RNum) (loadThreshold t mu n0) mu = Ok (E, w) -> 0 <= E).
  { intros t E w. unfold setThresholdEnergy. unR. destruct (Rltb_spec (loadThreshold (N:=RNum) t mu 0) 0) as [|L]; [discriminate|]. intros [= <- _]. lra. }
  unfold sigma_is. destruct dc as [vl t|vl t|A B t|i t|rows|ps]; cbn [doc_nonneg] in Hd; try contradiction; cbn [xs_load] in Hl.
  - apply obind_ok in Hl as ([E w] & El & Hl). injection Hl as <-. split; cbn [sigma getThresholdEnergy].
    + intros v s [= <-]. unR. destruct (Rleb_spec w v); cbn in *; lra.
    + intros E' [= <-]. eapply Hthr; exact El.
  - apply obind_ok in Hl as ([E w] & El & Hl). injection Hl as <-. split; cbn [sigma getThresholdEnergy].
    + intros v s [= <-]. unR. destruct (Rltb_spec v w); [cbn in *; lra|]. unfold vhs_sigma. unR. destruct Hd as [H1 H2].
      apply Rmult_le_pos; [apply Rmult_le_pos; [exact H1|apply rpow_nonneg]|exact H2].
    + intros E' [= <-]. eapply Hthr; exact El.
  - apply obind_ok in Hl as (dd & Ed & Hl). injection Hl as <-. cbn [sigma getThresholdEnergy].
    destruct (load_spec mu rows Hmu) as [Hi Hin].
    assert (Hv : forall v s, In (v, s) (loadCrossSectionData (N:=RNum) mu rows) -> 0 <= v /\ 0 <= s).
    { intros v s H. apply Hin in H as (l & q & r & E & Hq & _). subst rows. apply List.Forall_elt in Hd as [(e & He) Hs]. cbn [fst snd] in *. subst q.
      split; [|exact Hs]. rewrite <- Hq. cbn [row_speed]. apply sqrt_pos. }
    split.
    + intros v s Hs. eapply data_nonneg; [exact Ed|exact Hi| | |exact Hs].
      * apply List.Forall_forall. intros [v' s'] H. cbn. now apply Hv in H.
      * apply List.Forall_forall. intros [v' s'] H. cbn. now apply Hv in H.
    + intros E. unfold data_thrE. destruct (d_table dd) as [|x tt]; [discriminate|]. intros [= <-].
      unfold data_init in Ed. apply obind_ok in Ed as (t' & Ec & Ed). apply obind_ok in Ed as ([[[? ?] ?] ?] & _ & Ed). injection Ed as <-. cbn [d_mu].
      unfold sqr. unR. apply Rmult_le_pos; [|apply Rle_0_sqr]. apply Rmult_le_pos; cbn in *; lra.
Qed.
End Load.

(** ** The shipped cross sections *)
Definition named (n : string) (i : ship_inter) : bool := existsb (fun t => String.eqb n (x_P t)) (si_in i ++ si_out i).
Definition nonneg_checked (i : ship_inter) : bool :=
  match si_cs i with
  | SData rows => forallb (fun r => Qle_bool 0 (snd r)) rows
  | SConstant v => Qle_bool 0 v
  | SVHS _ _ w => Qle_bool w 2
  | SNone => true
  | _ => (named "Xe" i && named "Xe^+" i) || (named "Cu" i && named "Cu^+" i)
  end.
Definition kec_checked (i : ship_inter) : bool :=
  match si_kec i with
  | None => true
  | Some q => negb (Qle_bool q 0) && existsb (fun t => negb (existsb (fun u => String.eqb (x_P t) (x_P u)) (si_in i))) (si_out i)
  end.
Definition lotz_checked (i : ship_inter) : bool :=
  match si_cs i with
  | SLotz ps => negb (Nat.eqb (length ps) 0) && forallb (fun r => let '(P, _, _, _, _) := r in negb (Qle_bool P 0)) ps
  | _ => true
  end.
Lemma all_energy_checked : forallb (fun i => nonneg_checked i && kec_checked i && lotz_checked i) shipped_interactions = true.
Proof. vm_compute. reflexivity. Qed.
Lemma vhs_values i : In i shipped_interactions -> match si_cs i with SVHS v _ _ => forall val, 0 <= v val | _ => True end.
Proof.
  assert (H : forallb (fun i => match si_cs i with SVHS _ _ _ => false | _ => true end) (skipn 3 shipped_interactions) = true) by (vm_compute; reflexivity).
  intros Hi. rewrite <- (firstn_skipn 3 shipped_interactions) in Hi. apply in_app_iff in Hi as [Hi|Hi].
  - destruct Hi as [<-|[<-|[<-|[]]]]; cbn [si_cs]; intros val; pose proof PI_RGT_0.
    + apply Rmult_le_pos; [lra|]. left. apply Rinv_0_lt_compat, pow_lt. lra.
    + apply Rmult_le_pos; [lra|apply pow2_ge_0].
    + apply Rmult_le_pos; [lra|apply pow2_ge_0].
  - rewrite forallb_forall in H. specialize (H i Hi). destruct (si_cs i); try exact I. discriminate.
Qed.
Lemma Q_nonneg q : Qle_bool 0 q = true -> 0 <= Q2R q.
Proof. intros H. apply Qle_bool_iff, Qle_Rle in H. replace (Q2R 0) with 0 in H by (unfold Q2R; cbn; lra). exact H. Qed.
Lemma Q_pos q : Qle_bool q 0 = false -> 0 < Q2R q.
Proof.
  intros H. assert (~ (q <= 0)%Q) by (intros K; apply Qle_bool_iff in K; congruence). apply Qnot_le_lt, Qlt_Rlt in H0.
  replace (Q2R 0) with 0 in H0 by (unfold Q2R; cbn; lra). exact H0.
Qed.

Section Energy.
Variables (val : string -> R) (ginv : R -> R) (path : nat -> list string) (text : nat -> string * string).
Variables (d : document RNum) (ps : list ship_particle).
Hypothesis Hgas : shipped_gas val ginv path text d ps.
Hypothesis HeV : 0 < val "eV"%string.
Hypothesis Hme : 0 < val "m_e"%string.
Hypothesis Hginv : forall y, 0 < y -> 0 <= ginv y.
Hypothesis Hno : no_log_lotz ps.
Notation props := (map (shipped_prop val) ps).
Lemma checks k i : nth_error shipped_interactions k = Some i -> nonneg_checked i = true /\ kec_checked i = true /\ lotz_checked i = true.
Proof.
  intros Hk. pose proof all_energy_checked as C. rewrite forallb_forall in C. specialize (C i (nth_error_In _ _ Hk)).
  apply andb_true_iff in C as [C C3]. apply andb_true_iff in C as [C1 C2]. auto.
Qed.
Lemma gas_data_ok : List.Forall data_ok (x_inter d).
Proof.
  destruct Hgas as (_ & _ & _ & ->). apply List.Forall_forall. intros x Hx. apply doc_inv in Hx as (k & i & Hk & ->).
  destruct (checks k i Hk) as (_ & _ & C). split; [|exact I]. cbn [xi_cs shipped_x]. unfold lotz_checked in C.
  destruct (si_cs i) as [|rows|v T w|v|v|A B|l]; cbn [shipped_cs doc_ok]; try exact I.
  - apply List.Forall_forall. intros r Hr. apply in_map_iff in Hr as (q & <- & _). exact I.
  - apply andb_true_iff in C as [C1 C2]. split; [destruct l; [discriminate C1|discriminate]|].
    apply List.Forall_forall. intros p Hp. apply in_map_iff in Hp as ([[[[P q] a] b] c] & <- & Hp). rewrite forallb_forall in C2. specialize (C2 _ Hp). cbn beta iota in C2.
    apply negb_true_iff, Q_pos in C2. unfold lotz_parse. cbn [lz_beta]. cbn. apply Rdiv_lt_0_compat; [exact Hme|]. apply Rmult_lt_0_compat; [lra|]. now apply Rmult_lt_0_compat.
Qed.
Lemma named_present n k i : among props (shipped_x val ginv path text k i) -> named n i = true -> present ps n.
Proof.
  intros [H1 H2] H. unfold named in H. apply existsb_exists in H as (t & Ht & E). apply String.eqb_eq in E. subst n.
  rewrite List.Forall_forall in H1, H2. cbn [xi_in xi_out shipped_x] in *.
  assert (K : known props t) by (apply in_app_iff in Ht as [Ht|Ht]; auto). unfold known in K. rewrite map_map in K.
  apply in_map_iff in K as (p & E & Hp). exists p. split; [exact Hp|exact E].
Qed.
Lemma gas_nonneg x : In x (x_inter d) -> among props x -> match xi_cs x with Some (_, c) => doc_nonneg c | None => True end.
Proof.
  pose proof Hgas as (_ & _ & _ & Hd). rewrite Hd. intros Hx Ha. apply doc_inv in Hx as (k & i & Hk & ->).
  destruct (checks k i Hk) as (C & _). pose proof (vhs_values i (nth_error_In _ _ Hk)) as V. unfold nonneg_checked in C. cbn [xi_cs shipped_x].
  assert (Bad : ((named "Xe" i && named "Xe^+" i) || (named "Cu" i && named "Cu^+" i))%bool = true -> False).
  { destruct Hno as [N1 N2]. intros K. apply orb_true_iff in K as [K|K]; apply andb_true_iff in K as [K1 K2]; [apply N1|apply N2]; split; eapply named_present; eassumption. }
  destruct (si_cs i) as [|rows|v T w|v|v|A B|l]; cbn [shipped_cs doc_nonneg]; try exact I; try (exfalso; exact (Bad C)).
  - apply List.Forall_forall. intros r Hr. apply in_map_iff in Hr as (q & <- & Hq). cbn [fst snd]. split; [eexists; reflexivity|].
    rewrite forallb_forall in C. apply Q_nonneg, C, Hq.
  - cbn [vhs_cs vhs_ginv]. split; [apply V|]. apply Hginv. apply Qle_bool_iff, Qle_Rle in C. unfold Q2R at 2 in C. cbn in C. lra.
  - now apply Q_nonneg.
Qed.
Lemma gas_kec x e : In x (x_inter d) -> xi_kec x = Some e -> 0 < e /\ ~ sides_agree (xi_in x) (xi_out x).
Proof.
  pose proof Hgas as (_ & _ & _ & Hd). rewrite Hd. intros Hx E. apply doc_inv in Hx as (k & i & Hk & ->).
  destruct (checks k i Hk) as (_ & C & _). unfold kec_checked in C. cbn [xi_kec shipped_x xi_in xi_out] in *.
  destruct (si_kec i) as [q|]; [|discriminate]. injection E as <-. apply andb_true_iff in C as [C1 C2]. apply negb_true_iff, Q_pos in C1.
  split; [apply Rmult_lt_0_compat; assumption|]. intros [S _]. apply existsb_exists in C2 as (t & Ht & C2). apply negb_true_iff in C2.
  assert (K : In (x_P t) (map x_P (si_in i))) by (apply S; now apply in_map). apply in_map_iff in K as (u & Eu & Hu).
  assert (existsb (fun u => String.eqb (x_P t) (x_P u)) (si_in i) = true); [|congruence]. apply existsb_exists. exists u. split; [exact Hu|]. rewrite Eu. apply String.eqb_refl.
Qed.
Lemma gas_no_vss x : In x (x_inter d) -> xi_vss x = None /\ xi_model x = None.
Proof. destruct Hgas as (_ & _ & _ & ->). intros Hx. apply doc_inv in Hx as (k & i & Hk & ->). split; reflexivity. Qed.

Variables (fuel : nat) (allowed : bool) (inf ninf : RNum) (tol : RNum -> RNum -> bool)
  (solve : (RNum -> RNum) -> RNum -> RNum -> RNum * RNum) (finf : RNum)
  (parse : string -> outcome (list (expr RNum))) (fcm fcq : bool).
Notation reg := (default_reg (N:=RNum) fuel allowed inf ninf tol solve (setParticleFactories (N:=RNum) finf) parse fcm fcq).
Hypothesis Hinf : 0 <= inf.
Hypothesis Hsol : solver_in_bracket solve.
Variables (f : filt) (r : list (prop RNum)) (s : sets RNum).
Hypothesis Hinit : initBinary reg d f props = Ok (r, s).
Lemma channel A B j q : nth_error (pair_sets s A B) j = Some q -> (A <= B)%nat /\
  exists x, entry d f r A B j = Some x /\ In x (x_inter d) /\ among props x /\ positive (xi_in x) /\ loads_for reg r A B x q.
Proof.
  intros H. pose proof (gas_unique _ _ _ _ _ _ Hgas) as U. pose proof (gas_set_ok _ _ _ _ _ _ Hgas) as Hd. pose proof (gas_plain_names _ _ _ _ _ _ Hgas) as Hn.
  destruct (channel_source fuel allowed inf ninf tol solve finf parse fcm fcq d f props r s U Hd Hn Hinit A B j q H) as (L & x & Ex & Ix & Hb & Lx).
  split; [exact L|]. exists x. split; [exact Ex|]. split; [exact Ix|]. split; [eapply source_among; eassumption|].
  split; [|exact Lx]. destruct Hb as (_ & (pA & pB & _ & _ & W) & _). exact (proj1 (written_names _ _ _ _ _ W)).
Qed.
Lemma mu_of A B x q : loads_for reg r A B x q -> 0 < rm_value (e_mu (q_core q)).
Proof.
  intros (pA & pB & _ & HA & HB & _ & _ & _ & _ & -> & _).
  assert (P : forall p, In p r -> 0 < pr_mass p).
  { intros p Hp. apply (gas_pos _ _ _ _ _ _ Hgas). eapply Permutation_in; [apply Permutation_sym; eapply run_perm; exact Hinit|exact Hp]. }
  apply mu_pos; apply P; eapply nth_error_In; eassumption.
Qed.
Lemma channel_nonneg A B j q : nth_error (pair_sets s A B) j = Some q ->
  (forall K v t, sigma_is K (q_cs q) v t -> 0 <= t) /\ 0 <= threshold q.
Proof.
  intros H. destruct (channel A B j q H) as (_ & x & _ & Ix & Ha & _ & L). pose proof (mu_of _ _ _ _ L) as Hmu.
  pose proof L as (pA & pB & Lx & _). destruct (cs_case _ _ _ _ _ _ _ _ _ _ _ _ _ Lx) as (l & dc & Ecs & El).
  pose proof (gas_nonneg x Ix Ha) as Hn. rewrite Ecs in Hn. split.
  - intros K. exact (proj1 (xs_nonneg K fuel allowed inf ninf tol solve _ dc _ Hmu Hn El)).
  - unfold threshold. destruct (getThresholdEnergy (q_cs q)) as [E| | |] eqn:Et; try (cbn; lra). exact (proj2 (xs_nonneg 0 fuel allowed inf ninf tol solve _ dc _ Hmu Hn El) E Et).
Qed.
Lemma kec_reaction A B j q x e : nth_error (pair_sets s A B) j = Some q -> entry d f r A B j = Some x -> xi_kec x = Some e ->
  0 < e /\ energy_given x q = e.
Proof.
  intros H Ex He. destruct (channel A B j q H) as (_ & x' & Ex' & Ix & Ha & Pos & L). rewrite Ex in Ex'. injection Ex' as <-.
  destruct (gas_kec x e Ix He) as [Pe Ns]. split; [exact Pe|]. unfold energy_given.
  assert (R : is_reaction q = true); [|rewrite R, He; reflexivity].
  pose proof L as (pA & pB & Lx & _).
  destruct (ProofEq3.load_equation_core _ _ _ _ Lx) as (same & Ec & ld & Er & Em & _).
  destruct (gas_no_vss x Ix) as [_ Hm]. unfold model_label in Er. rewrite Hm in Er.
  destruct same.
  - exfalso. apply Ns. apply (ProofEq3.same_loaded (fun _ => True) ProofOrder.R_mass_order r) with (e := q_core q) (same := true); [|exact Ec|exact Pos|reflexivity].
    apply List.Forall_forall. intros; exact I.
  - cbn in Er. injection Er as <-. apply obind_ok in Em as (th & _ & Em). unfold inelastic_new_load in Em. unfold is_reaction.
    destruct (_ =? 2)%Z; [|destruct (_ =? 3)%Z].
    + apply obind_ok in Em as (? & _ & Em). apply obind_ok in Em as (? & _ & Em). now injection Em as <-.
    + apply obind_ok in Em as (? & _ & Em). apply obind_ok in Em as (? & _ & Em). now injection Em as <-.
    + now injection Em as <-.
Qed.
Lemma no_vss A B j q : nth_error (pair_sets s A B) j = Some q -> vss_loss r A B q = 0.
Proof.
  intros H. destruct (channel A B j q H) as (_ & x & _ & Ix & _ & _ & L). pose proof L as (pA & pB & Lx & _).
  destruct (ProofEq3.load_equation_core _ _ _ _ Lx) as (same & Ec & ld & Er & Em & _).
  destruct (gas_no_vss x Ix) as [_ Hm]. unfold model_label in Er. rewrite Hm in Er. unfold vss_loss.
  destruct same.
  - cbn in Er. injection Er as <-. now injection Em as <-.
  - cbn in Er. injection Er as <-. apply obind_ok in Em as (th & _ & Em). unfold inelastic_new_load in Em.
    destruct (_ =? 2)%Z; [|destruct (_ =? 3)%Z].
    + apply obind_ok in Em as (? & _ & Em). apply obind_ok in Em as (? & _ & Em). now injection Em as <-.
    + apply obind_ok in Em as (? & _ & Em). apply obind_ok in Em as (? & _ & Em). now injection Em as <-.
    + now injection Em as <-.
Qed.
Lemma gas_energy K rfuel dt (c : cell RNum) nprops res er g k st : rng_ok g -> bounded (2 ^ 31) (c_ranges c) -> disjoint (c_ranges c) ->
  typed (c_mem c) (c_ranges c) -> driver (N:=RNum) K rfuel true dt c nprops (pair_sets s) res er g k = Ok st ->
  amount (kinetic_of (mass_of r)) (s_mem st) (s_ranges st) (s_res st) =
  amount (kinetic_of (mass_of r)) (c_mem c) (c_ranges c) res + over_collisions (per_channel d f r s (fun _ _ x q => energy_given x q)) (s_log st).
Proof.
  intros Hg Hb Hdj Ht Hrun.
  destruct (doc_energy fuel allowed inf ninf tol solve finf parse fcm fcq d f props r s (gas_unique _ _ _ _ _ _ Hgas) (gas_pos _ _ _ _ _ _ Hgas)
    (gas_set_ok _ _ _ _ _ _ Hgas) (gas_plain_names _ _ _ _ _ _ Hgas) (gas_plain _ _ _ _ _ _ Hgas) Hinit K rfuel dt c nprops res er g k st Hg Hb Hdj Ht Hrun
    (gas_mass_balance _ _ _ _ _ _ Hgas) Hinf Hsol gas_data_ok) as [H1 H2].
  - intros A B j x q Ex Hq. left. destruct (xi_kec x) as [e|] eqn:Ek.
    + destruct (kec_reaction A B j q x e Hq Ex Ek) as [Pe ->]. pose proof (proj2 (channel_nonneg A B j q Hq)). lra.
    + unfold energy_given. rewrite Ek. pose proof (proj2 (channel_nonneg A B j q Hq)). destruct (is_reaction q); lra.
  - intros A B L v cs Hv Hc. apply List.Forall_forall. intros t Hin. apply In_nth_error in Hin as (j & Hj).
    assert (exists q, nth_error (pair_sets s A B) j = Some q /\ sigma_is K (q_cs q) v t) as (q & Hq & Hs).
    { clear -Hc Hj. unfold channels in Hc. revert j Hj. induction Hc as [|q0 t0 ql tl H0 Hc IH]; intros j Hj; [destruct j; discriminate|].
      destruct j as [|j]; [cbn in Hj; injection Hj as ->; exists q0; split; [reflexivity|exact H0]|]. apply (IH j Hj). }
    exact (proj1 (channel_nonneg A B j q Hq) K v t Hs).
  - apply Rle_antisym; [exact H2|]. eapply Rle_trans; [|exact H1]. right. f_equal. apply over_ext. intros A B j. unfold per_channel.
    destruct (nth_error (pair_sets s A B) j) as [q|] eqn:Hq; [|lra]. destruct (entry d f r A B j); [|lra]. rewrite (no_vss A B j q Hq). lra.
Qed.
End Energy.
