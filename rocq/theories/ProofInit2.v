(** The reactions of an initialised database are gas channels. *)
From Coq Require Import Reals Lra String Ascii ZArith Bool Arith Lia Sorted Permutation List.
From Verif Require Import Base Num ModelTerm ModelCollide ModelFactories ModelXsec ModelSet ModelEq ModelFilter ModelDB
  SpecTerm SpecPhys SpecFactories SpecXsec SpecSet SpecEq SpecFilter SpecDB SpecMore SpecRun SpecInit ProofTerm ProofInelastic ProofOrder ProofEq ProofEq2 ProofEq3
  ProofFilter ProofFilter3 ProofTop4 ProofDB ProofDB2 ProofDB3 ProofXsec ProofDriver3 ProofRun ProofRun2 ProofInit.
From Coq Require Import List.
Import ListNotations.

Section Mono.
Context {N : Num}.
Variables (db db' : Z -> outcome (N * N)).
Hypothesis sub : forall s v, db s = Ok v -> db' s = Ok v.

Lemma omap_mono {A B} (f g : A -> outcome B) l r : (forall a b, f a = Ok b -> g a = Ok b) -> omap f l = Ok r -> omap g l = Ok r.
Proof.
  intros H. revert r. induction l as [|x l IH]; cbn; intros r E; [exact E|].
  apply obind_ok in E as (y & E1 & E). apply obind_ok in E as (ys & E2 & E). injection E as <-.
  rewrite (H _ _ E1). cbn. rewrite (IH _ E2). reflexivity.
Qed.

Lemma load_mono spf parse fcm fcq kec thrE (e : eqcore N) m :
  inelastic_new_load db spf parse fcm fcq kec thrE e = Ok m -> inelastic_new_load db' spf parse fcm fcq kec thrE e = Ok m.
Proof.
  assert (Hb : forall b, make_inelastic db spf parse fcm fcq e = Ok b -> make_inelastic db' spf parse fcm fcq e = Ok b).
  { intros b H. unfold make_inelastic, massChargeIn, massChargeOut in *.
    apply obind_ok in H as ([Ma qa] & Ea & H). apply obind_ok in H as ([Mb qb] & Eb & H).
    apply obind_ok in H as (mo & Eo & H). apply obind_ok in Eo as (ls & El & Eo). injection Eo as <-.
    rewrite Ea in H. cbn [obind] in H. rewrite Eb in H. cbn [obind] in H.
    rewrite (sub _ _ Ea). cbn [obind]. rewrite (sub _ _ Eb). cbn [obind].
    erewrite omap_mono; [|clear El|exact El].
    - cbn [obind]. exact H.
    - intros t l Et. cbv beta in Et |- *. destruct (t_n t <=? 0)%Z; [exact Et|].
      apply obind_ok in Et as ([M Q] & E1 & Et). rewrite (sub _ _ E1). exact Et. }
  unfold inelastic_new_load. destruct (_ =? 2)%Z; [|destruct (_ =? 3)%Z]; [| |auto].
  - intros H. apply obind_ok in H as (b & Eb & H). apply obind_ok in H as (m2 & Em & H). rewrite (Hb _ Eb). cbn [obind].
    unfold make22 in Em |- *.
    destruct (_ && _)%bool in Em |- *; [discriminate|]. destruct (_ || _ || _)%bool in Em |- *; [discriminate|].
    destruct (negb (Bool.eqb _ _)) in Em |- *; [discriminate|]. destruct (existsb _ (ie_factories b)) in Em |- *; [discriminate|].
    apply obind_ok in Em as (t0 & T0 & Em). apply obind_ok in Em as (t1 & T1 & Em).
    apply obind_ok in Em as ([M0 Q0] & D0 & Em). apply obind_ok in Em as ([M1 Q1] & D1 & Em).
    rewrite T0. cbn [obind]. rewrite T1. cbn [obind]. rewrite (sub _ _ D0). cbn [obind]. rewrite (sub _ _ D1). cbn [obind].
    injection Em as <-. exact H.
  - intros H. apply obind_ok in H as (b & Eb & H). apply obind_ok in H as (m2 & Em & H). rewrite (Hb _ Eb). cbn [obind].
    unfold make23 in Em |- *.
    destruct (_ && _)%bool in Em |- *; [discriminate|]. destruct (_ || _ || _)%bool in Em |- *; [discriminate|].
    destruct (negb (Bool.eqb _ _)) in Em |- *; [discriminate|]. destruct (existsb _ (ie_factories b)) in Em |- *; [discriminate|].
    apply obind_ok in Em as (t0 & T0 & Em). apply obind_ok in Em as (t1 & T1 & Em). apply obind_ok in Em as (t2 & T2 & Em).
    apply obind_ok in Em as ([M0 Q0] & D0 & Em). apply obind_ok in Em as ([M1 Q1] & D1 & Em). apply obind_ok in Em as ([M2 Q2] & D2 & Em).
    rewrite T0. cbn [obind]. rewrite T1. cbn [obind]. rewrite T2. cbn [obind].
    rewrite (sub _ _ D0). cbn [obind]. rewrite (sub _ _ D1). cbn [obind]. rewrite (sub _ _ D2). cbn [obind].
    injection Em as <-. exact H.
Qed.
End Mono.

Section Gas.
Local Open Scope R_scope.
Variables (fuel : nat) (allowed : bool) (inf ninf : RNum) (tol : RNum -> RNum -> bool)
  (solve : (RNum -> RNum) -> RNum -> RNum -> RNum * RNum) (finf : RNum)
  (parse : string -> outcome (list (expr RNum))) (fcm fcq : bool).
Notation reg := (default_reg (N:=RNum) fuel allowed inf ninf tol solve (setParticleFactories (N:=RNum) finf) parse fcm fcq).

Lemma mq_species (r : list (prop RNum)) s v : db_mq r s = Ok v -> species_db (mass_of r) (charge_of r) s = Ok v.
Proof.
  unfold db_mq, db_get, species_db, mass_of, charge_of. destruct (s <? 0)%Z; [discriminate|]. unfold oget.
  destruct (nth_error r (Z.to_nat s)); cbn; [auto|discriminate].
Qed.

Lemma product_no_ops (r : list (prop RNum)) xl l : no_ops xl -> List.Forall (product_of r xl) l -> hasExpressions l = false.
Proof.
  intros Hn F. unfold hasExpressions. induction F as [|t l (i & p & _ & _ & ->) _ IH]; [reflexivity|].
  cbn [existsb t_ops]. rewrite IH, orb_false_r. unfold ops_of. clear -Hn.
  assert (G : List.Forall (fun s => s = ""%string) (concat (map (fun t => repeat (xt_ops t) (Z.to_nat (xt_n t))) (filter (named (pr_name p)) xl)))).
  { induction Hn as [|t l Ht _ IH]; [constructor|]. cbn [filter]. destruct (named (pr_name p) t); [|exact IH].
    cbn [map concat]. apply Forall_app. split; [|exact IH]. rewrite Ht. clear. induction (Z.to_nat (xt_n t)); constructor; auto. }
  induction G as [|s l -> _ IH]; [reflexivity|]. exact IH.
Qed.

Lemma expand_bound (l : list term) : length (expand_terms l) = length (SpecPhys.expand_species l).
Proof.
  unfold expand_terms, SpecPhys.expand_species. induction l as [|t l IH]; [reflexivity|]. cbn. rewrite !app_length, !repeat_length. now rewrite IH.
Qed.

Lemma mass_nth r A p : nth_error r A = Some p -> mass_of r (Z.of_nat A) = pr_mass p.
Proof.
  intros H. unfold mass_of. replace (Z.of_nat A <? 0)%Z with false by (symmetry; apply Z.ltb_ge; lia). rewrite Nat2Z.id, H. reflexivity.
Qed.
Lemma name_nth r A p : nth_error r A = Some p -> name_of r (Z.of_nat A) = pr_name p.
Proof.
  intros H. unfold name_of. replace (Z.of_nat A <? 0)%Z with false by (symmetry; apply Z.ltb_ge; lia). rewrite Nat2Z.id, H. reflexivity.
Qed.

(** The model behind a loaded equation. *)
Lemma model_cases r x q : load_equation reg r x = Ok q ->
  q_model q = MElastic (e_mu (q_core q)) \/
  (exists al, xi_vss x = Some al /\ q_model q = MVSS (e_mu (q_core q)) al) \/
  (exists th, getThresholdEnergy (q_cs q) = Ok th /\
     inelastic_new_load (db_mq r) (setParticleFactories (N:=RNum) finf) parse fcm fcq (xi_kec x) th (q_core q) = Ok (q_model q)).
Proof.
  intros Lx. unfold load_equation in Lx. apply obind_ok in Lx as ([e same] & Ec & Lx).
  apply obind_ok in Lx as (cs & Ecs & Lx).
  destruct (r_im reg (model_label x same)) as [ld|] eqn:Er; [|discriminate].
  apply obind_ok in Lx as (m & Em & Lx). injection Lx as <-. cbn [q_core q_model q_cs] in *.
  cbn [r_im default_reg] in Er.
  destruct (String.eqb (model_label x same) "elastic"). { left. injection Er as <-. now injection Em as <-. }
  destruct (String.eqb (model_label x same) "inelastic").
  2:{ destruct (String.eqb (model_label x same) "vss_elastic"); [|discriminate]. right. left. injection Er as <-.
      destruct (xi_vss x) as [al|]; [|discriminate]. injection Em as <-. exists al. auto. }
  injection Er as <-. apply obind_ok in Em as (th & Eth & Em). right. right. exists th. auto.
Qed.
(** The cross section behind it. *)
Lemma cs_case r x q : load_equation reg r x = Ok q -> exists l dc, xi_cs x = Some (l, dc) /\
  xs_load (N:=RNum) fuel allowed inf ninf tol solve (e_mu (q_core q)) dc = Ok (q_cs q).
Proof.
  intros Lx. unfold load_equation in Lx. apply obind_ok in Lx as ([e same] & Ec & Lx).
  apply obind_ok in Lx as (cs & Ecs & Lx).
  destruct (r_im reg (model_label x same)) as [ld|] eqn:Er; [|discriminate].
  apply obind_ok in Lx as (m & Em & Lx). injection Lx as <-. cbn [q_core q_model q_cs] in *.
  unfold load_cs in Ecs. destruct (xi_cs x) as [[[l|] dc]|]; try discriminate. exists (Some l), dc. split; [reflexivity|].
  cbn [r_cs default_reg] in Ecs.
  repeat match type of Ecs with context [if String.eqb l ?t then _ else _] => destruct (String.eqb l t) end;
    try discriminate; destruct dc; try discriminate; exact Ecs.
Qed.

Section Loaded.
Variables (r : list (prop RNum)).
Hypothesis Ur : unique_names r.
Hypothesis Hpos : forall p, In p r -> 0 < pr_mass p.

Lemma loaded_gas A B x q : loads_for reg r A B x q -> plain_products x ->
  (length (expand_names (xi_out x)) = 2 \/ length (expand_names (xi_out x)) = 3)%nat ->
  forall kec th, inelastic_new_load (db_mq r) (setParticleFactories (N:=RNum) finf) parse fcm fcq kec th (q_core q) = Ok (q_model q) ->
  loaded_reaction (mass_of r) (charge_of r) (Z.of_nat A) (Z.of_nat B) kec th q.
Proof.
  intros (pA & pB & Lx & HA & HB & _ & _ & EA & EB & Mu & Po & Ps) [_ Hx] Hl kec th Em.
  pose proof (mass_nth _ _ _ HA) as MA. pose proof (mass_nth _ _ _ HB) as MB.
  assert (PA : 0 < pr_mass pA) by (apply Hpos; eapply nth_error_In; exact HA).
  assert (PB : 0 < pr_mass pB) by (apply Hpos; eapply nth_error_In; exact HB).
  exists finf, parse, fcm, fcq, (map (mass_of r) (SpecPhys.expand_species (e_products (q_core q)))).
  assert (Lsp : length (SpecPhys.expand_species (e_products (q_core q))) = length (expand_names (xi_out x))).
  { change (SpecPhys.expand_species (e_products (q_core q))) with (expand_species (e_products (q_core q))).
    rewrite (Permutation_length Ps), map_length. reflexivity. }
  rewrite map_length, Lsp. split; [exact Hl|]. split; [|split].
  - unfold reaction. rewrite EA, EB. cbn [t_species term_sp].
    unfold species_db. rewrite MA, MB.
    split; [eexists; reflexivity|]. split; [eexists; reflexivity|]. split; [exact Mu|].
    split; [split|].
    + eapply List.Forall_impl; [|exact Po]. intros t (i & p & _ & _ & ->). cbn [t_n]. lia.
    + rewrite expand_bound, Lsp. lia.
    + split; [|split; [exact PA|split; [exact PB|]]].
      * clear. induction (SpecPhys.expand_species (e_products (q_core q))); constructor; [eexists; reflexivity|assumption].
      * assert (G : forall s, In s (SpecPhys.expand_species (e_products (q_core q))) -> 0 < mass_of r s).
        { intros sp Hs. unfold SpecPhys.expand_species in Hs. apply in_concat in Hs as (l & Hl' & Hs).
          apply in_map_iff in Hl' as (t & <- & Ht). apply repeat_spec in Hs. subst sp.
          rewrite List.Forall_forall in Po. destruct (Po t Ht) as (i & p & (F1 & _) & _ & ->). cbn [t_species].
          rewrite (mass_nth _ _ _ F1). apply Hpos. eapply nth_error_In; exact F1. }
        apply List.Forall_forall. intros y Hy. apply in_map_iff in Hy as (sp & <- & Hy). apply G, Hy.
  - eapply product_no_ops; eassumption.
  - eapply load_mono; [|exact Em]. intros sp v. apply mq_species.
Qed.

Lemma loaded_length A B x q : loads_for reg r A B x q -> plain_products x ->
  forall kec th, inelastic_new_load (db_mq r) (setParticleFactories (N:=RNum) finf) parse fcm fcq kec th (q_core q) = Ok (q_model q) ->
  (length (expand_names (xi_out x)) = 2 \/ length (expand_names (xi_out x)) = 3)%nat \/ q_model q = MInBare.
Proof.
  intros (pA & pB & Lx & HA & HB & _ & _ & EA & EB & Mu & Po & Ps) [Hl _] kec th Em.
  assert (Lsp : length (SpecPhys.expand_species (e_products (q_core q))) = length (expand_names (xi_out x))).
  { change (SpecPhys.expand_species (e_products (q_core q))) with (expand_species (e_products (q_core q))).
    rewrite (Permutation_length Ps), map_length. reflexivity. }
  assert (Hok : terms_ok (e_products (q_core q))).
  { split; [eapply List.Forall_impl; [|exact Po]; intros t (i & p & _ & _ & ->); cbn [t_n]; lia|].
    rewrite expand_bound, Lsp. exact Hl. }
  unfold inelastic_new_load in Em. rewrite (numberProducts_len _ Hok), Lsp in Em.
  destruct (Z.eqb_spec (Z.of_nat (length (expand_names (xi_out x)))) 2) as [E|E]; [left; left; lia|].
  destruct (Z.eqb_spec (Z.of_nat (length (expand_names (xi_out x)))) 3) as [E3|E3]; [left; right; lia|].
  right. now injection Em as <-.
Qed.

Lemma loaded_channel A B x q : loads_for reg r A B x q -> plain_products x ->
  gas_channel (mass_of r) (charge_of r) (Z.of_nat A) (Z.of_nat B) q.
Proof.
  intros L Hx. pose proof L as (pA & pB & Lx & HA & HB & _ & _ & EA & EB & Mu & Po & Ps).
  pose proof (mass_nth _ _ _ HA) as MA. pose proof (mass_nth _ _ _ HB) as MB.
  unfold gas_channel. rewrite MA, MB.
  split; [apply Hpos; eapply nth_error_In; exact HA|]. split; [apply Hpos; eapply nth_error_In; exact HB|].
  destruct (model_cases r x q Lx) as [E|[(al & Hal & E)|(th & Eth & Em)]].
  - left. congruence.
  - right. left. exists al. congruence.
  - right. right. destruct (loaded_length A B x q L Hx _ _ Em) as [Hl|Hl]; [left|right; exact Hl].
    exists (xi_kec x), th. eapply loaded_gas; eassumption.
Qed.

(** Totals over species are totals over names. *)
Lemma find_name n i : findParticle r n = Some i -> name_of r (Z.of_nat i) = n.
Proof.
  clear. intros H. unfold name_of. replace (Z.of_nat i <? 0)%Z with false by (symmetry; apply Z.ltb_ge; lia). rewrite Nat2Z.id.
  revert i H. induction r as [|p l IH]; intros i H; [discriminate|]. cbn in H. destruct (String.eqb_spec n (pr_name p)) as [->|].
  - injection H as <-. reflexivity.
  - destruct (findParticle l n) as [j|]; [|discriminate]. injection H as <-. cbn. now apply IH.
Qed.
Lemma Rsum_perm l l' : Permutation l l' -> Rsum l = Rsum l'.
Proof. induction 1; cbn; try congruence; lra. Qed.
Lemma loaded_totals A B x q (h : string -> R) : loads_for reg r A B x q -> List.Forall (known r) (xi_out x) ->
  Rsum (map (fun s => h (name_of r s)) (SpecPhys.expand_species (e_products (q_core q)))) = total_named h (xi_out x) /\
  h (name_of r (Z.of_nat A)) + h (name_of r (Z.of_nat B)) = total_named h (xi_in x).
Proof.
  intros (pA & pB & _ & HA & HB & _ & Pm & _ & _ & _ & _ & Ps) Hk. unfold total_named. split.
  - change (SpecPhys.expand_species (e_products (q_core q))) with (expand_species (e_products (q_core q))).
    rewrite (Rsum_perm _ _ (Permutation_map _ Ps)), map_map. f_equal. apply map_ext_in. intros n Hn.
    unfold expand_names in Hn. apply in_concat in Hn as (l & Hl & Hn). apply in_map_iff in Hl as (t & <- & Ht). apply repeat_spec in Hn. subst n.
    rewrite List.Forall_forall in Hk. specialize (Hk t Ht). unfold findParticleIndx.
    destruct (findParticle r (x_P t)) as [i|] eqn:Ef; [now rewrite (find_name _ _ Ef)|].
    apply findParticle_none in Ef. contradiction.
  - rewrite <- (Rsum_perm _ _ (Permutation_map h Pm)). cbn [map Rsum fold_right]. rewrite (name_nth _ _ _ HA), (name_nth _ _ _ HB). cbn. lra.
Qed.
End Loaded.

(** ** Runs over an initialised database *)
Section Run.
Variables (d : document RNum) (f : filt) (props r : list (prop RNum)) (s : sets RNum).
Hypothesis U : unique_names props.
Hypothesis Hpos : forall p, In p props -> 0 < pr_mass p.
Hypothesis Hd : set_ok (x_inter d).
Hypothesis Hn : plain_names props (x_inter d).
Hypothesis Hpl : plain_among props (x_inter d).
Hypothesis Hinit : initBinary reg d f props = Ok (r, s).

Lemma run_perm : Permutation props r.
Proof. unfold initBinary in Hinit. apply obind_ok in Hinit as (s' & _ & H). injection H as <- _. apply sort_perm. Qed.
Lemma run_unique : unique_names r.
Proof. eapply Permutation_NoDup; [apply Permutation_map, run_perm|exact U]. Qed.
Lemma run_pos p : In p r -> 0 < pr_mass p.
Proof. intros Ip. apply Hpos. eapply Permutation_in; [apply Permutation_sym, run_perm|exact Ip]. Qed.
Lemma cells_keys A B qs : cell_get s A B = Ok qs -> (Nat.max A B < length r)%nat.
Proof.
  intros E. unfold initBinary in Hinit. apply obind_ok in Hinit as (s' & Es & H). injection H as <- <-.
  apply omap_forall2 in Es. unfold cell_get in E. destruct (cell_find s' (cell_key A B)) as [l|] eqn:Ef; [|discriminate].
  assert (G : In (cell_key A B) (species_pairs (length (sort_props props)))).
  { clear -Es Ef. induction Es as [|k [k' l'] ks s' Hk _ IH]; [discriminate|].
    apply obind_ok in Hk as (xs & _ & Hk). apply obind_ok in Hk as (qs & _ & Hk). injection Hk as <- _.
    cbn in Ef. destruct (key_eqb (cell_key A B) k) eqn:E; [left; symmetry; now apply key_eqb_spec|right; now apply IH]. }
  unfold cell_key in G. apply pairs_in in G. lia.
Qed.

Lemma channel_source A B j q : nth_error (pair_sets s A B) j = Some q -> (A <= B)%nat /\
  exists x, entry d f r A B j = Some x /\ In x (x_inter d) /\ belongs r A B x /\ loads_for reg r A B x q.
Proof.
  unfold pair_sets. destruct (Nat.ltb_spec B A) as [|L]; [destruct j; discriminate|]. intros H. split; [exact L|].
  destruct (cell_get s A B) as [qs| | |] eqn:E; try (destruct j; discriminate).
  pose proof (cells_keys A B qs E) as LB.
  destruct (cell_equation (N:=RNum) (fun _ => True) reg d f props r s R_mass_order) with (A := A) (B := B)
    as (xs & qs' & E1 & E2 & F1 & F2); try assumption.
  { unfold masses_ok. apply List.Forall_forall. intros; exact I. }
  { lia. }
  rewrite E in E2. injection E2 as <-. unfold entry. rewrite E1. clear E1 E.
  revert j H. induction F2 as [|x q' xs qs L' F2 IH]; intros j H; [destruct j; discriminate|]. inversion F1; subst.
  destruct j as [|j].
  - cbn in H. injection H as ->. exists x. cbn. tauto.
  - destruct (IH ltac:(assumption) j H) as (y & Hy). exists y. exact Hy.
Qed.
Lemma known_all xl : List.Forall (known r) xl -> List.Forall (known props) xl.
Proof.
  apply List.Forall_impl. intros t. unfold known. apply Permutation_in, Permutation_map, Permutation_sym, run_perm.
Qed.
Lemma source_among A B x : belongs r A B x -> among props x.
Proof.
  intros (_ & (pA & pB & HA & HB & W) & _ & Ho). split; [|now apply known_all].
  apply known_all. destruct W as [W1 W2].
  assert (IA : In (pr_name pA) (map (pr_name (N:=RNum)) r)) by (apply in_map; eapply nth_error_In; exact HA).
  assert (IB : In (pr_name pB) (map (pr_name (N:=RNum)) r)) by (apply in_map; eapply nth_error_In; exact HB).
  destruct (Nat.eq_dec A B) as [E|E].
  - destruct (W1 E) as (t & -> & E1 & _). constructor; [|constructor]. unfold known. rewrite E1. exact IA.
  - destruct (W2 E) as (t & u & Pm & [T1 _] & [U1 _]). eapply Permutation_Forall; [apply Permutation_sym; exact Pm|].
    constructor; [unfold known; rewrite T1; exact IA|constructor; [unfold known; rewrite U1; exact IB|constructor]].
Qed.
Lemma source_plain A B x : In x (x_inter d) -> belongs r A B x -> plain_products x.
Proof. intros Ix Hb. apply Hpl; [exact Ix|]. eapply source_among; exact Hb. Qed.

Lemma pair_channels A B : (A <= B)%nat -> List.Forall (gas_channel (mass_of r) (charge_of r) (Z.of_nat A) (Z.of_nat B)) (pair_sets s A B).
Proof.
  intros _. apply List.Forall_forall. intros q Hq. apply In_nth_error in Hq as (j & Hj).
  destruct (channel_source A B j q Hj) as (_ & x & _ & Ix & Hb & L).
  eapply loaded_channel; [exact run_pos|exact L|eapply source_plain; eassumption].
Qed.
Lemma pair_low A B : (B < A)%nat -> pair_sets s A B = [].
Proof. intros L. unfold pair_sets. destruct (Nat.ltb_spec B A); [reflexivity|lia]. Qed.

Lemma over_ext (g g' : nat -> nat -> nat -> R) log : (forall A B j, g A B j = g' A B j) -> over_collisions g log = over_collisions g' log.
Proof. intros H. unfold over_collisions. f_equal. apply map_ext. intros e. destruct (0 <=? snd e)%Z; [apply H|reflexivity]. Qed.

Lemma change_named (h : string -> R) A B j :
  species_change (fun s => h (name_of r s)) (pair_sets s) A B j =
  per_channel d f r s (fun _ _ x q => if is_reaction q then gain h x else 0) A B j.
Proof.
  unfold species_change, per_channel. destruct (nth_error (pair_sets s A B) j) as [q|] eqn:E; [|reflexivity].
  destruct (channel_source A B j q E) as (_ & x & -> & Ix & Hb & L).
  assert (Hk : List.Forall (known r) (xi_out x)) by apply Hb.
  destruct (loaded_totals r A B x q h L Hk) as [G1 G2]. unfold is_reaction, gain.
  destruct (q_model q); try reflexivity; rewrite G1, <- G2; reflexivity.
Qed.

Variables (K : R) (rfuel : nat) (dt : R) (c : cell RNum) (nprops : nat) (res : list (particle RNum)) (er : list nat)
  (g : rng RNum) (k : nat) (st : dstate RNum).
Hypothesis Hg : rng_ok g.
Hypothesis Hbd : bounded (2 ^ 31) (c_ranges c).
Hypothesis Hdj : disjoint (c_ranges c).
Hypothesis Hty : typed (c_mem c) (c_ranges c).
Hypothesis Hrun : driver (N:=RNum) K rfuel true dt c nprops (pair_sets s) res er g k = Ok st.

Lemma doc_species (h : string -> R) :
  amount (fun p => h (name_of r (p_species p))) (s_mem st) (s_ranges st) (s_res st) =
    amount (fun p => h (name_of r (p_species p))) (c_mem c) (c_ranges c) res +
    over_collisions (per_channel d f r s (fun _ _ x q => if is_reaction q then gain h x else 0)) (s_log st).
Proof.
  rewrite <- (over_ext _ _ _ (change_named h)).
  exact (run_species (mass_of r) (charge_of r) K rfuel dt c nprops (pair_sets s) res er g k st Hg Hbd Hdj Hty Hrun (fun s => h (name_of r s))
    pair_channels pair_low).
Qed.

(** A quantity that every interaction of the document balances is conserved. *)
Lemma doc_conserved (h : string -> R) : balances h props (x_inter d) ->
  amount (fun p => h (name_of r (p_species p))) (s_mem st) (s_ranges st) (s_res st) =
    amount (fun p => h (name_of r (p_species p))) (c_mem c) (c_ranges c) res.
Proof.
  intros Hx. rewrite doc_species.
  rewrite (over_ext _ (fun _ _ _ => 0)).
  - unfold over_collisions. replace (Rsum _) with 0; [lra|]. induction (s_log st) as [|e l IH]; cbn; [reflexivity|].
    rewrite <- IH. destruct (0 <=? snd e)%Z; lra.
  - intros A B j. unfold per_channel. destruct (nth_error (pair_sets s A B) j) as [q|] eqn:E; [|reflexivity].
    destruct (channel_source A B j q E) as (_ & x & -> & Ix & Hb & _). unfold gain, total_named. rewrite (Hx x Ix (source_among _ _ _ Hb)). destruct (is_reaction q); lra.
Qed.

Lemma mass_named_in (l : list (prop RNum)) p : unique_names l -> In p l -> mass_named l (pr_name p) = pr_mass p.
Proof.
  unfold unique_names, mass_named. induction l as [|a l IH]; [intros _ []|]. cbn [map find]. intros ND I. inversion ND as [|? ? Hnot ND']; subst.
  destruct (String.eqb_spec (pr_name p) (pr_name a)) as [E|E].
  - destruct I as [->|I]; [reflexivity|]. exfalso. apply Hnot. rewrite <- E. now apply in_map.
  - destruct I as [->|I]; [contradiction|]. now apply IH.
Qed.
Lemma mass_by_name i p : nth_error r i = Some p -> mass_of r (Z.of_nat i) = mass_named props (name_of r (Z.of_nat i)).
Proof.
  intros Hi. rewrite (mass_nth _ _ _ Hi), (name_nth _ _ _ Hi). symmetry. apply mass_named_in; [exact U|].
  eapply Permutation_in; [apply Permutation_sym, run_perm|]. eapply nth_error_In; exact Hi.
Qed.
Definition mass_balance : Prop := balances (mass_named props) props (x_inter d).

Lemma source_balanced A B x q : mass_balance -> In x (x_inter d) -> belongs r A B x -> loads_for reg r A B x q ->
  balanced (mass_of r) (Z.of_nat A) (Z.of_nat B) q.
Proof.
  intros Hx Ix Hb L. assert (Hk : List.Forall (known r) (xi_out x)) by apply Hb.
  destruct (loaded_totals r A B x q (mass_named props) L Hk) as [G1 G2].
  destruct L as (pA & pB & _ & HA & HB & _ & _ & _ & _ & _ & Po & _).
  rewrite <- (mass_by_name _ _ HA), <- (mass_by_name _ _ HB) in G2.
  assert (G : Rsum (map (mass_of r) (SpecPhys.expand_species (e_products (q_core q)))) = mass_of r (Z.of_nat A) + mass_of r (Z.of_nat B)).
  { rewrite G2. unfold total_named. rewrite <- (Hx x Ix (source_among _ _ _ Hb)). fold (total_named (mass_named props) (xi_out x)). rewrite <- G1. f_equal. apply map_ext_in. intros sp Hs.
    unfold SpecPhys.expand_species in Hs. apply in_concat in Hs as (l & Hl' & Hs).
    apply in_map_iff in Hl' as (t & <- & Ht). apply repeat_spec in Hs. subst sp.
    rewrite List.Forall_forall in Po. destruct (Po t Ht) as (i & p & (F1 & _) & _ & ->). cbn [t_species]. eapply mass_by_name; exact F1. }
  unfold balanced. destruct (q_model q); try exact I; exact G.
Qed.

Lemma doc_momentum i : mass_balance ->
  amount (momentum_of (mass_of r) i) (s_mem st) (s_ranges st) (s_res st) = amount (momentum_of (mass_of r) i) (c_mem c) (c_ranges c) res.
Proof.
  intros Hx. apply (run_momentum (mass_of r) (charge_of r) K rfuel dt c nprops (pair_sets s) res er g k st Hg Hbd Hdj Hty Hrun); [|exact pair_low].
  intros A B HAB. split; [now apply pair_channels|]. apply List.Forall_forall. intros q Hq. apply In_nth_error in Hq as (j & Hj).
  destruct (channel_source A B j q Hj) as (_ & x & _ & Ix & Hb & L). eapply source_balanced; eassumption.
Qed.

Lemma doc_energy : mass_balance -> 0 <= inf -> solver_in_bracket solve -> List.Forall data_ok (x_inter d) ->
  (forall A B j x q, entry d f r A B j = Some x -> nth_error (pair_sets s A B) j = Some q -> - threshold q <= energy_given x q \/ is_reaction q = false) ->
  (forall A B, (A <= B)%nat -> cross_sections_ok K (pair_sets s A B)) ->
  let dE := per_channel d f r s (fun _ _ x q => energy_given x q) in
  let loss := per_channel d f r s (fun A B _ q => vss_loss r A B q) in
  amount (kinetic_of (mass_of r)) (c_mem c) (c_ranges c) res + over_collisions (fun A B j => dE A B j - loss A B j) (s_log st)
    <= amount (kinetic_of (mass_of r)) (s_mem st) (s_ranges st) (s_res st)
    <= amount (kinetic_of (mass_of r)) (c_mem c) (c_ranges c) res + over_collisions dE (s_log st).
Proof.
  intros Hx Hinf Hsol Hdoc Hkec Hcs dE loss.
  apply (run_energy (mass_of r) (charge_of r) K rfuel dt c nprops (pair_sets s) res er g k st Hg Hbd Hdj Hty Hrun); [|exact Hcs|exact pair_low].
  intros A B j q HAB Hq. unfold dE, loss, per_channel. rewrite Hq.
  destruct (channel_source A B j q Hq) as (_ & x & Ex & Ix & Hb & L). specialize (Hkec A B j x q Ex Hq). rewrite Ex.
  pose proof L as (pA & pB & Lx & HA & HB & _ & _ & EA & EB & Mu & Po & Ps).
  unfold energy_channel. pose proof (mass_nth _ _ _ HA) as MA. pose proof (mass_nth _ _ _ HB) as MB.
  split; [rewrite MA; apply run_pos; eapply nth_error_In; exact HA|]. split; [rewrite MB; apply run_pos; eapply nth_error_In; exact HB|].
  rewrite List.Forall_forall in Hdoc. destruct (Hdoc x Ix) as [Hd1 Hd2].
  destruct (cs_case r x q Lx) as (l & dc & Ecs & Exs). rewrite Ecs in Hd1.
  destruct (model_cases r x q Lx) as [E|[(al & Hal & E)|(th & Eth & Em)]].
  - left. unfold energy_given, vss_loss, is_reaction. rewrite E, MA, MB, Mu. auto.
  - right. left. exists al. rewrite Hal in Hd2. unfold energy_given, vss_loss, is_reaction. rewrite E, MA, MB, Mu. auto.
  - right. right. destruct (loaded_length r A B x q L (source_plain _ _ _ Ix Hb) _ _ Em) as [Hl|Hl]; [left|right; exact Hl].
    exists (xi_kec x), th, fuel, allowed, inf, ninf, tol, solve, dc.
    split; [eapply loaded_gas; [exact run_pos|exact L|eapply source_plain; eassumption|exact Hl|exact Em]|].
    split; [eapply source_balanced; eassumption|]. split; [exact Hd1|]. split; [exact Hinf|]. split; [exact Hsol|].
    split; [exact Exs|]. split; [exact Eth|].
    assert (Hnr : is_reaction q = true).
    { unfold inelastic_new_load in Em. unfold is_reaction. destruct (_ =? 2)%Z; [|destruct (_ =? 3)%Z].
      - apply obind_ok in Em as (? & _ & Em). apply obind_ok in Em as (? & _ & Em). now injection Em as <-.
      - apply obind_ok in Em as (? & _ & Em). apply obind_ok in Em as (? & _ & Em). now injection Em as <-.
      - now injection Em as <-. }
    unfold energy_given, threshold, vss_loss in *. rewrite Hnr, Eth in *. split; [reflexivity|].
    unfold is_reaction in Hnr. destruct Hkec as [Hkec|]; [|discriminate]. split; [exact Hkec|]. destruct (q_model q); try discriminate; reflexivity.
Qed.
End Run.
End Gas.
