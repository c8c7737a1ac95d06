(** Which interactions load. *)
From Coq Require Import Reals Lra Lia String ZArith Bool Arith Sorted Permutation List.
From Verif Require Import Base Num ModelTerm ModelCollide ModelFactories ModelXsec ModelSet ModelEq ModelFilter ModelDB
  SpecTerm SpecPhys SpecFactories SpecXsec SpecSet SpecEq SpecFilter SpecDB SpecMore SpecRun SpecInit SpecLoadable
  ProofTerm ProofCollide ProofInelastic ProofFactories ProofXsec ProofOrder ProofEq ProofEq2 ProofReact ProofFilter ProofFilter3 ProofDB ProofRun2 ProofInit ProofInit2.
From Coq Require Import List.
Import ListNotations.
Local Open Scope R_scope.

(** ** Expressions of products without 'ops' *)
Section Plain.
Context {N : Num}.
Lemma plain_expr (parse : string -> outcome (list (expr N))) l : hasExpressions l = false ->
  List.Forall (fun t => t_n t = Z.of_nat (length (t_ops t))) l ->
  exists es, expr_lists parse l = Ok es /\ length es = length (SpecPhys.expand_species l) /\ existsb (fun x => negb (is_nil x)) es = false.
Proof.
  intros H F. unfold expr_lists.
  assert (G : exists ls, omap (fun t => omap (fun s => if String.eqb s "" then Ok [] else parse s) (firstn (Z.to_nat (t_n t)) (t_ops t))) l = Ok ls /\
    length (concat ls) = length (SpecPhys.expand_species l) /\ existsb (fun x => negb (is_nil x)) (concat ls) = false).
  { induction F as [|t l E F IH]; [exists []; auto|]. unfold hasExpressions in H. cbn [existsb] in H. apply orb_false_iff in H as [H1 H2].
    destruct (IH H2) as (ls & E2 & L2 & N2). cbn [omap].
    assert (K : exists es, omap (fun s => if String.eqb s "" then Ok [] else parse s) (firstn (Z.to_nat (t_n t)) (t_ops t)) = Ok es /\
      length es = Z.to_nat (t_n t) /\ existsb (fun x => negb (is_nil x)) es = false).
    { rewrite E, Nat2Z.id, firstn_all. clear -H1. induction (t_ops t) as [|s os IH]; [exists []; auto|]. cbn [existsb] in H1. apply orb_false_iff in H1 as [Hs H1].
      destruct (IH H1) as (es & E & L & Nn). exists ([] :: es). cbn [omap]. rewrite E.
      assert (Hs' : String.eqb s "" = true) by (destruct (String.eqb s ""); [reflexivity|discriminate]).
      rewrite Hs'. cbn. rewrite L. auto. }
    destruct K as (es & Ee & Le & Ne). rewrite Ee. cbn [obind]. rewrite E2. cbn [obind]. exists (es :: ls).
    split; [reflexivity|]. cbn [concat]. split.
    - rewrite app_length, Le, L2. unfold SpecPhys.expand_species. cbn [map concat]. rewrite app_length, repeat_length. reflexivity.
    - rewrite existsb_app, Ne, N2. reflexivity. }
  destruct G as (ls & -> & L & Nn). cbn [obind]. eauto.
Qed.

Lemma copies_ok (m q : N) sp from n : (n <= length from)%nat -> exists l, mc_copies m q sp from n = Ok l.
Proof.
  revert from; induction n as [|n IH]; intros from H; cbn; [eauto|]. destruct from as [|f from]; cbn in H; [lia|].
  destruct (IH from) as (l & ->); [lia|]. cbn. eauto.
Qed.
Lemma out_ok (db : Z -> outcome (N * N)) l : List.Forall (fun t => t_n t = Z.of_nat (length (t_from t)) /\ exists v, db (t_species t) = Ok v) l ->
  exists outs, massChargeOut db l = Ok outs /\ List.Forall (fun o => db (mc_species o) = Ok (mc_mass o, mc_charge o)) outs.
Proof.
  intros F. unfold massChargeOut.
  match goal with |- context [omap ?f l] => assert (G : exists ls, omap f l = Ok ls /\ List.Forall (fun o => db (mc_species o) = Ok (mc_mass o, mc_charge o)) (concat ls)) end.
  { induction F as [|t l (E & v & Hv) F IH]; [exists []; split; [reflexivity|constructor]|]. destruct IH as (ls & El & Fl). cbn [omap]. rewrite El.
    destruct (Z.leb_spec (t_n t) 0); [exists ([] :: ls); auto|]. rewrite Hv. destruct v as [m q]. cbn [obind].
    destruct (copies_ok m q (t_species t) (t_from t) (Z.to_nat (t_n t))) as (c & Ec); [lia|]. rewrite Ec. cbn [obind].
    exists (c :: ls). split; [reflexivity|]. cbn [concat]. apply Forall_app. split; [|exact Fl].
    clear -Ec Hv. revert c Ec. generalize (t_from t) as from. induction (Z.to_nat (t_n t)) as [|n IH]; intros from c Ec; cbn in Ec; [injection Ec as <-; constructor|].
    destruct from as [|f from]; [discriminate|]. apply obind_ok in Ec as (c' & E & Ec). injection Ec as <-. constructor; [exact Hv|]. eapply IH, E. }
  destruct G as (ls & -> & Fl). cbn [obind]. eauto.
Qed.

(** A reaction without 'ops' loads when its products can be given places. *)
Lemma new_load_ok (db : Z -> outcome (N * N)) inf parse fcm fcq kec th (e : eqcore N) mA qA mB qB outs fs :
  (forall x : N, nltb x x = false) -> (forall x y z : N, nltb x y = true -> nltb y z = true -> nltb x z = true) ->
  terms_ok (e_products e) -> hasExpressions (e_products e) = false ->
  List.Forall (fun t => t_n t = Z.of_nat (length (t_ops t))) (e_products e) ->
  db (t_species (e_A e)) = Ok (mA, qA) -> db (t_species (e_B e)) = Ok (mB, qB) ->
  massChargeOut db (e_products e) = Ok outs ->
  List.Forall (fun o => db (mc_species o) = Ok (mc_mass o, mc_charge o)) outs ->
  setParticleFactories inf [mkMC mA qA (t_species (e_A e)) (-1); mkMC mB qB (t_species (e_B e)) (-1)] outs = Ok fs ->
  exists model, inelastic_new_load db (setParticleFactories inf) parse fcm fcq kec th e = Ok model.
Proof.
  intros Hi Ht Hok Hx Ho HA HB Eo Fo Ef.
  destruct (plain_expr parse _ Hx Ho) as (es & Ee & Le & Ne).
  pose proof (numberProducts_len e Hok) as Np.
  destruct (massChargeOut_facts _ _ _ Eo) as [Sp _].
  pose proof Ef as Ef'. unfold setParticleFactories in Ef'. apply obind_ok in Ef' as ([sc fs'] & Ef' & Q). injection Q as ->.
  destruct (factories_spec inf _ _ Hi Ht outs sc fs Ef') as (ps & Hadm & _ & HF & _).
  assert (Lf : length fs = length (SpecPhys.expand_species (e_products e))).
  { rewrite <- (Forall2_length _ _ _ HF), combine_length, <- (Forall2_length _ _ _ Hadm), Nat.min_id, <- Sp, map_length. reflexivity. }
  assert (Sf : List.Forall (fun f => (f_src f <= 1)%Z) fs).
  { clear -HF. induction HF as [|op f l l' R _ IH]; constructor; [|exact IH]. destruct R as [_ R]. destruct (snd op); lia. }
  assert (S1 : forall c, (1 <= c)%Z -> existsb (fun f => (c <? f_src f)%Z) fs = false).
  { intros c Hc. clear -Sf Hc. induction Sf as [|f l H _ IH]; [reflexivity|]. cbn. rewrite IH, orb_false_r. apply Z.ltb_ge. lia. }
  assert (Hb : make_inelastic db (setParticleFactories inf) parse fcm fcq e = Ok (mkInelastic (e_mu e) (ReducedMass qA qB) fs es fcm fcq)).
  { unfold make_inelastic. rewrite HA, HB. cbn [obind]. rewrite Eo. cbn [obind]. unfold massChargeIn. rewrite HA, HB. cbn [obind]. rewrite Ef. cbn [obind].
    rewrite Ee. cbn [obind]. rewrite Np, Lf, Le, Z.eqb_refl. reflexivity. }
  unfold inelastic_new_load. rewrite Np.
  assert (Sq : forall i s, nth_error (SpecPhys.expand_species (e_products e)) i = Some s -> exists t m q, getTermForProduct (e_products e) (Z.of_nat i) = Ok t /\ db (t_species t) = Ok (m, q)).
  { intros i s Hs. destruct (product_species _ (Z.of_nat i) s Hok) as (t & Et & Es); [lia|rewrite Nat2Z.id; exact Hs|].
    rewrite <- Sp in Hs. apply nth_error_In, in_map_iff in Hs as (o & Eo' & Io). rewrite List.Forall_forall in Fo. specialize (Fo o Io).
    exists t, (mc_mass o), (mc_charge o). rewrite Es, <- Eo'. auto. }
  set (hasE := negb _).
  assert (HE : forall d : N, (hasE && neqb (if hasE then d else n0) n0)%bool = true -> hasE = true /\ neqb d n0 = true).
  { intros d H. apply andb_true_iff in H as [-> H]. auto. }
  assert (Hd : (hasE && neqb (if hasE then match kec with Some d => d | None => nsub n0 th end else n0) n0)%bool = false).
  { destruct (hasE && _)%bool eqn:E; [|reflexivity]. apply HE in E as [E1 E2]. unfold hasE in E1. rewrite E2 in E1. discriminate. }
  destruct (Z.eqb_spec (Z.of_nat (length (SpecPhys.expand_species (e_products e)))) 2) as [E2|E2].
  - assert (L2 : length (SpecPhys.expand_species (e_products e)) = 2%nat) by lia.
    destruct (SpecPhys.expand_species (e_products e)) as [|s0 [|s1 [|? ?]]] eqn:Ex; try discriminate.
    destruct (Sq 0%nat s0 eq_refl) as (t0 & m0 & q0 & G0 & D0). destruct (Sq 1%nat s1 eq_refl) as (t1 & m1 & q1 & G1 & D1).
    rewrite Hb. cbn [obind]. unfold make22. rewrite Hd. rewrite Np. cbn [ie_factories ie_expr length]. rewrite Lf, Le. cbn [length Z.of_nat Pos.of_succ_nat Pos.succ Z.eqb Pos.eqb Nat.eqb negb orb].
    rewrite Ne, Hx. cbn [Bool.eqb negb]. rewrite S1 by lia. change 0%Z with (Z.of_nat 0). rewrite G0. cbn [obind]. change 1%Z with (Z.of_nat 1). rewrite G1. cbn [obind]. rewrite D0, D1. cbn [obind]. eauto.
  - destruct (Z.eqb_spec (Z.of_nat (length (SpecPhys.expand_species (e_products e)))) 3) as [E3|E3]; [|eauto].
    assert (L2 : length (SpecPhys.expand_species (e_products e)) = 3%nat) by lia.
    destruct (SpecPhys.expand_species (e_products e)) as [|s0 [|s1 [|s2 [|? ?]]]] eqn:Ex; try discriminate.
    destruct (Sq 0%nat s0 eq_refl) as (t0 & m0 & q0 & G0 & D0). destruct (Sq 1%nat s1 eq_refl) as (t1 & m1 & q1 & G1 & D1). destruct (Sq 2%nat s2 eq_refl) as (t2 & m2 & q2 & G2 & D2).
    rewrite Hb. cbn [obind]. unfold make23. rewrite Hd. rewrite Np. cbn [ie_factories ie_expr length]. rewrite Lf, Le. cbn [length Z.of_nat Pos.of_succ_nat Pos.succ Z.eqb Pos.eqb Nat.eqb negb orb].
    rewrite Ne, Hx. cbn [Bool.eqb negb]. rewrite S1 by lia. change 0%Z with (Z.of_nat 0). rewrite G0. cbn [obind]. change 1%Z with (Z.of_nat 1). rewrite G1. cbn [obind]. change 2%Z with (Z.of_nat 2). rewrite G2. cbn [obind].
    rewrite D0, D1, D2. cbn [obind]. eauto.
Qed.
End Plain.

(** ** Real masses and charges *)
Lemma loaded_threshold fuel allowed inf ninf tol solve (mu : reducedMass RNum) dc c :
  xs_load (N:=RNum) fuel allowed inf ninf tol solve mu dc = Ok c -> exists th, getThresholdEnergy c = Ok th.
Proof.
  destruct dc; cbn [xs_load]; intros H; apply obind_ok in H as (y & E & H).
  1,2,3,4: destruct y; injection H as <-; eexists; reflexivity.
  - injection H as <-. unfold data_init in E. apply obind_ok in E as (t & E & E'). apply obind_ok in E' as ([[[? ?] ?] ?] & _ & E'). injection E' as <-.
    cbn [getThresholdEnergy]. unfold data_thrE. cbn [d_table]. destruct t as [|x t]; [|eexists; reflexivity]. exfalso.
    revert E. clear. generalize (loadCrossSectionData mu rows) as l. intros l. induction l as [|x l IH]; [discriminate|]. destruct l as [|y l].
    + cbn. destruct (Reqb _ _); discriminate.
    + change (checkThreshold (x :: y :: l)) with (if ((neqb (snd x) n0) && (neqb (snd y) n0))%bool then checkThreshold (y :: l) else Ok (x :: y :: l)).
      destruct (_ && _)%bool; [exact IH|discriminate].
  - injection H as <-. eexists; reflexivity.
Qed.

Section Real.
Variables (fuel : nat) (allowed : bool) (inf ninf : RNum) (tol : RNum -> RNum -> bool)
  (solve : (RNum -> RNum) -> RNum -> RNum -> RNum * RNum) (finf : RNum)
  (parse : string -> outcome (list (expr RNum))) (fcm fcq : bool).
Notation reg := (default_reg (N:=RNum) fuel allowed inf ninf tol solve (setParticleFactories (N:=RNum) finf) parse fcm fcq).
Notation load := (xs_load (N:=RNum) fuel allowed inf ninf tol solve).
Hypothesis finf1 : 1 <= finf.

Section Species.
Variable r : list (prop RNum).
Hypothesis Ur : unique_names r.
Hypothesis Hpos : forall p, In p r -> 0 < pr_mass p.

Lemma charge_named_in p : In p r -> charge_named r (pr_name p) = pr_charge p.
Proof.
  revert Ur. unfold unique_names, charge_named. clear. induction r as [|a l IH]; [intros _ []|]. cbn [map find]. intros ND I. inversion ND as [|? ? Hnot ND']; subst.
  destruct (String.eqb_spec (pr_name p) (pr_name a)) as [E|E].
  - destruct I as [->|I]; [reflexivity|]. exfalso. apply Hnot. rewrite <- E. now apply in_map.
  - destruct I as [->|I]; [contradiction|]. now apply IH.
Qed.
Lemma mq_nth i p : nth_error r i = Some p -> db_mq r (Z.of_nat i) = Ok (pr_mass p, pr_charge p).
Proof. intros H. unfold db_mq, db_get, oget. replace (Z.of_nat i <? 0)%Z with false by (symmetry; apply Z.ltb_ge; lia). rewrite Nat2Z.id, H. reflexivity. Qed.
Lemma mq_inv s m q : db_mq r s = Ok (m, q) -> exists i p, s = Z.of_nat i /\ nth_error r i = Some p /\ m = pr_mass p /\ q = pr_charge p.
Proof.
  unfold db_mq, db_get, oget. destruct (Z.ltb_spec s 0); [discriminate|]. destruct (nth_error r (Z.to_nat s)) as [p|] eqn:E; [|discriminate].
  cbn. intros [= <- <-]. exists (Z.to_nat s), p. rewrite Z2Nat.id by lia. auto.
Qed.

Lemma total_fold (w : massCharge RNum -> R) l : total (N:=RNum) w l = Rsum (map w l).
Proof.
  unfold total. change (@n0 RNum) with 0. assert (G : forall a, fold_left (fun s x => nadd (n:=RNum) s (w x)) l a = a + Rsum (map w l)).
  { induction l as [|x l IH]; intros a; cbn [fold_left map Rsum fold_right]; [lra|]. rewrite IH. unR. unfold Rsum. lra. }
  rewrite G. lra.
Qed.
(** Masses and charges of products that can be given places. *)
Lemma matched_real (a b : massCharge RNum) outs : 0 < mc_mass a -> 0 < mc_mass b -> 0 < Rsum (map mc_mass outs) ->
  (mc_charge a + mc_charge b = 0 <-> Rsum (map mc_charge outs) = 0) ->
  (mc_charge a + mc_charge b <> 0 -> Rabs (mc_charge b - mc_charge a) <> finf * Rabs (mc_charge a + mc_charge b)) ->
  matched (N:=RNum) finf a b outs = true.
Proof.
  intros Pa Pb Ps Q1 Q2. unfold matched. pose proof (total_fold mc_mass outs : total (N:=RNum) mc_mass outs = Rsum (map mc_mass outs)) as T1.
  pose proof (total_fold mc_charge outs : total (N:=RNum) mc_charge outs = Rsum (map mc_charge outs)) as T2.
  rewrite <- T1 in Ps. rewrite <- T2 in Q1. clear T1 T2. revert Ps Q1. generalize (total (N:=RNum) mc_charge outs) as tq, (total (N:=RNum) mc_mass outs) as tm.
  intros tq tm Htm Q1. destruct a as [ma qa sa fa], b as [mb qb sb fb]. cbn [mc_mass mc_charge] in *.
  unfold centre. cbn -[Rdiv Rmult Rplus Rminus IZR]. 
  destruct (Reqb_spec tm 0) as [E|_]; [exfalso; cbn in *; lra|].
  destruct (Reqb_spec (0 + ma + mb) 0) as [E|_]; [exfalso; cbn in *; lra|].
  assert (L : (0 + -1 * ma + 1 * mb) / (0 + ma + mb) < 1).
  { cbn in *. apply (Rmult_lt_reg_r (0 + ma + mb)); [lra|]. unfold Rdiv. rewrite Rmult_assoc, Rinv_l by lra. lra. }
  destruct (Reqb_spec ((0 + -1 * ma + 1 * mb) / (0 + ma + mb)) finf) as [E|_]; [exfalso; cbn in *; lra|]. cbn [Bool.eqb andb].
  destruct (Reqb_spec (0 + qa + qb) 0) as [Z0|Z0].
  - destruct (Reqb_spec finf finf); [|contradiction]. destruct (Reqb_spec tq 0) as [|Z1]; [reflexivity|]. exfalso. apply Z1, Q1. cbn in *. lra.
  - destruct (Reqb_spec tq 0) as [Z1|Z1]; [exfalso; apply Z0; apply Q1 in Z1; cbn in *; lra|].
    destruct (Reqb_spec ((0 + -1 * qa + 1 * qb) / (0 + qa + qb)) finf) as [E|_]; [|reflexivity]. exfalso.
    apply Q2; [cbn in *; lra|]. rewrite <- (Rabs_pos_eq finf) by (cbn in *; lra). rewrite <- Rabs_mult. f_equal. rewrite <- E. cbn. field. cbn in *; lra.
Qed.

(** Products by name. *)
Lemma outs_named (h : prop RNum -> R) (hn : string -> R) xl l (outs : list (massCharge RNum)) (w : massCharge RNum -> R) :
  (forall p, In p r -> hn (pr_name p) = h p) ->
  List.Forall (fun o => exists i p, mc_species o = Z.of_nat i /\ nth_error r i = Some p /\ w o = h p) outs ->
  map mc_species outs = SpecPhys.expand_species l ->
  Permutation (SpecPhys.expand_species l) (map (findParticleIndx r) (expand_names xl)) -> List.Forall (known r) xl ->
  Rsum (map w outs) = total_named hn xl.
Proof.
  intros Hh Fo Sp Pm Hk. unfold total_named.
  replace (map w outs) with (map (fun s => hn (name_of r s)) (map mc_species outs)).
  - rewrite Sp. rewrite (Rsum_perm _ _ (Permutation_map _ Pm)), map_map. f_equal. apply map_ext_in. intros n Hn.
    unfold expand_names in Hn. apply in_concat in Hn as (l' & Hl & Hn). apply in_map_iff in Hl as (t & <- & Ht). apply repeat_spec in Hn. subst n.
    rewrite List.Forall_forall in Hk. specialize (Hk t Ht). unfold findParticleIndx.
    destruct (findParticle r (x_P t)) as [i|] eqn:Ef; [now rewrite (find_name r _ _ Ef)|].
    apply findParticle_none in Ef. contradiction.
  - rewrite map_map. apply map_ext_in. intros o Ho. rewrite List.Forall_forall in Fo. destruct (Fo o Ho) as (i & p & -> & Hi & ->).
    rewrite (name_nth _ _ _ Hi). apply Hh. eapply nth_error_In, Hi.
Qed.

(** The products are sorted by mass. *)
Lemma products_sorted xl (mo : tmap RNum) : term_map_of r xl mo ->
  StronglySorted (fun a b => mass_of r a <= mass_of r b)
    (SpecPhys.expand_species (map (fun e => mkTerm (Z.of_nat (fst (fst e))) (ti_n (snd e)) (ti_from (snd e)) (ti_ops (snd e))) mo)).
Proof.
  intros (As & _ & En). unfold SpecPhys.expand_species. rewrite map_map. unfold ascending in As. cbn [t_species t_n].
  induction mo as [|e mo IH]; cbn [map concat]; [constructor|]. inversion As as [|? ? As' Fa]; subst. inversion En as [|? ? E0 En']; subst.
  specialize (IH As' En').
  assert (Ma : mass_of r (Z.of_nat (fst (fst e))) = pr_mass (snd (fst e))).
  { destruct E0 as ((Hf & _) & _). now apply mass_nth. }
  assert (Fall : List.Forall (fun s => mass_of r (Z.of_nat (fst (fst e))) <= mass_of r s)
    (concat (map (fun e => repeat (Z.of_nat (fst (fst e))) (Z.to_nat (ti_n (snd e)))) mo))).
  { apply List.Forall_forall. intros s Hs. apply in_concat in Hs as (l & Hl & Hs). apply in_map_iff in Hl as (e' & <- & He'). apply repeat_spec in Hs. subst s.
    rewrite List.Forall_forall in Fa, En'. specialize (En' e' He'). destruct En' as ((Hf & _) & _). rewrite (mass_nth _ _ _ Hf), Ma.
    assert (Hp : prop_ltb (snd (fst e)) (snd (fst e')) = true) by (apply Fa; apply in_map_iff; eauto).
    unfold prop_ltb in Hp. apply orb_true_iff in Hp as [Hp|Hp]; unR.
    - destruct (Rltb_spec (pr_mass (snd (fst e))) (pr_mass (snd (fst e')))); [lra|discriminate].
    - apply andb_true_iff in Hp as [Hp _]. destruct (Reqb_spec (pr_mass (snd (fst e))) (pr_mass (snd (fst e')))); [lra|discriminate]. }
  induction (Z.to_nat (ti_n (snd e))) as [|n IHn]; cbn [repeat app]; [exact IH|]. constructor; [exact IHn|].
  apply Forall_app. split; [|exact Fall]. apply List.Forall_forall. intros s Hs. apply repeat_spec in Hs. subst s. lra.
Qed.

Lemma equation_loads x : List.Forall (known r) (xi_in x) -> List.Forall (known r) (xi_out x) -> SpecEq.positive (xi_in x) -> sum_n (xi_in x) = 2%Z ->
  loadable finf load r x -> exists q, load_equation reg r x = Ok q.
Proof.
  intros KI KO PI S2 (NO & [Hlen Hops] & Hmod & (dc & Ecs & Hcs) & Hpl).
  assert (Hok : masses_ok (fun _ => True) r) by (apply List.Forall_forall; intros; exact I).
  destruct (core_ok (fun _ => True) R_mass_order r Hok (xi_in x) (xi_out x) KI KO PI NO S2)
    as (e & same & iA & pA & iB & pB & mi & mo & Ec & EA & EB & (FA & _) & (FB & _) & _ & Pm & Mu & Po & Ps & _ & Mo & _ & Epr).
  change (expand_species (e_products e)) with (SpecPhys.expand_species (e_products e)) in Ps.
  assert (PA : 0 < pr_mass pA) by (apply Hpos; eapply nth_error_In; exact FA).
  assert (PB : 0 < pr_mass pB) by (apply Hpos; eapply nth_error_In; exact FB).
  destruct (Hcs _ _ PA PB) as (c & Hc).
  unfold load_equation. rewrite Ec. cbn [obind].
  assert (Elc : load_cs reg x e = Ok c).
  { unfold load_cs. rewrite Ecs, <- Hc, <- Mu. destruct dc; reflexivity. }
  rewrite Elc. cbn [obind].
  destruct (loaded_threshold _ _ _ _ _ _ _ _ _ Hc) as (th & Eth).
  assert (Hl : model_label x same = "elastic"%string \/ model_label x same = "inelastic"%string \/ (model_label x same = "vss_elastic"%string /\ xi_vss x <> None)).
  { unfold model_label. unfold model_known in Hmod. destruct (xi_model x); [exact Hmod|]. destruct same; auto. }
  destruct Hl as [-> | [-> | [-> Hv]]]; cbn [r_im default_reg String.eqb Ascii.eqb Bool.eqb].
  { cbn [obind]. eauto. }
  2:{ destruct (xi_vss x); [|contradiction]. cbn [obind]. eauto. }
  rewrite Eth. cbn [obind].
  match goal with |- context [inelastic_new_load ?db ?spf ?ps ?a ?b ?k ?t e] => assert (G : exists m, inelastic_new_load db spf ps a b k t e = Ok m) end.
  2:{ destruct G as (m & ->). cbn [obind]. eauto. }
  assert (Lsp : length (SpecPhys.expand_species (e_products e)) = length (products x)).
  { rewrite (Permutation_length Ps), map_length. reflexivity. }
  assert (Htk : terms_ok (e_products e)).
  { split; [eapply List.Forall_impl; [|exact Po]; intros t (i & p & _ & _ & ->); cbn [t_n]; lia|].
    rewrite expand_bound, Lsp. unfold products. lia. }
  destruct (dispatch (db_mq r) (setParticleFactories (N:=RNum) finf) parse fcm fcq (xi_kec x) th e) as [D _].
  rewrite (numberProducts_len e Htk), Lsp in D.
  assert (H23 : (length (products x) = 2 \/ length (products x) = 3)%nat \/ (Z.of_nat (length (products x)) <> 2 /\ Z.of_nat (length (products x)) <> 3)%Z) by lia.
  destruct H23 as [H23|[N2 N3]].
  2:{ destruct (D N2 N3) as (m & Em & _). exists m. exact Em. }
  destruct (Hpl H23) as (Hfrom & Hch & Hthird).
  destruct (out_ok (db_mq r) (e_products e)) as (outs & Eo & Fo).
  { eapply List.Forall_impl; [|exact Po]. intros t (i & p & (F1 & _) & _ & ->). cbn [t_n t_from t_species]. split; [now rewrite <- count_froms|].
    rewrite (mq_nth _ _ F1). eauto. }
  destruct (massChargeOut_facts _ _ _ Eo) as [Sp Fr].
  set (a := mkMC (N:=RNum) (pr_mass pA) (pr_charge pA) (Z.of_nat iA) (-1)). set (b := mkMC (N:=RNum) (pr_mass pB) (pr_charge pB) (Z.of_nat iB) (-1)).
  assert (Lo : length outs = length (products x)) by (rewrite <- Lsp, <- Sp, map_length; reflexivity).
  assert (Fo' : List.Forall (fun o => exists i p, mc_species o = Z.of_nat i /\ nth_error r i = Some p /\ mc_mass o = pr_mass p /\ mc_charge o = pr_charge p) outs).
  { eapply List.Forall_impl; [|exact Fo]. intros o H. apply mq_inv in H as (i & p & H). eauto. }
  assert (Iname : forall o, In o outs -> In (name_of r (mc_species o)) (products x) /\ mass_named r (name_of r (mc_species o)) = mc_mass o /\ mass_of r (mc_species o) = mc_mass o).
  { intros o Ho. rewrite List.Forall_forall in Fo'. destruct (Fo' o Ho) as (i & p & Es & Hi & Em & _). rewrite Es, (name_nth _ _ _ Hi), (mass_nth _ _ _ Hi), Em.
    split; [|split; [apply mass_named_in; [exact Ur|eapply nth_error_In, Hi]|reflexivity]].
    assert (Is : In (mc_species o) (map (findParticleIndx r) (expand_names (xi_out x)))).
    { eapply Permutation_in; [exact Ps|]. rewrite <- Sp. now apply in_map. }
    apply in_map_iff in Is as (n & En & In'). rewrite Es in En.
    assert (Hkn : In n (map (pr_name (N:=RNum)) r)).
    { unfold expand_names in In'. apply in_concat in In' as (l' & Hl & Hn). apply in_map_iff in Hl as (t & <- & Ht). apply repeat_spec in Hn. subst n.
      rewrite List.Forall_forall in KO. apply (KO t Ht). }
    destruct (known_first r n Hkn) as (i' & p' & F'). rewrite (indx_first _ _ _ _ F') in En. apply Nat2Z.inj in En. subst i'.
    destruct F' as (F1 & F2 & _). rewrite Hi in F1. injection F1 as <-. rewrite F2. exact In'. }
  assert (Hub : setParticleFactories (N:=RNum) finf [a; b] outs <> UB).
  { intros Ub. apply (factories_ub (N:=RNum) finf a b Rltb_irr Rltb_trs) in Ub; [|rewrite Lo; lia].
    destruct Ub as (i & o & Hi & [Hb|(H2 & _ & Hh)]).
    - assert (If : In (mc_from o) (map mc_from outs)) by (apply in_map; eapply nth_error_In, Hi). rewrite Fr in If.
      apply in_concat in If as (l & Hl' & If). apply in_map_iff in Hl' as (t & <- & Ht).
      assert (If' : In (mc_from o) (t_from t)) by (revert If; clear; generalize (Z.to_nat (t_n t)) as n; induction (t_from t) as [|z l IH]; intros [|n]; cbn; try tauto; intros [->|H]; [now left|right; eapply IH, H]).
      rewrite List.Forall_forall in Po. destruct (Po t Ht) as (i' & p' & _ & _ & ->). cbn [t_from] in If'. unfold froms_of in If'.
      apply in_concat in If' as (l' & Hl'' & If'). apply in_map_iff in Hl'' as (xt & <- & Hxt). apply repeat_spec in If'. apply filter_In in Hxt as [Hxt _].
      rewrite List.Forall_forall in Hfrom. specialize (Hfrom xt Hxt). lia.
    - assert (L3 : length (products x) = 3%nat) by (assert (i < length outs)%nat by (apply nth_error_Some; congruence); lia).
      assert (i = 2%nat) as -> by (assert (i < length outs)%nat by (apply nth_error_Some; congruence); lia).
      assert (Io : In o outs) by (eapply nth_error_In, Hi).
      destruct (Iname o Io) as (N1 & M1 & _).
      assert (Hmax : forall n', In n' (products x) -> mass_named r n' <= mass_named r (name_of r (mc_species o))).
      { intros n' Hn'. rewrite M1.
        assert (Ho' : exists o', In o' outs /\ name_of r (mc_species o') = n').
        { assert (Is : In (findParticleIndx r n') (map mc_species outs)).
          { rewrite Sp. eapply Permutation_in; [apply Permutation_sym, Ps|]. now apply in_map. }
          apply in_map_iff in Is as (o' & Eo' & Io'). exists o'. split; [exact Io'|]. rewrite Eo'.
          assert (Hkn : In n' (map (pr_name (N:=RNum)) r)).
          { unfold products, expand_names in Hn'. apply in_concat in Hn' as (l' & Hl & Hn). apply in_map_iff in Hl as (t & <- & Ht). apply repeat_spec in Hn. subst n'.
            rewrite List.Forall_forall in KO. apply (KO t Ht). }
          destruct (known_first r n' Hkn) as (i' & p' & F'). rewrite (indx_first _ _ _ _ F'). destruct F' as (F1 & F2 & _). now rewrite (name_nth _ _ _ F1). }
        destruct Ho' as (o' & Io' & <-). destruct (Iname o' Io') as (_ & M2 & M3). rewrite M2.
        pose proof (products_sorted _ _ Mo) as So. rewrite <- Epr, <- Sp in So.
        destruct outs as [|o0 [|o1 [|o2 [|]]]]; try (cbn in Lo; lia). cbn in Hi. injection Hi as <-. cbn [map] in So.
        inversion So as [|? ? So1 F0]; subst. inversion So1 as [|? ? So2 F1]; subst.
        inversion F0 as [|? ? _ F0']; subst. inversion F0' as [|? ? G0 _]; subst. inversion F1 as [|? ? G1 _]; subst.
        rewrite (proj2 (proj2 (Iname o2 ltac:(cbn; tauto)))) in G0, G1.
        destruct Io' as [<-|[<-|[<-|[]]]]; lra. }
      assert (Hhit : mc_mass o = pr_mass pA \/ mc_mass o = pr_mass pB).
      { unfold hits in Hh. cbn [mc_mass a b] in Hh. unR. apply orb_true_iff in Hh as [Hh|Hh];
        [left; destruct (Reqb_spec (mc_mass o) (pr_mass pA))|right; destruct (Reqb_spec (mc_mass o) (pr_mass pB))]; try discriminate; assumption. }
      destruct Hhit as [Hm|Hm].
      + apply (Hthird L3 (name_of r (mc_species o)) (pr_name pA) N1); [eapply Permutation_in; [exact Pm|now left]|exact Hmax|].
        rewrite M1, Hm. symmetry. apply mass_named_in; [exact Ur|eapply nth_error_In, FA].
      + apply (Hthird L3 (name_of r (mc_species o)) (pr_name pB) N1); [eapply Permutation_in; [exact Pm|right; now left]|exact Hmax|].
        rewrite M1, Hm. symmetry. apply mass_named_in; [exact Ur|eapply nth_error_In, FB]. }
  destruct (factories_rejected (N:=RNum) finf a b Rltb_irr Rltb_trs outs Hub) as [Hf _].
  destruct Hf as (fs & Ef).
  { assert (Tq : Rsum (map mc_charge outs) = total_named (charge_named r) (xi_out x)).
    { apply (outs_named pr_charge (charge_named r) (xi_out x) (e_products e) outs mc_charge); [exact charge_named_in|eapply List.Forall_impl; [|exact Fo']; intros o (i & p & H1 & H2 & _ & H3); eauto|exact Sp|exact Ps|exact KO]. }
    destruct (Hch (pr_name pA) (pr_name pB) Pm) as [Hq1 Hq2]. cbv zeta in Hq1, Hq2.
    rewrite (charge_named_in pA (nth_error_In _ _ FA)), (charge_named_in pB (nth_error_In _ _ FB)) in Hq1, Hq2. rewrite <- Tq in Hq1.
    apply matched_real; try assumption.
    - assert (Hpos' : 0 < Rsum (map mc_mass outs)).
      { destruct outs as [|o0 outs']; [exfalso; cbn in Lo; lia|]. assert (K : forall l, List.Forall (fun o : massCharge RNum => 0 < mc_mass o) l -> 0 <= Rsum (map mc_mass l)).
        { induction 1 as [|o l Ho _ IHl]; [cbn; lra|]. change (0 <= (mc_mass o : R) + Rsum (map mc_mass l)). apply Rplus_le_le_0_compat; [left; exact Ho|exact IHl]. }
        assert (Fp : List.Forall (fun o : massCharge RNum => 0 < mc_mass o) (o0 :: outs')).
        { eapply List.Forall_impl; [|exact Fo']. intros o (i & p & _ & H2 & -> & _). apply Hpos. eapply nth_error_In, H2. }
        inversion Fp as [|? ? G1 G2]; subst. specialize (K _ G2). change (0 < (mc_mass o0 : R) + Rsum (map mc_mass outs')). apply Rplus_lt_le_0_compat; [exact G1|exact K]. }
      exact Hpos'.
  }
  eapply (new_load_ok (db_mq r) finf parse fcm fcq (xi_kec x) th e (pr_mass pA) (pr_charge pA) (pr_mass pB) (pr_charge pB) outs fs);
    [exact Rltb_irr|exact Rltb_trs|exact Htk|eapply product_no_ops; eassumption| | | |exact Eo|exact Fo|].
  - eapply List.Forall_impl; [|exact Po]. intros t (i & p & _ & _ & ->). cbn [t_n t_ops]. now rewrite <- count_ops.
  - rewrite EA. cbn [t_species term_sp]. now apply mq_nth.
  - rewrite EB. cbn [t_species term_sp]. now apply mq_nth.
  - rewrite EA, EB. exact Ef.
Qed.
End Species.

(** ** Whole documents *)
Lemma find_perm (l l' : list (prop RNum)) n : Permutation l l' -> unique_names l ->
  find (fun p => String.eqb n (pr_name p)) l = find (fun p => String.eqb n (pr_name p)) l'.
Proof.
  intros Pm U. assert (G : forall (l : list (prop RNum)) p, unique_names l -> In p l -> String.eqb n (pr_name p) = true -> find (fun p => String.eqb n (pr_name p)) l = Some p).
  { clear. intros l p. unfold unique_names. induction l as [|a l IH]; [intros _ []|]. cbn [map find]. intros ND I E. inversion ND as [|? ? Hnot ND']; subst.
    destruct (String.eqb_spec n (pr_name a)) as [Ea|Ea].
    - destruct I as [->|I]; [reflexivity|]. exfalso. apply Hnot. apply String.eqb_eq in E. rewrite <- Ea, E. now apply in_map.
    - destruct I as [->|I]; [apply String.eqb_eq in E; contradiction|]. now apply IH. }
  destruct (find (fun p => String.eqb n (pr_name p)) l) as [p|] eqn:E.
  - apply find_some in E as [I E]. symmetry. apply G; [eapply Permutation_NoDup; [apply Permutation_map, Pm|exact U]|eapply Permutation_in; eassumption|exact E].
  - destruct (find (fun p => String.eqb n (pr_name p)) l') as [p|] eqn:E'; [|reflexivity]. apply find_some in E' as [I E'].
    exfalso. pose proof (find_none _ _ E p ltac:(eapply Permutation_in; [apply Permutation_sym, Pm|exact I])) as H. cbn in H. congruence.
Qed.
Lemma loadable_perm props r x : Permutation props r -> unique_names props -> loadable finf load props x -> loadable finf load r x.
Proof.
  intros Pm U (H1 & H2 & H3 & H4 & H5). do 4 (split; [assumption|]).
  assert (Em : forall n, mass_named r n = mass_named props n) by (intros n; unfold mass_named; now rewrite (find_perm props r n Pm U)).
  assert (Eq : forall n, charge_named r n = charge_named props n) by (intros n; unfold charge_named; now rewrite (find_perm props r n Pm U)).
  intros Hl. destruct (H5 Hl) as (K1 & K2 & K3). split; [assumption|]. split.
  - intros a b Pab. cbv zeta. rewrite !Eq. destruct (K2 a b Pab) as [L1 L2]. cbv zeta in L1, L2. split; [|exact L2].
    unfold total_named in *. rewrite (map_ext _ _ Eq). exact L1.
  - intros L3 n a Hn Ha Hmax. rewrite !Em. apply K3; try assumption. intros n' Hn'. specialize (Hmax n' Hn'). rewrite !Em in Hmax. exact Hmax.
Qed.
Lemma omap_all {A B} (h : A -> outcome B) l : (forall a, In a l -> exists b, h a = Ok b) -> exists bs, omap h l = Ok bs.
Proof.
  induction l as [|a l IH]; intros H; [eexists; reflexivity|]. destruct (H a ltac:(now left)) as (b & Eb). destruct IH as (bs & Ebs); [intros; apply H; now right|].
  cbn. rewrite Eb. cbn. rewrite Ebs. eexists; reflexivity.
Qed.
Lemma document_loads d f props : unique_names props -> (forall p, In p props -> 0 < pr_mass p) ->
  set_ok (x_inter d) -> plain_names props (x_inter d) ->
  (forall x, In x (x_inter d) -> among props x -> xi_cs x <> None -> length (reactants x) = 2%nat -> loadable finf load props x) ->
  exists s, initBinary reg d f props = Ok (sort_props props, s).
Proof.
  intros U Hpos Hd Hn Hx. unfold initBinary. cbv zeta. pose proof (sort_perm props) as Pm. set (r := sort_props props) in *.
  assert (Ur : unique_names r) by (eapply Permutation_NoDup; [apply Permutation_map, Pm|exact U]).
  assert (Hr : forall p, In p r -> 0 < pr_mass p) by (intros p Ip; apply Hpos; eapply Permutation_in; [apply Permutation_sym, Pm|exact Ip]).
  assert (Hn' : plain_names r (x_inter d)).
  { destruct Hn as [N1 N2]. split; [|exact N2]. intros p Ip. apply N1. eapply Permutation_in; [apply Permutation_sym, Pm|exact Ip]. }
  assert (Kn : forall xl, List.Forall (known r) xl -> List.Forall (known props) xl).
  { intros xl. apply List.Forall_impl. intros t. unfold known. apply Permutation_in, Permutation_map, Permutation_sym, Pm. }
  match goal with |- context [omap ?h ?l] => destruct (omap_all h l) as (bs & ->) end.
  - intros [A B] Hk. apply pairs_in in Hk. cbn [fst snd].
    destruct (pair_total d f r A B Hd) as (xs & Exs); [lia|lia|]. rewrite Exs. cbn [obind].
    destruct (omap_all (load_equation reg r) xs) as (qs & Eqs); [|rewrite Eqs; cbn [obind]; eauto].
    intros x Ix. destruct (pair_selected d f r A B xs Hd Ur Hn' Exs) as (m & Sm & _ & Hm & R).
    destruct (filter_total (x_inter d) Hd f m Sm) as (r' & Er & _ & Sub). { intros y Iy. apply Hm in Iy. tauto. }
    rewrite R in Er. injection Er as <-. apply Sub, Hm in Ix as [Ix Hb].
    pose proof Hb as (Hcs & (pA & pB & HA & HB & W) & _ & Ko).
    destruct (written_names _ _ _ _ _ W) as [Pos Nm].
    assert (Nm' : Permutation [pr_name pA; pr_name pB] (expand_names (xi_in x))).
    { apply Nm. destruct (Nat.eq_dec A B) as [->|E]; [right|left; exact E]. congruence. }
    assert (L2 : length (expand_names (xi_in x)) = 2%nat) by (rewrite <- (Permutation_length Nm'); reflexivity).
    assert (Ki : List.Forall (known r) (xi_in x)).
    { destruct W as [W1 W2].
      assert (IA : In (pr_name pA) (map (pr_name (N:=RNum)) r)) by (apply in_map; eapply nth_error_In; exact HA).
      assert (IB : In (pr_name pB) (map (pr_name (N:=RNum)) r)) by (apply in_map; eapply nth_error_In; exact HB).
      destruct (Nat.eq_dec A B) as [E|E].
      - destruct (W1 E) as (t & -> & E1 & _). constructor; [|constructor]. unfold known. rewrite E1. exact IA.
      - destruct (W2 E) as (t & u & Pm' & [T1 _] & [U1 _]). eapply Permutation_Forall; [apply Permutation_sym; exact Pm'|].
        constructor; [unfold known; rewrite T1; exact IA|constructor; [unfold known; rewrite U1; exact IB|constructor]]. }
    apply equation_loads; try assumption.
    + rewrite (sum_expand _ (positive_nonneg _ Pos)). lia.
    + apply (loadable_perm props r x Pm U). apply Hx; try assumption. split; now apply Kn.
  - eexists. reflexivity.
Qed.
End Real.
