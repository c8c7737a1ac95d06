(** The shipped data loads. *)
From Coq Require Import Reals Qreals Lra Lia String Ascii ZArith QArith Bool Arith Sorted Permutation List.
From Verif Require Import Base Num ModelTerm ModelCollide ModelFactories ModelXsec ModelSet ModelEq ModelFilter ModelDB ModelShippedTables ModelShipped
  SpecTerm SpecPhys SpecFactories SpecXsec SpecSet SpecEq SpecFilter SpecDB SpecMore SpecRun SpecInit SpecLoadable SpecShipped
  ProofXsec ProofData ProofInelastic ProofRun ProofRun2 ProofInit ProofInit2 ProofLoadable ProofShipped.
From Coq Require Import List.
Import ListNotations.
Local Open Scope R_scope.

(** ** The checks on the data *)
Fixpoint new_row (seen : list Q) (rows : list (Q * Q)) : bool :=
  match rows with
  | [] => false
  | (e, s) :: r => if (negb (Qeq_bool s 0) && forallb (fun e' => negb (Qeq_bool e' e)) seen)%bool then true else new_row (e :: seen) r
  end.
Definition cs_ok (c : ship_cs) : bool :=
  match c with
  | SData rows => forallb (fun r => Qle_bool 0 (fst r)) rows && new_row [] rows
  | _ => true
  end.
Definition out_checked (i : ship_inter) : bool :=
  forallb (fun t => Z.leb 0 (xt_n t) && Z.ltb (xt_from t) 4) (si_out i).
Definition charge_checked (i : ship_inter) : bool :=
  match expand_names (si_in i) with
  | [a; b] => Z.eqb (zcharge a + zcharge b) 0 || Z.leb (Z.abs (zcharge b - zcharge a)) (Z.abs (zcharge a + zcharge b))
  | _ => true
  end.
Definition electron (n : string) : bool := String.eqb n "e^-".
Definition lepton (n : string) : bool := electron n || String.eqb n "e^+".
Definition third_checked (i : ship_inter) : bool :=
  match expand_names (si_out i), expand_names (si_in i) with
  | [n; m; k], [a; b] => (electron n || electron m || electron k) && (electron a || electron b) && negb (lepton n && lepton m && lepton k)
  | _, _ => true
  end.
Definition load_checked (i : ship_inter) : bool := cs_ok (si_cs i) && out_checked i && charge_checked i && third_checked i.
Lemma all_load_checked : forallb load_checked shipped_interactions = true.
Proof. vm_compute. reflexivity. Qed.

(** ** Cross sections *)
Lemma mu_pos m1 m2 : 0 < m1 -> 0 < m2 -> 0 < rm_value (ReducedMass (N:=RNum) m1 m2).
Proof. intros H1 H2. rewrite ProofCollide.rm_val. apply Rdiv_lt_0_compat; [now apply Rmult_lt_0_compat|lra]. Qed.
Section Load.
Variables (val : string -> R) (ginv : R -> R).
Definition loaded_row (r : Q * Q) : quantity RNum * R := (QEnergy (N:=RNum) (Q2R (fst r) * val "eV")%R, Q2R (snd r)).
Lemma new_row_ok (mu : reducedMass RNum) : 0 < val "eV"%string -> 0 < rm_value mu -> forall rows pre seen,
  forallb (fun r => Qle_bool 0 (fst r)) (pre ++ rows) = true -> seen = rev (map fst pre) -> new_row seen rows = true ->
  exists v s, first_row mu (map loaded_row (pre ++ rows)) v s /\ s <> 0.
Proof.
  intros HeV Hmu. induction rows as [|[e s] r IH]; intros pre seen Hall Hs Hn; [discriminate|]. cbn [new_row] in Hn.
  destruct (negb (Qeq_bool s 0) && forallb (fun e' => negb (Qeq_bool e' e)) seen)%bool eqn:E.
  - clear IH Hn. apply andb_true_iff in E as [E1 E2]. exists (row_speed mu (fst (loaded_row (e, s)))), (Q2R s). split.
    + exists (map loaded_row pre), (fst (loaded_row (e, s))), (map loaded_row r). split; [rewrite map_app; reflexivity|]. split; [reflexivity|].
      apply List.Forall_forall. intros x Hx. apply in_map_iff in Hx as ([e' s'] & <- & Hx). cbn [fst snd loaded_row row_speed].
      rewrite forallb_forall in Hall, E2.
      pose proof (Hall (e', s') ltac:(apply in_app_iff; now left)) as P'. pose proof (Hall (e, s) ltac:(apply in_app_iff; right; now left)) as P.
      cbn [fst] in P, P'. apply Qle_bool_iff, Qle_Rle in P. apply Qle_bool_iff, Qle_Rle in P'. replace (Q2R 0) with 0 in * by (unfold Q2R; cbn; lra).
      specialize (E2 e'). cbv beta in E2. subst seen. rewrite <- in_rev in E2. specialize (E2 ltac:(apply in_map_iff; now exists (e', s'))).
      apply negb_true_iff in E2. apply Qeq_bool_neq in E2.
      assert (Hinv : 0 < / rm_value mu) by now apply Rinv_0_lt_compat.
      assert (G : forall q, 0 <= Q2R q -> 0 <= 2 * (Q2R q * val "eV"%string) / rm_value mu).
      { intros q Hq. unfold Rdiv. apply Rmult_le_pos; [|lra]. apply Rmult_le_pos; [lra|]. apply Rmult_le_pos; lra. }
      intros K. apply sqrt_inj in K; [|now apply G|now apply G]. apply E2, eqR_Qeq.
      apply (Rmult_eq_reg_r (2 * val "eV"%string * / rm_value mu)); [|apply Rgt_not_eq; apply Rmult_gt_0_compat; lra].
      unfold Rdiv in K. lra.
    + intros K. apply negb_true_iff in E1. apply Qeq_bool_neq in E1. apply E1, eqR_Qeq. rewrite K. unfold Q2R; cbn; lra.
  - destruct (IH (pre ++ [(e, s)]) (e :: seen)) as (v & s' & H & Hne); [now rewrite <- app_assoc|rewrite map_app, rev_app_distr, Hs; reflexivity|exact Hn|].
    rewrite <- app_assoc in H. eauto.
Qed.
Variables (fuel : nat) (allowed : bool) (inf ninf : RNum) (tol : RNum -> RNum -> bool) (solve : (RNum -> RNum) -> RNum -> RNum -> RNum * RNum).
Hypothesis Hfuel : (9900 <= Z.of_nat fuel)%Z.
Hypothesis Hsolve : forall f a b, tol (fst (solve f a b)) (snd (solve f a b)) = true.
Notation load := (xs_load (N:=RNum) fuel allowed inf ninf tol solve).
Lemma no_threshold (mu : reducedMass RNum) : exists e w, setThresholdEnergy (N:=RNum) (loadThreshold (N:=RNum) None mu n0) mu = Ok (e, w).
Proof. unfold setThresholdEnergy, loadThreshold. cbn. unfold Rltb. destruct (Rlt_dec 0 0) as [H|H]; [lra|]. eauto. Qed.
Lemma shipped_loads c : 0 < val "eV"%string -> cs_ok c = true -> shipped_cs val ginv c <> None ->
  exists d, shipped_cs val ginv c = Some (Some (label_of d), d) /\
  forall m1 m2, 0 < m1 -> 0 < m2 -> exists c, load (ReducedMass (N:=RNum) m1 m2) d = Ok c.
Proof.
  intros HeV Hc Hn. destruct c as [|rows|v T w|v|v|A B|ps]; [contradiction| | | | | |];
    (cbn [shipped_cs]; match goal with |- exists d, Some (_, ?D) = _ /\ _ => exists D end; split; [reflexivity|]; intros m1 m2 H1 H2); cbn [xs_load];
    try (destruct (no_threshold (ReducedMass (N:=RNum) m1 m2)) as (e & w' & ->); cbn; eauto).
  - cbn [cs_ok] in Hc. apply andb_true_iff in Hc as [C1 C2].
    pose proof (mu_pos m1 m2 H1 H2) as Hmu.
    destruct (new_row_ok (ReducedMass (N:=RNum) m1 m2) HeV Hmu rows [] [] C1 eq_refl C2) as (v & s & Hf & Hs).
    destruct (data_load_spec 0 fuel allowed inf ninf tol solve (ReducedMass (N:=RNum) m1 m2) (map loaded_row rows) Hmu Hfuel) as (t & _ & _ & _ & _ & K).
    destruct (K ltac:(eauto)) as (c & E & _). exists c. exact E.
  - unfold lotz_new. destruct (lotz_range inf ninf _) as [lo hi].
    match goal with |- context [if tol lo hi then ?x else ?y] => assert (exists thr, (if tol lo hi then x else y) = Ok thr) as (thr & ->) end.
    { destruct (tol lo hi); [eauto|]. rewrite Hsolve. eauto. }
    cbn [obind]. rewrite Hsolve. cbn [obind]. eauto.
Qed.
End Load.

(** ** Interactions *)
Lemma two_perm {A} (a b c d : A) : Permutation [a; b] [c; d] -> (a = c /\ b = d) \/ (a = d /\ b = c).
Proof.
  intros P. assert (I : In a [c; d]) by (eapply Permutation_in; [exact P|now left]). destruct I as [E|[E|[]]].
  - rewrite E in P. apply Permutation_cons_inv in P. apply Permutation_length_1 in P. auto.
  - rewrite E in P. assert (P' : Permutation [a; b] [a; c]) by (eapply perm_trans; [exact P|apply perm_swap]).
    apply Permutation_cons_inv in P'. apply Permutation_length_1 in P'. auto.
Qed.
Section Gas.
Variables (val : string -> R) (ginv : R -> R) (path : nat -> list string) (text : nat -> string * string).
Variables (d : document RNum) (ps : list ship_particle).
Hypothesis Hgas : shipped_gas val ginv path text d ps.
Hypothesis HeV : 0 < val "eV"%string.
Hypothesis Hlight : light_electrons val ps.
Notation props := (map (shipped_prop val) ps).
Lemma gas_charge_named n : In n (map (pr_name (N:=RNum)) props) -> charge_named props n = charge_called n * val "e"%string.
Proof.
  intros H. rewrite map_map in H. apply in_map_iff in H as (p & <- & Hp).
  change (pr_name (shipped_prop val p)) with (sp_name p).
  change (sp_name p) with (pr_name (shipped_prop val p)) at 1. rewrite charge_named_in; [|eapply gas_unique; exact Hgas|now apply in_map].
  destruct Hgas as (_ & Hin & _). unfold charge_called. rewrite (ship_named_in p (Hin p Hp)). reflexivity.
Qed.
Lemma zcharge_called n : charge_called n = IZR (zcharge n).
Proof. unfold charge_called, zcharge. destruct (ship_named n); reflexivity. Qed.
Lemma mass_gas n : In n (map (pr_name (N:=RNum)) props) -> exists p, In p ps /\ sp_name p = n /\ mass_named props n = linear val (sp_mass p).
Proof.
  intros H. pose proof H as H'. rewrite map_map in H. apply in_map_iff in H as (p & <- & Hp). exists p. split; [exact Hp|]. split; [reflexivity|].
  rewrite (gas_mass_named _ _ _ _ _ _ Hgas _ H'). unfold mass_called. change (pr_name (shipped_prop val p)) with (sp_name p). destruct Hgas as (_ & Hin & _). rewrite (ship_named_in p (Hin p Hp)). reflexivity.
Qed.
Lemma electron_mass p : In p ps -> sp_name p = "e^-"%string -> linear val (sp_mass p) = val "m_e"%string.
Proof.
  intros Hp E. destruct Hgas as (_ & Hin & _). pose proof (ship_named_in p (Hin p Hp)) as K. rewrite E in K.
  assert (K' : ship_named "e^-" = Some (mkSP "e^-" [(1, "m_e"%string)]%Z (-1))) by reflexivity. rewrite K' in K. injection K as <-. cbn. lra.
Qed.
Lemma mass_electron : In "e^-"%string (map (pr_name (N:=RNum)) props) -> mass_named props "e^-"%string = val "m_e"%string.
Proof. intros H. destruct (mass_gas _ H) as (p & Hp & E & ->). now apply electron_mass. Qed.
Lemma mass_heavy n : In n (map (pr_name (N:=RNum)) props) -> lepton n = false -> val "m_e"%string < mass_named props n.
Proof.
  intros H L. destruct (mass_gas _ H) as (p & Hp & E & ->). unfold lepton, electron in L. apply orb_false_iff in L as [L1 L2].
  apply Hlight; [exact Hp| |]; intros K; rewrite E in K; rewrite K in L1, L2; discriminate.
Qed.
Lemma mass_positive n : In n (map (pr_name (N:=RNum)) props) -> 0 < mass_named props n.
Proof. intros H. destruct (mass_gas _ H) as (p & Hp & _ & ->). destruct Hgas as (_ & _ & P & _). now apply P. Qed.

Variables (nowhere : R) (load : reducedMass RNum -> xs_doc RNum -> outcome (xsec RNum)).
Hypothesis Hnw : 1 < nowhere.
Hypothesis Hload : forall c, cs_ok c = true -> shipped_cs val ginv c <> None ->
  exists d, shipped_cs val ginv c = Some (Some (label_of d), d) /\
  forall m1 m2, 0 < m1 -> 0 < m2 -> exists c, load (ReducedMass (N:=RNum) m1 m2) d = Ok c.
Lemma gas_charges x : In x (x_inter d) -> among props x -> length (reactants x) = 2%nat -> charges_agree nowhere props x.
Proof.
  intros Hx Ha Hl a b Pab. cbv zeta. pose proof (proj2 (gas_balances _ _ _ _ _ _ Hgas val) x Hx Ha) as Bal.
  assert (Na : In a (map (pr_name (N:=RNum)) props)) by (eapply among_names; [exact Ha|left; eapply Permutation_in; [exact Pab|now left]]).
  assert (Nb : In b (map (pr_name (N:=RNum)) props)) by (eapply among_names; [exact Ha|left; eapply Permutation_in; [exact Pab|right; now left]]).
  rewrite !gas_charge_named by assumption.
  assert (T : total_named (charge_named props) (xi_out x) = (charge_called a + charge_called b) * val "e"%string).
  { unfold total_named. rewrite (map_ext_in _ (fun n => charge_called n * val "e"%string)).
    2:{ intros n Hn. apply gas_charge_named. eapply among_names; [exact Ha|now right]. }
    assert (G : forall l, Rsum (map (fun n => charge_called n * val "e"%string) l) = Rsum (map charge_called l) * val "e"%string).
    { induction l as [|n l IH]; cbn [map Rsum]; [lra|]. rewrite IH. lra. }
    rewrite G, Bal. f_equal. 
    assert (S : forall l, Permutation [a; b] l -> Rsum (map charge_called l) = charge_called a + charge_called b).
    { intros l P. destruct l as [|c [|e [|? ?]]]; try (apply Permutation_length in P; discriminate).
      destruct (two_perm _ _ _ _ P) as [[-> ->]|[-> ->]]; cbn; lra. }
    apply S, Pab. }
  rewrite T. split; [split; intros H; lra|]. intros Hne.
  destruct Hgas as (_ & _ & _ & Hd). rewrite Hd in Hx. apply doc_inv in Hx as (k & i & Hk & ->).
  pose proof all_load_checked as C. rewrite forallb_forall in C. specialize (C i (nth_error_In _ _ Hk)). unfold load_checked in C.
  apply andb_true_iff in C as [C _]. apply andb_true_iff in C as [_ C]. unfold charge_checked in C. unfold reactants in Pab, Hl. cbn [xi_in shipped_x] in Pab, Hl.
  destruct (expand_names (si_in i)) as [|c [|e [|? ?]]] eqn:Ei; try discriminate.
  assert (Z : (zcharge a + zcharge b = 0 \/ Z.abs (zcharge b - zcharge a) <= Z.abs (zcharge a + zcharge b))%Z).
  { apply orb_true_iff in C. rewrite Z.eqb_eq, Z.leb_le in C. destruct (two_perm _ _ _ _ Pab) as [[-> ->]|[-> ->]]; [exact C|].
    rewrite (Z.add_comm (zcharge e)), <- (Z.abs_opp (zcharge c - zcharge e)), Z.opp_sub_distr. destruct C as [C|C]; [now left|right]. replace (- zcharge c + zcharge e)%Z with (zcharge e - zcharge c)%Z by lia. exact C. }
  rewrite !zcharge_called in *. rewrite <- Rmult_plus_distr_r, <- Rmult_minus_distr_r, <- plus_IZR, <- minus_IZR, !Rabs_mult in *.
  destruct Z as [Z|Z]; [exfalso; apply Hne; rewrite Z; lra|].
  apply IZR_le in Z. rewrite !abs_IZR in Z. set (u := Rabs (IZR (zcharge b - zcharge a))) in *. set (w := Rabs (IZR (zcharge a + zcharge b))) in *.
  assert (Pw : 0 < w * Rabs (val "e"%string)).
  { unfold w. rewrite <- Rabs_mult. apply Rabs_pos_lt. exact Hne. }
  pose proof (Rabs_pos (val "e"%string)). assert (u * Rabs (val "e"%string) <= w * Rabs (val "e"%string)) by (apply Rmult_le_compat_r; assumption).
  intros K. assert (w * Rabs (val "e"%string) < nowhere * (w * Rabs (val "e"%string))) by (rewrite <- (Rmult_1_l (w * _)) at 1; apply Rmult_lt_compat_r; assumption). lra.
Qed.
Lemma electron_eq n : electron n = true -> n = "e^-"%string.
Proof. apply String.eqb_eq. Qed.
Lemma gas_third x : In x (x_inter d) -> among props x -> length (reactants x) = 2%nat -> third_differs props x.
Proof.
  intros Hx Ha Hl H3 n a Hn Hra Hmax. pose proof (gas_mass_balance _ _ _ _ _ _ Hgas x Hx Ha) as Bal.
  pose proof (fun m => among_names val ps x m Ha) as K.
  assert (Kin : forall m, In m (reactants x) -> In m (map (pr_name (N:=RNum)) props)) by (intros m Hm; apply K; now left).
  assert (Kout : forall m, In m (products x) -> In m (map (pr_name (N:=RNum)) props)) by (intros m Hm; apply K; now right). clear K.
  pose proof Hgas as (_ & _ & _ & Hd). rewrite Hd in Hx. apply doc_inv in Hx as (k & i & Hk & Ex).
  pose proof all_load_checked as C. rewrite forallb_forall in C. specialize (C i (nth_error_In _ _ Hk)). unfold load_checked in C.
  apply andb_true_iff in C as [_ C]. unfold third_checked in C.
  assert (E1 : si_in i = xi_in x) by (rewrite Ex; reflexivity). assert (E2 : si_out i = xi_out x) by (rewrite Ex; reflexivity).
  rewrite E1, E2 in C. clear E1 E2 Ex Hk. unfold products, reactants in *. 
  destruct (expand_names (xi_out x)) as [|n1 [|n2 [|n3 [|? ?]]]] eqn:Eo; try discriminate.
  destruct (expand_names (xi_in x)) as [|b1 [|b2 [|? ?]]] eqn:Ei; try discriminate. clear Eo Ei.
  apply andb_true_iff in C as [C C3]. apply andb_true_iff in C as [C1 C2]. apply negb_true_iff in C3.
  cbn [map Rsum fold_right] in Bal.
  assert (Hv : exists z, In z [n1; n2; n3] /\ val "m_e"%string < mass_named props z).
  { apply andb_false_iff in C3 as [C3|C3]; [apply andb_false_iff in C3 as [C3|C3]|]; eexists; (split; [|apply mass_heavy; [|exact C3]; apply Kout]); cbn; auto. }
  destruct Hv as (z & Hz & Mz). pose proof (Hmax z Hz) as Mz'.
  pose proof (mass_positive n1 ltac:(apply Kout; cbn; auto)) as P1. pose proof (mass_positive n2 ltac:(apply Kout; cbn; auto)) as P2.
  pose proof (mass_positive n3 ltac:(apply Kout; cbn; auto)) as P3.
  assert (Me : mass_named props "e^-"%string = val "m_e"%string).
  { apply mass_electron. apply orb_true_iff in C2 as [C2|C2]; apply electron_eq in C2; apply Kin; cbn; auto. }
  assert (Ne : mass_named props n <> val "m_e"%string) by lra.
  assert (Hout : exists y w, Permutation [n1; n2; n3] ["e^-"%string; y; w]).
  { apply orb_true_iff in C1 as [C1|C1]; [apply orb_true_iff in C1 as [C1|C1]|]; apply electron_eq in C1; rewrite <- C1; clear.
    - exists n2, n3. reflexivity.
    - exists n1, n3. apply perm_swap.
    - exists n1, n2. apply (Permutation_cons_append [n1; n2] n3) || (apply Permutation_sym, (Permutation_cons_append [n1; n2] n3)). }
  assert (Hin : exists b, Permutation [b1; b2] ["e^-"%string; b]).
  { apply orb_true_iff in C2 as [C2|C2]; apply electron_eq in C2; rewrite <- C2; [exists b2; reflexivity|exists b1; apply perm_swap]. }
  destruct Hout as (y & w & Po). destruct Hin as (b & Pi).
  assert (My : 0 < mass_named props y) by (apply mass_positive, Kout; eapply Permutation_in; [apply Permutation_sym, Po|cbn; auto]).
  assert (Mw : 0 < mass_named props w) by (apply mass_positive, Kout; eapply Permutation_in; [apply Permutation_sym, Po|cbn; auto]).
  assert (So : mass_named props n1 + (mass_named props n2 + (mass_named props n3 + 0)) = mass_named props "e^-"%string + (mass_named props y + (mass_named props w + 0))).
  { apply (Rsum_perm _ _ (Permutation_map (mass_named props) Po)). }
  assert (Si : mass_named props b1 + (mass_named props b2 + 0) = mass_named props "e^-"%string + (mass_named props b + 0)).
  { apply (Rsum_perm _ _ (Permutation_map (mass_named props) Pi)). }
  assert (Mb : mass_named props b = mass_named props y + mass_named props w) by lra.
  apply (Permutation_in _ Po) in Hn. apply (Permutation_in _ Pi) in Hra.
  destruct Hra as [<-|[<-|[]]]; [now rewrite Me|]. rewrite Mb. destruct Hn as [<-|[<-|[<-|[]]]]; [congruence|lra|lra].
Qed.
Lemma gas_loadable x : In x (x_inter d) -> among props x -> xi_cs x <> None -> length (reactants x) = 2%nat -> loadable nowhere load props x.
Proof.
  intros Hx Ha Hcs Hl. pose proof (gas_charges x Hx Ha Hl) as H5. pose proof (gas_third x Hx Ha Hl) as H6.
  pose proof (gas_plain _ _ _ _ _ _ Hgas x Hx Ha) as H2.
  pose proof Hgas as (_ & _ & _ & Hd). rewrite Hd in Hx. apply doc_inv in Hx as (k & i & Hk & ->).
  pose proof all_load_checked as C. rewrite forallb_forall in C. specialize (C i (nth_error_In _ _ Hk)). unfold load_checked in C.
  apply andb_true_iff in C as [C _]. apply andb_true_iff in C as [C _]. apply andb_true_iff in C as [C1 C2].
  unfold out_checked in C2. rewrite forallb_forall in C2.
  split; [|split; [exact H2|split; [exact I|split]]].
  - apply List.Forall_forall. intros t Ht. specialize (C2 t Ht). apply andb_true_iff in C2 as [C2 _]. now apply Z.leb_le.
  - apply Hload; [exact C1|exact Hcs].
  - intros _. split; [|split; assumption]. apply List.Forall_forall. intros t Ht. specialize (C2 t Ht). apply andb_true_iff in C2 as [_ C2]. now apply Z.ltb_lt.
Qed.
End Gas.
