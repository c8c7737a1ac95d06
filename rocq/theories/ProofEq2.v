(** Equation loading: reactants, products and elastic recognition. *)
From Coq Require Import String List ZArith Bool Arith Lia Sorted Permutation.
From Verif Require Import Base Num ModelTerm ModelCollide ModelXsec ModelSet ModelEq
  SpecTerm SpecEq ProofTerm ProofOrder ProofEq ProofInelastic.
Import List ListNotations.

(** ** Lists of names *)
Lemma perm_two (l : list string) x y : length l = 2 -> In x l -> In y l -> x <> y -> Permutation [x; y] l.
Proof.
  destruct l as [|a [|b [|c l]]]; cbn; try discriminate. intros _ [->| [->|[]]] [H|[H|[]]] Hne; subst; try congruence.
  - apply Permutation_refl.
  - apply perm_swap.
Qed.
Lemma perm_double (l : list string) x : length l = 2 -> count_occ string_dec l x = 2 -> Permutation [x; x] l.
Proof.
  destruct l as [|a [|b [|c l]]]; cbn; try discriminate. intros _.
  destruct (string_dec a x), (string_dec b x); try discriminate. subst. intros _. apply Permutation_refl.
Qed.
Lemma count_le_length (l : list string) x : count_occ string_dec l x <= length l.
Proof. induction l as [|a l IH]; cbn; [lia|]. destruct string_dec; lia. Qed.
Lemma count_all_in (l : list string) x : count_occ string_dec l x < length l -> exists y, In y l /\ y <> x.
Proof.
  induction l as [|a l IH]; cbn; [lia|]. destruct (string_dec a x) as [->|E].
  - intros H. destruct IH as (y & A & B); [lia|]. eauto.
  - intros _. exists a. auto.
Qed.
Lemma regroup (ns l : list string) : NoDup ns -> (forall x, In x l -> In x ns) ->
  Permutation (concat (map (fun n => repeat n (count_occ string_dec l n)) ns)) l.
Proof.
  intros ND Hin. apply (Permutation_count_occ string_dec). intros x.
  assert (G : forall ns, NoDup ns ->
    count_occ string_dec (concat (map (fun n => repeat n (count_occ string_dec l n)) ns)) x =
    if in_dec string_dec x ns then count_occ string_dec l x else 0).
  { clear. induction 1 as [|a ns Ha _ IH]; [reflexivity|]. cbn [map concat]. rewrite count_occ_app, IH.
    destruct (string_dec a x) as [->|E].
    - rewrite count_repeat_eq. destruct (in_dec string_dec x ns); [easy|].
      destruct (in_dec string_dec x (x :: ns)) as [_|Q]; [lia|]. cbn in Q; tauto.
    - rewrite count_repeat_neq by exact E.
      destruct (in_dec string_dec x ns) as [I|I], (in_dec string_dec x (a :: ns)) as [J|J]; cbn in *; try tauto; try lia; exfalso; intuition congruence. }
  rewrite G by exact ND. destruct (in_dec string_dec x ns) as [I|I]; [reflexivity|].
  symmetry. apply count_occ_not_In. auto.
Qed.

Section Core.
Context {N : Num} (ok : N -> Prop) (Hm : mass_order ok).
Variable props : list (prop N).
Hypothesis Hok : masses_ok ok props.
Notation ename := (fun e : (nat * prop N) * tinfo => pr_name (snd (fst e))).

Lemma map_entries xl m e : term_map_of props xl m -> In e m ->
  exists i p, e = ((i, p), info xl (pr_name p)) /\ first_named props (pr_name p) i p /\ In (pr_name p) (map x_P xl).
Proof.
  intros (A & B & C) He. rewrite Forall_forall in C. destruct (C e He) as [F E].
  destruct e as [[i p] t]. cbn in *. subst t. exists i, p. split; [reflexivity|split; [exact F|]].
  apply B. apply in_map_iff. exists ((i, p), info xl (pr_name p)). auto.
Qed.
Lemma map_nodup xl m : term_map_of props xl m -> NoDup (map ename m).
Proof.
  intros M. pose proof M as (A & _ & _).
  assert (K : forall e, In e m -> keyed props (fst e)).
  { intros e He. destruct (map_entries xl m e M He) as (i & p & -> & F & _). exact F. }
  clear M. unfold ascending in A. induction m as [|e m IH]; cbn; [constructor|].
  cbn in A. inversion A as [|a b A1 A2]; subst. constructor.
  - intros H. apply in_map_iff in H as (e' & E & He'). rewrite Forall_map, Forall_forall in A2.
    specialize (A2 e' He').
    assert (Q : fst e' = fst e) by (apply (keyed_name props); [apply K; now right|apply K; now left|exact E]).
    rewrite Q in A2. rewrite (prop_irrefl ok Hm) in A2; [discriminate|].
    apply (keyed_ok ok props Hok). apply K. now left.
  - apply IH; [exact A1|]. intros; apply K; now right.
Qed.
Lemma map_head_lt xl e e' m : term_map_of props xl (e :: e' :: m) -> prop_ltb (snd (fst e)) (snd (fst e')) = true.
Proof. intros (A & _). unfold ascending in A. cbn in A. inversion A as [|a b _ A2]; subst. now inversion A2. Qed.

(** Products, in general. *)
Lemma products_ok xl m : term_map_of props xl m ->
  exists l, omap (load_product props) m = Ok l /\ List.Forall (product_of props xl) l /\
    l = map (fun e => mkTerm (Z.of_nat (fst (fst e))) (ti_n (snd e)) (ti_from (snd e)) (ti_ops (snd e))) m.
Proof.
  intros M. assert (K := fun e => map_entries xl m e M). clear M.
  induction m as [|e m IH]; cbn [omap].
  - exists []. repeat split; constructor.
  - destruct (K e) as (i & p & -> & F & Hin); [now left|].
    destruct IH as (l & E & HF & HL); [intros; apply K; now right|].
    unfold load_product at 1. cbn [fst snd]. rewrite (indx_first _ _ _ _ F). unfold term_full, info at 1 2 3 4. cbn.
    rewrite <- count_froms, <- count_ops, Z.eqb_refl. cbn [negb orb obind t_species].
    replace (Z.of_nat i =? -1)%Z with false by lia. cbn [obind]. rewrite E. cbn [obind].
    eexists. split; [reflexivity|]. split; [|now rewrite HL].
    constructor; [|exact HF]. exists i, p. auto.
Qed.
Lemma products_species xl m : nonneg xl -> term_map_of props xl m ->
  Permutation (expand_species (map (fun e => mkTerm (Z.of_nat (fst (fst e))) (ti_n (snd e)) (ti_from (snd e)) (ti_ops (snd e))) m))
              (map (findParticleIndx props) (expand_names xl)).
Proof.
  intros HN M.
  assert (Q : expand_species (map (fun e => mkTerm (Z.of_nat (fst (fst e))) (ti_n (snd e)) (ti_from (snd e)) (ti_ops (snd e))) m)
            = map (findParticleIndx props) (concat (map (fun n => repeat n (count_occ string_dec (expand_names xl) n)) (map ename m)))).
  { assert (K := fun e => map_entries xl m e M). clear M. unfold expand_species.
    induction m as [|e m IH]; [reflexivity|]. destruct (K e) as (i & p & -> & F & Hin); [now left|].
    cbn [map concat]. rewrite map_app, IH by (intros; apply K; now right). f_equal. cbn [fst snd t_species t_n info ti_n].
    rewrite Nat2Z.id. unfold count_name.
    induction (count_occ string_dec (expand_names xl) (pr_name p)) as [|c IHc]; cbn; [reflexivity|].
    now rewrite (indx_first _ _ _ _ F), IHc. }
  rewrite Q. apply Permutation_map. apply regroup; [exact (map_nodup xl m M)|].
  intros x Hx. destruct M as (_ & B & _). apply B. now apply expand_In.
Qed.

(** Inputs when every multiplicity is at least one and the total is two. *)
Lemma inputs_ok xl m : positive xl -> sum_n xl = 2%Z -> term_map_of props xl m ->
  exists iA pA iB pB, load_inputs props m = Ok (mkInput (term_sp (Z.of_nat iA)) (term_sp (Z.of_nat iB))) /\
    first_named props (pr_name pA) iA pA /\ first_named props (pr_name pB) iB pB /\
    prop_ltb pB pA = false /\ Permutation [pr_name pA; pr_name pB] (expand_names xl) /\
    In (pr_name pA) (map x_P xl) /\ In (pr_name pB) (map x_P xl).
Proof.
  intros HP HS M. rewrite (sum_expand xl (positive_nonneg _ HP)) in HS.
  assert (HL : length (expand_names xl) = 2) by lia.
  destruct m as [|e m].
  { exfalso. destruct M as (_ & B & _). destruct (expand_names xl) as [|a l] eqn:E; [discriminate|].
    assert (In a (map x_P xl)) by (apply expand_In; rewrite E; now left). apply B in H. exact H. }
  destruct (map_entries _ _ e M) as (i & p & -> & F & Hin); [now left|].
  cbn [load_inputs fst snd]. rewrite (indx_first _ _ _ _ F). cbn [info ti_n].
  pose proof (count_present _ _ HP Hin) as C1. pose proof (count_le_length (expand_names xl) (pr_name p)) as C2.
  fold (count_name xl (pr_name p)) in C2.
  destruct (Z.eqb_spec (Z.of_nat (count_name xl (pr_name p)) - 1) 0) as [C|C].
  - destruct (count_all_in (expand_names xl) (pr_name p)) as (y & Hy & Hne).
    { change (count_name xl (pr_name p) < length (expand_names xl)). lia. }
    destruct m as [|e' m].
    { exfalso. pose proof M as (_ & B & _). apply expand_In in Hy. apply B in Hy. destruct Hy as [Hy|[]]. cbn in Hy. congruence. }
    destruct (map_entries _ _ e' M) as (i' & p' & -> & F' & Hin'); [now right; left|]. cbn [fst snd].
    pose proof (map_head_lt _ _ _ _ M) as L. cbn [fst snd] in L.
    assert (Hne' : pr_name p <> pr_name p').
    { pose proof (map_nodup _ _ M) as ND. cbn in ND. inversion ND as [|a b ND1 _]; subst. intros Q. apply ND1. now left. }
    exists i, p, i', p'. rewrite (indx_first _ _ _ _ F').
    split; [reflexivity|]. split; [exact F|split; [exact F'|split]].
    + apply (prop_asym ok Hm); [| |exact L].
      * exact (keyed_ok ok props Hok (i, p) F).
      * exact (keyed_ok ok props Hok (i', p') F').
    + split; [|auto]. apply perm_two; [exact HL| |  |exact Hne'].
      * apply (count_occ_In string_dec). unfold count_name in C1. lia.
      * apply (count_occ_In string_dec). pose proof (count_present _ _ HP Hin'). unfold count_name in *. lia.
  - exists i, p, i, p. split; [reflexivity|]. split; [exact F|split; [exact F|split]].
    + apply (prop_irrefl ok Hm). exact (keyed_ok ok props Hok (i, p) F).
    + split; [|auto]. apply perm_double; [exact HL|]. unfold count_name in *. lia.
Qed.

Lemma core_ok xin xout : List.Forall (known props) xin -> List.Forall (known props) xout ->
  positive xin -> nonneg xout -> sum_n xin = 2%Z ->
  exists e same iA pA iB pB mi mo, load_core props xin xout = Ok (e, same) /\
    e_A e = term_sp (Z.of_nat iA) /\ e_B e = term_sp (Z.of_nat iB) /\
    first_named props (pr_name pA) iA pA /\ first_named props (pr_name pB) iB pB /\
    prop_ltb pB pA = false /\ Permutation [pr_name pA; pr_name pB] (expand_names xin) /\
    e_mu e = ReducedMass (pr_mass pA) (pr_mass pB) /\
    List.Forall (product_of props xout) (e_products e) /\
    Permutation (expand_species (e_products e)) (map (findParticleIndx props) (expand_names xout)) /\
    term_map_of props xin mi /\ term_map_of props xout mo /\ same = tmap_eqb mi mo /\
    e_products e = map (fun e => mkTerm (Z.of_nat (fst (fst e))) (ti_n (snd e)) (ti_from (snd e)) (ti_ops (snd e))) mo.
Proof.
  intros KI KO PI NO S.
  destruct (load_terms_ok ok Hm props Hok xin KI (positive_nonneg _ PI)) as (mi & Ei & Mi).
  destruct (load_terms_ok ok Hm props Hok xout KO NO) as (mo & Eo & Mo).
  destruct (inputs_ok xin mi PI S Mi) as (iA & pA & iB & pB & EI & FA & FB & LB & PB & _ & _).
  destruct (products_ok xout mo Mo) as (l & El & Fl & Ll).
  unfold load_core. rewrite Ei. cbn [obind]. rewrite Eo. cbn [obind fst snd]. rewrite S. cbn [Z.eqb Pos.eqb negb].
  rewrite EI. cbn [obind in_A in_B t_species term_sp].
  rewrite (db_get_first _ _ _ _ FA), (db_get_first _ _ _ _ FB). cbn [obind]. rewrite El. cbn [obind].
  eexists _, _, iA, pA, iB, pB, mi, mo. split; [reflexivity|]. cbn [e_A e_B e_in in_A in_B e_mu e_products].
  do 4 (split; [eauto|]). split; [exact LB|]. split; [exact PB|]. split; [reflexivity|].
  split; [exact Fl|]. split; [|auto].
  rewrite Ll. now apply products_species.
Qed.
End Core.

Section CoreAny.
Context {N : Num} (props : list (prop N)).
Lemma core_inv xin xout e same : load_core props xin xout = Ok (e, same) ->
  List.Forall (known props) xin /\ List.Forall (known props) xout /\ nonneg xin /\ nonneg xout /\ sum_n xin = 2%Z.
Proof.
  unfold load_core. intros H. apply obind_ok in H as (i & Ei & H). apply obind_ok in H as (o & Eo & H).
  apply load_terms_inv in Ei as (A & B & C). apply load_terms_inv in Eo as (A' & B' & C').
  destruct (Z.eqb_spec (snd i) 2) as [E|E]; [|discriminate]. rewrite C in E. auto.
Qed.
Lemma core_not_two xin xout : nonneg xin -> nonneg xout ->
  List.Forall (known props) xin -> List.Forall (known props) xout -> sum_n xin <> 2%Z ->
  (exists ok : N -> Prop, mass_order ok /\ masses_ok ok props) ->
  load_core props xin xout = Throw ExnXml.
Proof.
  intros NI NO KI KO S (ok & Hm & Hok).
  destruct (load_terms_ok ok Hm props Hok xin KI NI) as (mi & Ei & Mi).
  destruct (load_terms_ok ok Hm props Hok xout KO NO) as (mo & Eo & Mo).
  unfold load_core. rewrite Ei. cbn [obind]. rewrite Eo. cbn [obind fst snd].
  destruct (Z.eqb_spec (sum_n xin) 2); [easy|reflexivity].
Qed.
Lemma core_unknown xin xout : nonneg xin -> nonneg xout ->
  ~ (List.Forall (known props) xin /\ List.Forall (known props) xout) ->
  (exists ok : N -> Prop, mass_order ok /\ masses_ok ok props) ->
  load_core props xin xout = Throw ExnRuntime.
Proof.
  intros NI NO K (ok & Hm & Hok). unfold load_core.
  destruct (Forall_dec (known props) (fun t => in_dec string_dec (x_P t) (map (pr_name (N:=N)) props)) xin) as [KI|KI].
  - destruct (load_terms_ok ok Hm props Hok xin KI NI) as (mi & Ei & Mi). rewrite Ei. cbn [obind].
    rewrite load_terms_unknown; [reflexivity|assumption|tauto].
  - now rewrite load_terms_unknown.
Qed.
End CoreAny.

(** ** Elastic recognition *)
Definition tkey (t : term) : Z * Z * list Z := (t_species t, t_n t, t_from t).
Lemma tlist_eqb_keys a : forall b, tlist_eqb a b = true <-> map tkey a = map tkey b.
Proof.
  induction a as [|x a IH]; intros [|y b]; cbn; try (split; [easy|discriminate]); [tauto|].
  rewrite andb_true_iff, IH. unfold term_eqb, tkey. rewrite !andb_true_iff, !Z.eqb_eq, listZ_eqb_eq.
  split; [intros [[[-> ->] ->] ->]; reflexivity|]. intros [= -> -> -> ->]. auto.
Qed.
Lemma tset_insert_In t x s : (forall y, In y s -> t_species y <> t_species t) ->
  In x (tset_insert t s) <-> x = t \/ In x s.
Proof.
  induction s as [|y s IH]; intros H; cbn; [intuition congruence|].
  unfold term_ltb. assert (t_species y <> t_species t) by (apply H; now left).
  destruct (Z.ltb_spec (t_species t) (t_species y)); cbn [orb].
  - cbn. intuition congruence.
  - replace (t_species y <? t_species t)%Z with true by lia. cbn [orb].
    replace ((t_species t =? t_species y)%Z) with false by lia. cbn.
    rewrite IH by (intros; apply H; now right). intuition congruence.
Qed.
Lemma tset_insert_sorted t s : StronglySorted (fun a b => (t_species a < t_species b)%Z) s ->
  (forall y, In y s -> t_species y <> t_species t) ->
  StronglySorted (fun a b => (t_species a < t_species b)%Z) (tset_insert t s).
Proof.
  induction 1 as [|y s HS IH HF]; intros H; cbn; [repeat constructor|].
  unfold term_ltb. assert (t_species y <> t_species t) by (apply H; now left).
  destruct (Z.ltb_spec (t_species t) (t_species y)) as [L|L]; cbn [orb].
  - constructor; [now constructor|]. constructor; [exact L|]. eapply Forall_impl; [|exact HF]. cbn; intros; lia.
  - replace (t_species y <? t_species t)%Z with true by lia. cbn [orb].
    replace ((t_species t =? t_species y)%Z) with false by lia. cbn [andb].
    constructor; [apply IH; intros; apply H; now right|].
    apply Forall_forall. intros x Hx. apply tset_insert_In in Hx; [|intros; apply H; now right].
    destruct Hx as [->|Hx]; [lia|]. rewrite Forall_forall in HF. now apply HF.
Qed.
Lemma tset_of_spec l : NoDup (map t_species l) ->
  (forall x, In x (tset_of l) <-> In x l) /\ StronglySorted (fun a b => (t_species a < t_species b)%Z) (tset_of l).
Proof.
  unfold tset_of. intros ND.
  assert (G : forall l s, NoDup (map t_species l) -> (forall x y, In x l -> In y s -> t_species y <> t_species x) ->
     StronglySorted (fun a b => (t_species a < t_species b)%Z) s ->
     (forall x, In x (fold_left (fun s t => tset_insert t s) l s) <-> In x l \/ In x s) /\
     StronglySorted (fun a b => (t_species a < t_species b)%Z) (fold_left (fun s t => tset_insert t s) l s)).
  { clear. induction l as [|t l IH]; intros s ND D S; cbn; [split; [tauto|exact S]|].
    cbn in ND. inversion ND as [|a b N1 N2]; subst.
    assert (Dt : forall y, In y s -> t_species y <> t_species t) by (intros; apply D; [now left|assumption]).
    destruct (IH (tset_insert t s)) as [I1 I2]; [exact N2| |now apply tset_insert_sorted|].
    - intros x y Hx Hy. apply tset_insert_In in Hy; [|exact Dt]. destruct Hy as [->|Hy].
      + intros Q. apply N1. rewrite Q. now apply in_map.
      + apply D; [now right|exact Hy].
    - split; [|exact I2]. intros x. rewrite I1, tset_insert_In by exact Dt. intuition congruence. }
  destruct (G l [] ND) as [A B]; [easy|constructor|]. split; [|exact B]. intros x. rewrite A. cbn; tauto.
Qed.
Lemma sorted_keys_eq a : forall b,
  StronglySorted (fun a b => (t_species a < t_species b)%Z) a ->
  StronglySorted (fun a b => (t_species a < t_species b)%Z) b ->
  (map tkey a = map tkey b <-> (forall k, In k (map tkey a) <-> In k (map tkey b))).
Proof.
  induction a as [|x a IH]; intros b SA SB.
  - destruct b as [|y b]; cbn; [tauto|]. split; [discriminate|]. intros H. destruct (proj2 (H (tkey y))); now left.
  - destruct b as [|y b]; cbn [map].
    { split; [discriminate|]. intros H. destruct (proj1 (H (tkey x))); now left. }
    inversion SA as [|? ? SA1 SA2]; subst. inversion SB as [|? ? SB1 SB2]; subst.
    split; [intros E k; rewrite E; tauto|]. intros H.
    assert (Hlt : forall l z, List.Forall (fun b => (t_species z < t_species b)%Z) l ->
             forall k, In k (map tkey l) -> (t_species z < fst (fst k))%Z).
    { intros l z HF k Hk. apply in_map_iff in Hk as (t & <- & Ht). rewrite Forall_forall in HF. now apply HF. }
    assert (E : tkey x = tkey y).
    { destruct (proj1 (H (tkey x)) (or_introl eq_refl)) as [E|E]; [easy|].
      destruct (proj2 (H (tkey y)) (or_introl eq_refl)) as [E'|E']; [easy|].
      apply (Hlt b y SB2) in E. apply (Hlt a x SA2) in E'. cbn in *. lia. }
    rewrite E. f_equal. apply IH; try assumption. intros k. split; intros Hk.
    + destruct (proj1 (H k) (or_intror Hk)) as [Q|Q]; [|exact Q].
      apply (Hlt a x SA2) in Hk. rewrite <- Q in Hk. unfold tkey in E. injection E as E1 _ _. cbn in Hk. lia.
    + destruct (proj2 (H k) (or_intror Hk)) as [Q|Q]; [|exact Q].
      apply (Hlt b y SB2) in Hk. rewrite <- Q in Hk. unfold tkey in E. injection E as E1 _ _. cbn in Hk. lia.
Qed.
Lemma tset_eq_keys a b : NoDup (map t_species a) -> NoDup (map t_species b) ->
  tlist_eqb (tset_of a) (tset_of b) = true <-> (forall k, In k (map tkey a) <-> In k (map tkey b)).
Proof.
  intros A B. destruct (tset_of_spec a A) as [A1 A2], (tset_of_spec b B) as [B1 B2].
  rewrite tlist_eqb_keys, sorted_keys_eq by assumption.
  assert (Ha : forall k, In k (map tkey (tset_of a)) <-> In k (map tkey a))
    by (intros k; rewrite !in_map_iff; split; intros (t & E & I); exists t; split; auto; now apply A1).
  assert (Hb : forall k, In k (map tkey (tset_of b)) <-> In k (map tkey b))
    by (intros k; rewrite !in_map_iff; split; intros (t & E & I); exists t; split; auto; now apply B1).
  split; intros H k; specialize (H k); rewrite ?Ha, ?Hb in *; exact H.
Qed.
