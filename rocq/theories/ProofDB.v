(** Proofs about the species list and the selection of interactions. *)
From Coq Require Import String Ascii List ZArith Bool Arith Lia Sorted Permutation.
From Verif Require Import Base Num ModelTerm ModelCollide ModelXsec ModelSet ModelEq ModelFilter ModelDB
  SpecTerm SpecEq SpecFilter SpecDB ProofTerm ProofInelastic ProofOrder ProofEq ProofEq2 ProofEq3
  ProofFilter ProofFilter2 ProofFilter3 ProofFilter4 ProofText ProofLoad ProofTop4.
From Coq Require Import List.
Import ListNotations.

(** ** Texts *)
Section Text.
Local Open Scope string_scope.
Lemma contains_spec s t : contains s t = true <-> exists a b, s = a ++ t ++ b.
Proof.
  induction s as [|c s IH]; cbn [contains].
  - rewrite orb_false_r. split.
    + destruct t; [|discriminate]. exists "", "". reflexivity.
    + intros (a & b & E). destruct a; [|discriminate]. destruct t; [reflexivity|discriminate].
  - rewrite orb_true_iff, IH. split.
    + intros [H|(a & b & ->)].
      * exists "". cbn. revert H. generalize (String c s). clear. intros s. revert s.
        induction t as [|d t IH]; intros s H; [exists s; reflexivity|].
        destruct s as [|e s]; [discriminate|]. cbn in H. destruct (ascii_dec d e) as [->|]; [|discriminate].
        destruct (IH s H) as [b ->]. exists b. reflexivity.
      * exists (String c a), b. reflexivity.
    + intros (a & b & E). destruct a as [|d a].
      * left. cbn in E. rewrite E. clear. induction t as [|d t IH]; cbn; [destruct b; reflexivity|].
        destruct (ascii_dec d d); [assumption|contradiction].
      * right. cbn in E. injection E as -> ->. eauto.
Qed.

Lemma split_ne c s : split_on c s <> [].
Proof.
  induction s as [|d s IH]; cbn; [discriminate|]. destruct (Ascii.eqb d c); [discriminate|].
  destruct (split_on c s); [contradiction|discriminate].
Qed.
Lemma split_app_gen c a b : split_on c (a ++ String c b) = (split_on c a ++ split_on c b)%list.
Proof.
  induction a as [|d a IH].
  - cbn. rewrite Ascii.eqb_refl. reflexivity.
  - cbn. destruct (Ascii.eqb d c) eqn:E.
    + rewrite IH. reflexivity.
    + rewrite IH. destruct (split_on c a) as [|w ws] eqn:Ea; [|reflexivity].
      exfalso. exact (split_ne c a Ea).
Qed.

Lemma sandwich c p a b : ~ has_char c p -> In p (split_on c (a ++ String c (p ++ String c b))).
Proof.
  intros H. rewrite split_app_gen. rewrite split_app_gen. rewrite (split_word c p) by assumption.
  apply in_or_app. right. left. reflexivity.
Qed.
End Text.

Section P.
Context {N : Num}.
Notation P := (prop N).

Lemma name_pieces (props : list P) : (forall p, In p props -> ~ has_char ":" (pr_name p)) ->
  forall w, In w (split_on ":" (name_list props)) -> w = ""%string \/ In w (map (pr_name (N:=N)) props).
Proof.
  induction props as [|p props IH]; intros H w I; cbn in I |- *.
  - destruct I as [<-|[]]; auto.
  - rewrite split_app_gen in I. rewrite split_word in I by (apply H; left; reflexivity).
    destruct I as [<-|I]; [auto|]. destruct I as [<-|I]; [auto|].
    destruct (IH (fun q Hq => H q (or_intror Hq)) w I); auto.
Qed.

Lemma known_product_iff (props : list P) t : (forall p, In p props -> plain_name (pr_name p)) -> plain_name (x_P t) ->
  known_product props t = true <-> known props t.
Proof.
  intros H [Ht1 Ht2]. unfold known_product, known. rewrite contains_spec. split.
  - intros (a & b & E).
    assert (I : In (x_P t) (split_on ":" (name_list props))).
    { rewrite E. change (":" ++ x_P t ++ ":")%string with (String ":" (x_P t ++ ":")).
      cbn [String.append]. rewrite sapp_assoc. cbn [String.append]. now apply sandwich. }
    apply name_pieces in I as [I|I]; auto; [contradiction|]. intros p Ip. now apply H.
  - induction props as [|p props IH]; intros I; [destruct I|]. cbn in I. destruct I as [E|I].
    + exists ""%string, (name_list props). cbn. rewrite E. now rewrite sapp_assoc.
    + destruct IH as (a & b & E); auto. { intros q Hq. apply H. now right. }
      exists (":" ++ pr_name p ++ ":" ++ a)%string, b. cbn [name_list fold_right]. fold (name_list props).
      rewrite E. cbn. rewrite !sapp_assoc. reflexivity.
Qed.

(** ** The species list *)
Lemma add_subseq (props : list P) p : addParticle props p = props \/ addParticle props p = props ++ [p].
Proof. unfold addParticle. destruct (findParticle props (pr_name p)); auto. Qed.

Lemma add_spec_db (props : list P) p : unique_names props ->
  unique_names (addParticle props p) /\
  (forall q, In q (addParticle props p) <-> first_def (props ++ [p]) q).
Proof.
  intros U. unfold addParticle. destruct (findParticle props (pr_name p)) as [i|] eqn:E.
  - split; [assumption|]. apply findParticle_first in E as (p0 & H1 & H2 & _). apply nth_error_In in H1.
    intros q. split.
    + intros I. apply in_split in I as (l1 & l2 & ->). exists l1, (l2 ++ [p]). split; [now rewrite <- app_assoc|].
      intros r Ir Er. unfold unique_names in U. rewrite map_app in U. cbn in U. apply NoDup_remove_2 in U.
      apply U. apply in_or_app. left. rewrite <- Er. now apply in_map.
    + intros (l1 & l2 & El & F). destruct l2 as [|r l2].
      * apply app_inj_tail in El as [<- <-]. exfalso. apply (F p0); auto.
      * assert (Q : exists l3, r :: l2 = l3 ++ [p]).
        { destruct (exists_last (l := r :: l2)) as (l3 & x & Ex); [discriminate|]. exists l3.
          rewrite Ex in El |- *. change (l1 ++ q :: l3 ++ [x]) with (l1 ++ (q :: l3) ++ [x]) in El.
          rewrite app_assoc in El. apply app_inj_tail in El as [_ <-]. reflexivity. }
        destruct Q as [l3 Q]. rewrite Q in El. change (l1 ++ q :: l3 ++ [p]) with (l1 ++ (q :: l3) ++ [p]) in El.
        rewrite app_assoc in El. apply app_inj_tail in El as [-> _]. apply in_or_app. right. now left.
  - apply findParticle_none in E. split.
    + unfold unique_names. rewrite map_app. cbn.
      apply (Permutation_NoDup (l := pr_name p :: map (pr_name (N:=N)) props)).
      * apply Permutation_cons_append.
      * now constructor.
    + intros q. split.
      * intros I. apply in_app_or in I as [I|[<-|[]]].
        -- apply in_split in I as (l1 & l2 & ->). exists l1, (l2 ++ [p]). split; [now rewrite <- app_assoc|].
           intros r Ir Er. unfold unique_names in U. rewrite map_app in U. cbn in U. apply NoDup_remove_2 in U.
           apply U. apply in_or_app. left. rewrite <- Er. now apply in_map.
        -- exists props, []. split; [reflexivity|]. intros r Ir Er. apply E. rewrite <- Er. now apply in_map.
      * intros (l1 & l2 & El & _). rewrite El. apply in_or_app. right. now left.
Qed.

Lemma first_def_app (a b : list P) q : first_def (a ++ b) q <->
  first_def a q \/ ((forall r, In r a -> pr_name r <> pr_name q) /\ first_def b q).
Proof.
  split.
  - revert b. induction a as [|x a IH]; intros b (l1 & l2 & E & H).
    + right. split; [intros r []|]. exists l1, l2. auto.
    + destruct l1 as [|y l1]; cbn in E; injection E as -> E.
      * left. exists [], a. split; [reflexivity|intros r []].
      * destruct (IH b) as [(m1 & m2 & -> & F)|[F G]].
        { exists l1, l2. split; [assumption|]. intros r Hr. apply H. now right. }
        -- left. exists (y :: m1), m2. split; [reflexivity|]. intros r [<-|Hr]; [apply H; now left|now apply F].
        -- right. split; [|assumption]. intros r [<-|Hr]; [apply H; now left|now apply F].
  - intros [(l1 & l2 & -> & H)|[H (l1 & l2 & -> & G)]].
    + exists l1, (l2 ++ b). split; [now rewrite <- app_assoc|assumption].
    + exists (a ++ l1), l2. split; [now rewrite app_assoc|]. intros r Hr. apply in_app_or in Hr as [Hr|Hr]; auto.
Qed.
Lemma first_def_name (l : list P) p : In p l -> exists q, first_def l q /\ pr_name q = pr_name p.
Proof.
  intros I. destruct (known_first l (pr_name p)) as (i & q & H1 & H2 & H3).
  { now apply in_map. }
  exists q. split; [|assumption]. apply nth_error_split in H1 as (l1 & l2 & -> & L).
  exists l1, l2. split; [reflexivity|]. intros r Hr. rewrite H2.
  apply In_nth_error in Hr as [j Hj]. assert (j < length l1) by (apply nth_error_Some; congruence).
  apply (H3 j); [lia|]. now rewrite nth_error_app1.
Qed.

Lemma subseq_app2 {A} (a b : list A) r : subseq r b -> subseq (a ++ r) (a ++ b).
Proof. induction a; cbn; auto using sub_keep. Qed.

(** Any sequence of additions to a list with unique names. *)
Lemma add_all ps : forall props : list P, unique_names props ->
  exists tail, fold_left addParticle ps props = props ++ tail /\ subseq tail ps /\
    unique_names (props ++ tail) /\ (forall q, In q (props ++ tail) <-> first_def (props ++ ps) q).
Proof.
  induction ps as [|p ps IH]; intros props U; cbn.
  - exists []. rewrite app_nil_r. split; [reflexivity|]. split; [constructor|]. split; [assumption|].
    intros q. split.
    + intros I. apply in_split in I as (l1 & l2 & ->). exists l1, l2. split; [reflexivity|].
      intros r Ir Er. unfold unique_names in U. rewrite map_app in U. cbn in U. apply NoDup_remove_2 in U.
      apply U. apply in_or_app. left. rewrite <- Er. now apply in_map.
    + intros (l1 & l2 & -> & _). apply in_or_app. right. now left.
  - destruct (add_spec_db props p U) as [U' F].
    destruct (IH _ U') as (tail & E & S & V & G). rewrite E.
    assert (FF : forall q, first_def (addParticle props p ++ ps) q <-> first_def (props ++ p :: ps) q).
    { intros q. change (props ++ p :: ps) with (props ++ [p] ++ ps). rewrite app_assoc.
      rewrite (first_def_app (addParticle props p) ps q), (first_def_app (props ++ [p]) ps q). rewrite <- (F q).
      assert (A : In q (addParticle props p) <-> first_def (addParticle props p) q).
      { split; [|intros (l1 & l2 & -> & _); apply in_or_app; right; now left].
        intros I. apply in_split in I as (l1 & l2 & Es). exists l1, l2. split; [assumption|].
        intros r Ir Er. unfold unique_names in U'. rewrite Es, map_app in U'. cbn in U'. apply NoDup_remove_2 in U'.
        apply U'. apply in_or_app. left. rewrite <- Er. now apply in_map. }
      rewrite <- A.
      assert (B : (forall r, In r (addParticle props p) -> pr_name r <> pr_name q) <-> (forall r, In r (props ++ [p]) -> pr_name r <> pr_name q)).
      { split; intros H r Ir.
        - apply first_def_name in Ir as (r' & Fr & <-). apply H. now apply F.
        - apply H. apply F in Ir as (l1 & l2 & -> & _). apply in_or_app. right. now left. }
      rewrite B. tauto. }
    destruct (add_subseq props p) as [Ea|Ea]; rewrite Ea in *.
    + exists tail. split; [reflexivity|]. split; [now constructor|]. split; [assumption|].
      intros q. rewrite G. apply FF.
    + exists (p :: tail). change (p :: tail) with ([p] ++ tail). rewrite app_assoc.
      split; [reflexivity|]. split; [now apply sub_keep|]. split; [assumption|].
      intros q. rewrite G. apply FF.
Qed.

(** Lookup in a list with unique names. *)
Lemma lookup_added (props : list P) i p : unique_names props -> nth_error props i = Some p ->
  first_named props (pr_name p) i p.
Proof.
  intros U H. split; [assumption|split; [reflexivity|]]. intros j q L Hq E.
  assert (i = j); [|lia].
  eapply (proj1 (NoDup_nth_error (map (pr_name (N:=N)) props)) U).
  - rewrite map_length. apply nth_error_Some. congruence.
  - rewrite !nth_error_map, H, Hq. cbn. congruence.
Qed.
Lemma lookup_all (props : list P) i p : unique_names props -> nth_error props i = Some p ->
  findParticleIndx props (pr_name p) = Z.of_nat i /\ db_at props (pr_name p) = Ok (i, p).
Proof. intros U H. pose proof (lookup_added props i p U H) as F. split; [now apply indx_first with p|now apply db_at_first]. Qed.
Lemma lookup_unknown (props : list P) name : ~ In name (map (pr_name (N:=N)) props) ->
  findParticleIndx props name = (-1)%Z /\ db_at props name = Throw ExnRuntime.
Proof.
  intros H. split; [|now apply db_at_unknown]. unfold findParticleIndx.
  apply findParticle_none in H. now rewrite H.
Qed.

(** By name, and whole models. *)
Lemma named_fold d names : forall (props r : list P), ofold (addParticleNamed d) props names = Ok r ->
  exists ps, omap (x_particle d) names = Ok ps /\ r = fold_left addParticle ps props.
Proof.
  induction names as [|a names IH]; intros props r H; cbn in H.
  - injection H as <-. exists []. split; reflexivity.
  - apply obind_ok in H as (props' & E & H). unfold addParticleNamed in E. apply obind_ok in E as (p & Ep & E).
    injection E as <-. destruct (IH _ _ H) as (ps & E1 & E2). exists (p :: ps). cbn. rewrite Ep. cbn. rewrite E1. cbn. auto.
Qed.
Lemma add_model d (props r : list P) name f : unique_names props ->
  (forall a p, x_particle d a = Ok p -> pr_name p = a) ->
  addModel d props name = Ok (r, f) ->
  x_filter d name = Ok f /\ unique_names r /\ (exists tail, r = props ++ tail) /\
  (forall a, In a (map (pr_name (N:=N)) r) <-> In a (map (pr_name (N:=N)) props) \/ In a (x_model d name)).
Proof.
  intros U HP H. unfold addModel in H. apply obind_ok in H as (r' & E & H). apply obind_ok in H as (f' & Ef & H).
  injection H as <- <-. split; [assumption|].
  apply named_fold in E as (ps & Eps & ->). destruct (add_all ps props U) as (tail & E & S & V & G).
  rewrite E. split; [assumption|]. split; [eauto|].
  assert (Q : map (pr_name (N:=N)) ps = x_model d name).
  { revert Eps HP. generalize (x_model d name). clear. intros names. revert ps.
    induction names as [|a names IH]; intros ps E HP; cbn in E.
    - injection E as <-. reflexivity.
    - apply obind_ok in E as (p & Ep & E). apply obind_ok in E as (ps' & Ep' & E). injection E as <-. cbn.
      rewrite (HP _ _ Ep). now rewrite (IH ps'). }
  intros a. rewrite <- Q. rewrite <- in_app_iff, <- map_app. split.
  - intros I. apply in_map_iff in I as (q & <- & Iq). apply G in Iq as (l1 & l2 & -> & _).
    apply in_map. apply in_or_app. right. now left.
  - intros I. apply in_map_iff in I as (q & <- & Iq). apply first_def_name in Iq as (q' & F & <-).
    apply in_map. now apply G.
Qed.

(** ** Sorting *)
Lemma sort_insert_perm (p : P) l : Permutation (p :: l) (sort_insert p l).
Proof.
  induction l as [|q l IH]; cbn; [constructor; constructor|].
  destruct (prop_ltb q p); [|reflexivity].
  rewrite perm_swap. now constructor.
Qed.
Lemma sort_perm (l : list P) : Permutation l (sort_props l).
Proof. induction l as [|p l IH]; cbn; [constructor|]. rewrite <- sort_insert_perm. now constructor. Qed.

Section Order.
Variable ok : N -> Prop.
Hypothesis Hm : mass_order ok.
Lemma insert_sorted (p : P) l : ok (pr_mass p) -> masses_ok ok l ->
  StronglySorted (fun a b : P => prop_ltb b a = false) l ->
  StronglySorted (fun a b : P => prop_ltb b a = false) (sort_insert p l).
Proof.
  intros Hp. induction l as [|q l IH]; intros Hl S; cbn.
  - constructor; constructor.
  - apply StronglySorted_inv in S as [S1 S2]. pose proof (Forall_inv Hl) as Hq. apply Forall_inv_tail in Hl.
    destruct (prop_order ok Hm) as (Irr & Tr & Inc).
    destruct (prop_ltb q p) eqn:E.
    + constructor; [now apply IH|]. rewrite List.Forall_forall in S2 |- *. intros x Ix.
      apply (Permutation_in _ (Permutation_sym (sort_insert_perm p l))) in Ix as [<-|Ix]; [|now apply S2].
      now apply (prop_asym ok Hm).
    + constructor; [now constructor|]. constructor; [assumption|].
      rewrite List.Forall_forall in S2 |- *. intros x Ix. specialize (S2 x Ix).
      assert (Hx : ok (pr_mass x)) by (unfold masses_ok in Hl; rewrite List.Forall_forall in Hl; now apply Hl).
      destruct (prop_ltb x p) eqn:Ex; [|reflexivity]. exfalso.
      destruct (prop_ltb p q) eqn:Epq.
      * rewrite (Tr x p q) in S2; auto. discriminate.
      * destruct (prop_ltb q x) eqn:Eqx.
        -- rewrite (Tr q x p) in E; auto. discriminate.
        -- destruct (Inc p q x); auto. congruence.
Qed.
Lemma sort_sorted (l : list P) : masses_ok ok l -> StronglySorted (fun a b : P => prop_ltb b a = false) (sort_props l).
Proof.
  induction l as [|p l IH]; intros H; cbn; [constructor|]. apply insert_sorted.
  - now apply Forall_inv in H.
  - apply Forall_inv_tail in H. unfold masses_ok. eapply Permutation_Forall; [apply sort_perm|]. assumption.
  - apply IH. now apply Forall_inv_tail in H.
Qed.
Lemma ss_nth {A} (R : A -> A -> Prop) l : StronglySorted R l -> forall i j x y,
  i < j -> nth_error l i = Some x -> nth_error l j = Some y -> R x y.
Proof.
  induction 1 as [|a l S IH F]; intros i j x y L Hi Hj; [destruct i; discriminate|].
  destruct j; [lia|]. cbn in Hj. destruct i; cbn in Hi.
  - injection Hi as <-. rewrite List.Forall_forall in F. apply F. eapply nth_error_In; eauto.
  - apply (IH i j); auto. lia.
Qed.
Lemma sorted_masses (l : list P) i j p q : masses_ok ok l -> i < j ->
  nth_error (sort_props l) i = Some p -> nth_error (sort_props l) j = Some q ->
  prop_ltb q p = false /\ nltb (pr_mass q) (pr_mass p) = false /\
  (unique_names l -> prop_ltb p q = true).
Proof.
  intros H L Hi Hj.
  pose proof (ss_nth _ _ (sort_sorted l H) i j p q L Hi Hj) as S. cbn in S. split; [assumption|].
  assert (O : ok (pr_mass p) /\ ok (pr_mass q)).
  { pose proof (Permutation_Forall (sort_perm l) H) as H'. rewrite List.Forall_forall in H'.
    split; apply H'; eapply nth_error_In; eauto. }
  destruct O as [Op Oq]. split.
  - unfold prop_ltb in S. apply orb_false_iff in S as [S _]. assumption.
  - intros U. destruct (prop_ltb p q) eqn:E; [reflexivity|]. exfalso.
    destruct (proj1 (prop_incomp ok Hm p q Op Oq)) as [_ En]; [auto|].
    assert (i = j); [|lia].
    assert (U' : unique_names (sort_props l)).
    { eapply Permutation_NoDup; [apply Permutation_map, sort_perm|exact U]. }
    eapply (proj1 (NoDup_nth_error _) U').
    + rewrite map_length. apply nth_error_Some. congruence.
    + rewrite !nth_error_map, Hi, Hj. cbn. congruence.
Qed.
End Order.
Lemma sort_unique (l : list P) : unique_names l -> unique_names (sort_props l).
Proof. intros U. eapply Permutation_NoDup; [apply Permutation_map, sort_perm|exact U]. Qed.

(** ** Selection *)
Lemma products_iff (props : list P) (x : xinter N) : (forall p, In p props -> plain_name (pr_name p)) ->
  (forall t, In t (xi_out x) -> plain_name (x_P t)) ->
  products_query props x = true <-> xi_out x <> [] /\ List.Forall (known props) (xi_out x).
Proof.
  intros H Ho. unfold products_query. rewrite andb_true_iff, forallb_forall, List.Forall_forall. split.
  - intros [E F]. split.
    + intros Z. rewrite Z in E. discriminate.
    + intros t It. apply known_product_iff; auto.
  - intros [Ne F]. assert (G : forall t, In t (xi_out x) -> known_product props t = true).
    { intros t It. apply known_product_iff; auto. }
    split; [|assumption]. destruct (xi_out x) as [|t l]; [contradiction|]. cbn. rewrite G; [reflexivity|now left].
Qed.
Lemma one_or_none (o : option Z) : (1%Z = 1%Z -> o = None \/ o = Some 1%Z) /\ ((1 < 1)%Z -> o = Some 1%Z) <-> o = None \/ o = Some 1%Z.
Proof. split; [intros [H _]; auto|]. intros H. split; [auto|lia]. Qed.
Lemma terms_two a b : a <> b -> Permutation (eqset_of [mkET a 1; mkET b 1]) [mkET a 1; mkET b 1].
Proof.
  intros H. cbn. destruct (str_ltb b a) eqn:E1; [apply perm_swap|].
  destruct (str_ltb a b) eqn:E2; [reflexivity|]. exfalso. apply H. now apply str_total.
Qed.
Lemma written_iff A B a b xl : (A <> B -> a <> b) ->
  match_set (pair_terms A B a b) xl = true <-> written_as A B a b xl.
Proof.
  intros H. rewrite match_set_spec. unfold pair_terms, written_as, side_matches. destruct (Nat.eqb_spec A B) as [E|E].
  - cbn. split.
    + intros [L K]. split; [|contradiction]. intros _. destruct xl as [|t [|u l]]; try discriminate.
      exists t. split; [reflexivity|]. destruct (K _ (or_introl eq_refl)) as [Z|(y & [<-|[]] & E1 & _ & E2)]; [discriminate|].
      cbn in E1, E2. split; [assumption|]. apply E2. lia.
    + intros [K _]. destruct (K E) as (t & -> & E1 & E2). split; [reflexivity|].
      intros u [<-|[]]. right. exists t. cbn. split; [auto|]. split; [assumption|]. split; [lia|auto].
  - specialize (H E). pose proof (terms_two a b H) as Pm. rewrite (Permutation_length Pm). cbn [length].
    split.
    + intros [L K]. split; [contradiction|]. intros _.
      destruct (K (mkET a 1)) as [Z|(t & It & E1 & E2 & _)].
      { eapply Permutation_in; [apply Permutation_sym, Pm|]. now left. } { discriminate. }
      destruct (K (mkET b 1)) as [Z|(u & Iu & F1 & F2 & _)].
      { eapply Permutation_in; [apply Permutation_sym, Pm|]. right. now left. } { discriminate. }
      cbn in *. exists t, u. split; [|split; split; auto].
      destruct xl as [|y [|z [|? ?]]]; try discriminate.
      destruct It as [<-|[<-|[]]]; destruct Iu as [<-|[<-|[]]]; try (exfalso; apply H; congruence); [reflexivity|apply perm_swap].
    + intros [_ K]. destruct (K E) as (t & u & Q & [E1 E2] & [F1 F2]). split; [apply (Permutation_length Q)|].
      intros v Iv. right. apply (Permutation_in _ Pm) in Iv as [<-|[<-|[]]]; cbn.
      * exists t. split; [eapply Permutation_in; [apply Permutation_sym, Q|now left]|]. split; [assumption|]. split; [auto|lia].
      * exists u. split; [eapply Permutation_in; [apply Permutation_sym, Q|right; now left]|]. split; [assumption|]. split; [auto|lia].
Qed.

Lemma unique_nth (props : list P) A B pA pB : unique_names props -> nth_error props A = Some pA -> nth_error props B = Some pB ->
  A <> B -> pr_name pA <> pr_name pB.
Proof.
  intros U HA HB Ne E. apply Ne. eapply (proj1 (NoDup_nth_error _) U).
  - rewrite map_length. apply nth_error_Some. congruence.
  - rewrite !nth_error_map, HA, HB. cbn. congruence.
Qed.

Lemma pair_query_iff (props : list P) A B pA pB (x : xinter N) : unique_names props ->
  nth_error props A = Some pA -> nth_error props B = Some pB ->
  (forall p, In p props -> plain_name (pr_name p)) -> (forall t, In t (xi_out x) -> plain_name (x_P t)) ->
  pair_query props A B (pr_name pA) (pr_name pB) x = true <-> belongs props A B x.
Proof.
  intros U HA HB Hp Ho. unfold pair_query, belongs. rewrite !andb_true_iff.
  rewrite written_iff by (now apply (unique_nth props)). rewrite products_iff by assumption.
  split.
  - intros [[C W] [Q1 Q2]]. split; [destruct (xi_cs x); [discriminate|discriminate]|]. split; [eauto|]. auto.
  - intros (C & (pA' & pB' & HA' & HB' & W) & Q1 & Q2).
    rewrite HA in HA'. rewrite HB in HB'. injection HA' as <-. injection HB' as <-.
    split; [split; [destruct (xi_cs x); [reflexivity|contradiction]|assumption]|auto].
Qed.

(** What is loaded for one pair. *)
Lemma oget_ok {A} (l : list A) i x : nth_error l i = Some x -> oget l i = Ok x.
Proof. unfold oget. now intros ->. Qed.

Lemma pair_selected d f (props : list P) A B xs : set_ok (x_inter d) -> unique_names props ->
  plain_names props (x_inter d) -> pair_interactions d f props A B = Ok xs ->
  exists m, set_ok m /\ set_ok xs /\ (forall x, In x m <-> In x (x_inter d) /\ belongs props A B x) /\
    run_filter (x_inter d) f m = Ok xs.
Proof.
  intros Hd U [Hp Ho] H. unfold pair_interactions in H.
  apply obind_ok in H as (pA & HA & H). apply obind_ok in H as (pB & HB & H).
  assert (HA' : nth_error props A = Some pA) by (unfold oget in HA; destruct (nth_error props A); congruence).
  assert (HB' : nth_error props B = Some pB) by (unfold oget in HB; destruct (nth_error props B); congruence).
  rewrite setof_id in H by now apply ss_filter.
  exists (List.filter (pair_query props A B (pr_name pA) (pr_name pB)) (x_inter d)).
  assert (S := ss_filter (pair_query props A B (pr_name pA) (pr_name pB)) _ Hd).
  split; [assumption|]. split.
  - destruct (filter_total (x_inter d) Hd f _ S) as (r & Hr & Sr & _); [intros x Ix; apply filter_In in Ix; tauto|].
    congruence.
  - split; [|assumption]. intros x. rewrite filter_In.
    split; intros [I Q]; (split; [assumption|]); eapply pair_query_iff; eauto.
Qed.
Lemma pair_pointwise d f (props : list P) A B xs : set_ok (x_inter d) -> unique_names props ->
  plain_names props (x_inter d) -> pointwise f -> pair_interactions d f props A B = Ok xs ->
  forall x, In x xs <-> In x (x_inter d) /\ belongs props A B x /\ keeps f x.
Proof.
  intros Hd U Hn Hf H x. destruct (pair_selected d f props A B xs Hd U Hn H) as (m & Sm & _ & M & R).
  rewrite (filter_pointwise (x_inter d) Hd f Hf m xs Sm) by (auto; intros y Iy; apply M in Iy; tauto).
  rewrite M. tauto.
Qed.
Lemma pair_total d f (props : list P) A B : set_ok (x_inter d) -> A < length props -> B < length props ->
  exists xs, pair_interactions d f props A B = Ok xs.
Proof.
  intros Hd LA LB. unfold pair_interactions.
  destruct (nth_error props A) as [pA|] eqn:EA; [|apply nth_error_None in EA; lia].
  destruct (nth_error props B) as [pB|] eqn:EB; [|apply nth_error_None in EB; lia].
  rewrite (oget_ok _ _ _ EA), (oget_ok _ _ _ EB). cbn.
  rewrite setof_id by now apply ss_filter.
  destruct (filter_total (x_inter d) Hd f (List.filter (pair_query props A B (pr_name pA) (pr_name pB)) (x_inter d))) as (r & Hr & _).
  - now apply ss_filter.
  - intros x Ix. apply filter_In in Ix. tauto.
  - eauto.
Qed.

Lemma Forall2_weaken {A B} (R S : A -> B -> Prop) l r : (forall a b, R a b -> S a b) -> List.Forall2 R l r -> List.Forall2 S l r.
Proof. intros H. induction 1; constructor; auto. Qed.
(** The matrix filled by initBinaryInteractions. *)
Lemma omap_forall2 {A B} (f : A -> outcome B) l r : omap f l = Ok r -> List.Forall2 (fun a b => f a = Ok b) l r.
Proof.
  revert r. induction l as [|a l IH]; intros r H; cbn in H.
  - injection H as <-. constructor.
  - apply obind_ok in H as (b & Eb & H). apply obind_ok in H as (r' & Er & H). injection H as <-. constructor; auto.
Qed.
Lemma pairs_in n i j : In (i, j) (species_pairs n) <-> i <= j < n.
Proof.
  unfold species_pairs. rewrite in_flat_map. split.
  - intros (a & Ia & I). apply in_map_iff in I as (b & E & Ib). injection E as -> ->.
    apply in_seq in Ia. apply in_seq in Ib. lia.
  - intros L. exists i. split; [apply in_seq; lia|]. apply in_map_iff. exists j. split; [reflexivity|]. apply in_seq. lia.
Qed.
Lemma key_eqb_spec a b : key_eqb a b = true <-> a = b.
Proof.
  unfold key_eqb. destruct a, b; cbn. rewrite andb_true_iff, !Nat.eqb_eq. split; [intros [-> ->]; reflexivity|].
  intros E. injection E; auto.
Qed.
Lemma find_forall2 (Q : nat * nat -> list (equation N) -> Prop) ks s : List.Forall2 (fun k e => fst e = k /\ Q k (snd e)) ks s ->
  forall k, In k ks -> exists l, cell_find s k = Some l /\ Q k l.
Proof.
  induction 1 as [|k [k' l] ks s [E H] F IH]; intros k0 I; [destruct I|]. cbn in E, H |- *. subst k'.
  destruct (key_eqb k0 k) eqn:Ek.
  - apply key_eqb_spec in Ek as ->. eauto.
  - destruct I as [->|I]; [|auto]. rewrite (proj2 (key_eqb_spec k0 k0) eq_refl) in Ek. discriminate.
Qed.
Lemma init_cells reg d f (props r : list P) s : initBinary reg d f props = Ok (r, s) ->
  r = sort_props props /\
  forall A B, A < length r -> B < length r ->
    exists xs qs, cell_get s A B = Ok qs /\ pair_interactions d f r (Nat.min A B) (Nat.max A B) = Ok xs /\
      List.Forall2 (fun x q => load_equation reg r x = Ok q) xs qs.
Proof.
  intros H. unfold initBinary in H. apply obind_ok in H as (s' & E & H). injection H as <- <-. split; [reflexivity|].
  intros A B LA LB. apply omap_forall2 in E.
  destruct (find_forall2 (fun k l => exists xs, pair_interactions d f (sort_props props) (fst k) (snd k) = Ok xs /\
     List.Forall2 (fun x q => load_equation reg (sort_props props) x = Ok q) xs l) (species_pairs (length (sort_props props))) s') with (k := cell_key A B) as (l & Fl & xs & Hx & Hl).
  - eapply Forall2_weaken; [|exact E]. cbn. intros k [k' l] Hk. apply obind_ok in Hk as (xs & E1 & Hk).
    apply obind_ok in Hk as (qs & E2 & Hk). injection Hk as <- <-. cbn. split; [reflexivity|]. exists xs. split; [assumption|].
    now apply omap_forall2.
  - unfold cell_key. apply pairs_in. lia.
  - exists xs, l. unfold cell_get. rewrite Fl. cbn in Hx. auto.
Qed.
(** The order of the arguments of a lookup does not matter. *)
Lemma cell_sym (s : sets N) i j : cell_get s i j = cell_get s j i.
Proof. unfold cell_get, cell_key. now rewrite Nat.min_comm, Nat.max_comm. Qed.

(** Separate equal terms. *)
Lemma separate_never (props : list P) A B pA pB (x : xinter N) t u : unique_names props ->
  nth_error props A = Some pA -> nth_error props B = Some pB ->
  xi_in x = [t; u] -> x_P t = x_P u -> pair_query props A B (pr_name pA) (pr_name pB) x = false.
Proof.
  intros U HA HB E Et. destruct (pair_query props A B (pr_name pA) (pr_name pB) x) eqn:Q; [|reflexivity]. exfalso.
  unfold pair_query in Q. apply andb_true_iff in Q as [Q _]. apply andb_true_iff in Q as [_ Q].
  apply written_iff in Q; [|now apply (unique_nth props)]. rewrite E in Q. destruct Q as [Q1 Q2].
  destruct (Nat.eq_dec A B) as [Z|Z].
  - destruct (Q1 Z) as (v & Ev & _). discriminate.
  - destruct (Q2 Z) as (v & w & Pm & [Ev _] & [Ew _]).
    apply (unique_nth props A B pA pB U HA HB Z).
    assert (V : In v [t; u]) by (eapply Permutation_in; [apply Permutation_sym, Pm|now left]).
    assert (W : In w [t; u]) by (eapply Permutation_in; [apply Permutation_sym, Pm|right; now left]).
    destruct V as [<-|[<-|[]]]; destruct W as [<-|[<-|[]]]; congruence.
Qed.
Lemma separate_not_selected d f (props : list P) A B xs (x : xinter N) t u : set_ok (x_inter d) -> unique_names props ->
  pair_interactions d f props A B = Ok xs -> xi_in x = [t; u] -> x_P t = x_P u -> ~ In x xs.
Proof.
  intros Hd U H E Et I. unfold pair_interactions in H.
  apply obind_ok in H as (pA & HA & H). apply obind_ok in H as (pB & HB & H).
  assert (HA' : nth_error props A = Some pA) by (unfold oget in HA; destruct (nth_error props A); congruence).
  assert (HB' : nth_error props B = Some pB) by (unfold oget in HB; destruct (nth_error props B); congruence).
  rewrite setof_id in H by now apply ss_filter.
  destruct (filter_total (x_inter d) Hd f (List.filter (pair_query props A B (pr_name pA) (pr_name pB)) (x_inter d))) as (r & Hr & _ & Sub).
  - now apply ss_filter.
  - intros y Iy. apply filter_In in Iy. tauto.
  - rewrite Hr in H. injection H as ->. apply Sub in I. apply filter_In in I as [_ I].
    erewrite separate_never in I; eauto. discriminate.
Qed.
End P.
