(** Lookup by names, product names, and success of the initialisation. *)
From Coq Require Import String Ascii List ZArith Bool Arith Lia Sorted Permutation.
From Verif Require Import Base Num ModelTerm ModelCollide ModelXsec ModelSet ModelEq ModelFilter ModelDB
  SpecTerm SpecEq SpecFilter SpecDB ProofTerm ProofInelastic ProofOrder ProofEq ProofEq2 ProofEq3
  ProofFilter ProofFilter3 ProofTop4 ProofDB ProofDB2.
From Coq Require Import List.
Import ListNotations.

Section P.
Context {N : Num}.
Notation P := (prop N).

Lemma named_lookup (props : list P) (s : sets N) i j pi pj : unique_names props ->
  nth_error props i = Some pi -> nth_error props j = Some pj ->
  cell_named props s (pr_name pi) (pr_name pj) = cell_get s i j /\
  cell_named props s (pr_name pj) (pr_name pi) = cell_get s i j.
Proof.
  intros U Hi Hj. unfold cell_named.
  rewrite (proj1 (lookup_all props i pi U Hi)), (proj1 (lookup_all props j pj U Hj)).
  destruct (Z.eqb_spec (Z.of_nat i) (-1)); [lia|]. destruct (Z.eqb_spec (Z.of_nat j) (-1)); [lia|].
  rewrite !Nat2Z.id. split; [reflexivity|apply cell_sym].
Qed.
Lemma named_unknown (props : list P) (s : sets N) a b :
  ~ (In a (map (pr_name (N:=N)) props) /\ In b (map (pr_name (N:=N)) props)) ->
  cell_named props s a b = Throw ExnRuntime.
Proof.
  intros H. unfold cell_named.
  destruct (in_dec string_dec a (map (pr_name (N:=N)) props)) as [Ia|Ia].
  - destruct (in_dec string_dec b (map (pr_name (N:=N)) props)) as [Ib|Ib]; [tauto|].
    destruct (lookup_unknown props b Ib) as [-> _]. rewrite Z.eqb_refl. destruct (findParticleIndx props a =? -1)%Z; reflexivity.
  - destruct (lookup_unknown props a Ia) as [-> _]. reflexivity.
Qed.

Definition str_sorted : list string -> Prop := StronglySorted (fun a b => str_ltb a b = true).
Lemma names_insert_in x s y : In y (names_insert x s) <-> y = x \/ In y s.
Proof.
  induction s as [|z s IH]; [cbn; intuition|]. cbn [names_insert].
  destruct (str_ltb x z) eqn:E1; [cbn; intuition|]. destruct (str_ltb z x) eqn:E2.
  - cbn [In]. rewrite IH. intuition.
  - assert (x = z) as -> by now apply str_total. cbn. intuition.
Qed.
Lemma names_insert_sorted x s : str_sorted s -> str_sorted (names_insert x s).
Proof.
  induction s as [|z s IH]; intros S; [constructor; constructor|]. cbn [names_insert].
  apply StronglySorted_inv in S as [S F].
  destruct (str_ltb x z) eqn:E1.
  - constructor; [now constructor|]. constructor; [assumption|]. rewrite List.Forall_forall in F |- *.
    intros y Iy. apply (str_trans x z y); auto.
  - destruct (str_ltb z x) eqn:E2; [|now constructor]. constructor; [now apply IH|].
    rewrite List.Forall_forall in F |- *. intros y Iy. apply names_insert_in in Iy as [->|Iy]; auto.
Qed.
Lemma rhs_names (ctxs : list (xset N)) : str_sorted (findAllRHSParticles ctxs) /\
  forall a, In a (findAllRHSParticles ctxs) <-> exists xs x t, In xs ctxs /\ In x xs /\ In t (xi_out x) /\ x_P t = a.
Proof.
  unfold findAllRHSParticles.
  assert (G : forall (l : list xterm) s, str_sorted s ->
    str_sorted (fold_left (fun s t => names_insert (x_P t) s) l s) /\
    forall a, In a (fold_left (fun s t => names_insert (x_P t) s) l s) <-> In a s \/ exists t, In t l /\ x_P t = a).
  { induction l as [|t l IH]; intros s S; cbn.
    - split; [assumption|]. intros a. split; [auto|]. intros [H|(t & [] & _)]; assumption.
    - destruct (IH (names_insert (x_P t) s) (names_insert_sorted _ _ S)) as [S' I]. split; [assumption|].
      intros a. rewrite I, names_insert_in. split.
      + intros [[->|H]|(u & Iu & E)]; eauto.
      + intros [H|(u & [<-|Iu] & E)]; eauto. }
  destruct (G (flat_map (fun xs => flat_map (fun x => xi_out x) xs) ctxs) []) as [S I]; [constructor|].
  split; [assumption|]. intros a. rewrite I. split.
  - intros [[]|(t & It & E)]. apply in_flat_map in It as (xs & Ixs & It). apply in_flat_map in It as (x & Ix & It).
    exists xs, x, t. auto.
  - intros (xs & x & t & Ixs & Ix & It & E). right. exists t. split; [|assumption].
    apply in_flat_map. exists xs. split; [assumption|]. apply in_flat_map. eauto.
Qed.

Lemma omap_total {A B} (f : A -> outcome B) l : (forall a, In a l -> exists b, f a = Ok b) -> exists r, omap f l = Ok r.
Proof.
  induction l as [|a l IH]; intros H; [eexists; reflexivity|]. cbn.
  destruct (H a (or_introl eq_refl)) as [b ->]. cbn. destruct IH as [r ->]; [intros; apply H; now right|]. cbn. eauto.
Qed.
(** Initialisation succeeds when the interactions that belong to a pair can be loaded. *)
Lemma init_total reg d f (props : list P) : unique_names props -> set_ok (x_inter d) -> plain_names props (x_inter d) ->
  (forall A B x, A <= B < length props -> In x (x_inter d) -> belongs (sort_props props) A B x ->
     exists q, load_equation reg (sort_props props) x = Ok q) ->
  exists s, initBinary reg d f props = Ok (sort_props props, s).
Proof.
  intros U Hd Hn H. unfold initBinary.
  assert (U' := sort_unique props U).
  assert (Hn' : plain_names (sort_props props) (x_inter d)).
  { destruct Hn as [Hn1 Hn2]. split; [|assumption]. intros p Ip. apply Hn1.
    eapply Permutation_in; [apply Permutation_sym, sort_perm|assumption]. }
  assert (Ln : length (sort_props props) = length props) by (symmetry; apply Permutation_length, sort_perm).
  match goal with |- context [omap ?g (species_pairs _)] => destruct (omap_total g (species_pairs (length (sort_props props)))) as [s Es] end.
  - intros [A B] I. apply pairs_in in I. cbn [fst snd].
    destruct (pair_total d f (sort_props props) A B Hd) as [xs Ex]; [lia|lia|]. rewrite Ex. cbn [obind].
    destruct (pair_selected d f (sort_props props) A B xs Hd U' Hn' Ex) as (m & Sm & _ & Hm & R).
    destruct (filter_total (x_inter d) Hd f m Sm) as (r & Er & _ & Sub). { intros y Iy. apply Hm in Iy. tauto. }
    rewrite R in Er. injection Er as <-.
    destruct (omap_total (load_equation reg (sort_props props)) xs) as [qs Eq].
    + intros x Ix. apply Sub, Hm in Ix as [Ix Bx]. apply (H A B); auto. lia.
    + rewrite Eq. cbn [obind]. eauto.
  - rewrite Es. cbn. eauto.
Qed.

Lemma init_exact reg d f (props r : list P) s : unique_names props -> set_ok (x_inter d) -> plain_names props (x_inter d) ->
  initBinary reg d f props = Ok (r, s) ->
  forall A B, A <= B < length r -> exists m xs qs,
    set_ok m /\ (forall x, In x m <-> In x (x_inter d) /\ belongs r A B x) /\
    run_filter (x_inter d) f m = Ok xs /\ cell_get s A B = Ok qs /\ cell_get s B A = Ok qs /\
    List.Forall2 (fun x q => load_equation reg r x = Ok q) xs qs /\
    (pointwise f -> forall x, In x xs <-> In x (x_inter d) /\ belongs r A B x /\ keeps f x).
Proof.
  intros U Hd Hn H A B L. destruct (init_cells reg d f props r s H) as [-> K].
  destruct (K A B) as (xs & qs & E & Hx & Hl); [lia|lia|].
  rewrite Nat.min_l, Nat.max_r in Hx by lia.
  assert (U' := sort_unique props U).
  assert (Hn' : plain_names (sort_props props) (x_inter d)).
  { destruct Hn as [Hn1 Hn2]. split; [|assumption]. intros p Ip. apply Hn1.
    eapply Permutation_in; [apply Permutation_sym, sort_perm|assumption]. }
  destruct (pair_selected d f (sort_props props) A B xs Hd U' Hn' Hx) as (m & Sm & _ & Hm & R).
  exists m, xs, qs. repeat (split; [assumption|]). split; [now rewrite cell_sym|]. split; [assumption|].
  intros Hf. now apply (pair_pointwise d f _ A B).
Qed.
Lemma init_sorted (ok : N -> Prop) reg d f (props r : list P) s : mass_order ok -> masses_ok ok props ->
  initBinary reg d f props = Ok (r, s) ->
  Permutation props r /\ forall i j p q, i < j -> nth_error r i = Some p -> nth_error r j = Some q ->
    nltb (pr_mass q) (pr_mass p) = false /\
    (neqb (pr_mass p) (pr_mass q) = true -> str_ltb (pr_name q) (pr_name p) = false) /\
    (unique_names props -> prop_ltb p q = true).
Proof.
  intros Hm Ho H. destruct (init_cells reg d f props r s H) as [-> _]. split; [apply sort_perm|].
  intros i j p q L Hi Hj. destruct (sorted_masses ok Hm props i j p q Ho L Hi Hj) as (X & Y & Z).
  split; [assumption|]. split; [|assumption]. intros E.
  assert (O : ok (pr_mass p) /\ ok (pr_mass q)).
  { pose proof (Permutation_Forall (sort_perm props) Ho) as H'. rewrite List.Forall_forall in H'.
    split; apply H'; eapply nth_error_In; eauto. }
  unfold prop_ltb in X. rewrite (m_eq_sym ok Hm (pr_mass q) (pr_mass p)) in X by tauto. rewrite E in X.
  apply orb_false_iff in X as [_ X]. exact X.
Qed.

(** Two separate terms of a species load directly. *)
Lemma separate_loads (ok : N -> Prop) (props : list P) xin xout t u : mass_order ok -> masses_ok ok props ->
  xin = [t; u] -> x_P t = x_P u -> xt_n t = 1%Z -> xt_n u = 1%Z -> known props t ->
  List.Forall (known props) xout -> nonneg xout -> exists r, load_core props xin xout = Ok r.
Proof.
  intros Hm Ho -> E Et Eu Kt Ko No. apply (core_ok_iff ok Hm props Ho).
  split; [|split; [assumption|split; [|split; [assumption|]]]].
  - constructor; [assumption|]. constructor; [|constructor]. unfold known in *. now rewrite <- E.
  - constructor; [lia|]. constructor; [lia|constructor].
  - unfold sum_n. cbn. lia.
Qed.
End P.
