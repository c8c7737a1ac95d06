(** Statements on loaded equations in the form used by the property files. *)
From Coq Require Import String List ZArith Bool Arith Lia Sorted Permutation.
From Verif Require Import Base Num ModelTerm ModelCollide ModelXsec ModelSet ModelEq
  SpecTerm SpecEq ProofTerm ProofOrder ProofEq ProofEq2 ProofEq3 ProofInelastic.
Import List ListNotations.

Lemma property_order {N : Num} (ok : N -> Prop) : mass_order ok ->
  strict_weak_order_on (fun p => ok (pr_mass p)) (prop_ltb (N:=N)) /\
  (forall p q : prop N, ok (pr_mass p) -> ok (pr_mass q) ->
     (prop_ltb p q = false /\ prop_ltb q p = false) <->
     (neqb (pr_mass p) (pr_mass q) = true /\ pr_name p = pr_name q)).
Proof. intros H. split; [exact (prop_order ok H)|intros p q; exact (prop_incomp ok H p q)]. Qed.

Section T.
Context {N : Num} (ok : N -> Prop) (Hm : mass_order ok).
Variable props : list (prop N).
Hypothesis Hok : masses_ok ok props.

Lemma load_terms_result xl m c : loadAndSortTerms props xl = Ok (m, c) ->
  List.Forall (known props) xl /\ nonneg xl /\ c = sum_n xl /\ term_map_of props xl m.
Proof.
  intros H. destruct (load_terms_inv _ _ _ H) as (A & B & C). cbn in C.
  destruct (load_terms_ok ok Hm props Hok xl A B) as (m' & E & M). rewrite H in E. injection E as -> _. auto.
Qed.

Lemma equation_loaded reg x q : load_equation reg props x = Ok q -> positive (xi_in x) ->
  exists iA pA iB pB,
    e_A (q_core q) = term_sp (Z.of_nat iA) /\ e_B (q_core q) = term_sp (Z.of_nat iB) /\
    first_named props (pr_name pA) iA pA /\ first_named props (pr_name pB) iB pB /\
    prop_ltb pB pA = false /\
    Permutation [pr_name pA; pr_name pB] (expand_names (xi_in x)) /\
    e_mu (q_core q) = ReducedMass (pr_mass pA) (pr_mass pB) /\
    List.Forall (product_of props (xi_out x)) (e_products (q_core q)) /\
    Permutation (expand_species (e_products (q_core q))) (map (findParticleIndx props) (expand_names (xi_out x))) /\
    ((Z.of_nat (length (expand_names (xi_out x))) < 4294967296)%Z ->
     numberProducts (q_core q) = Z.of_nat (length (expand_names (xi_out x)))).
Proof.
  intros H PI. destruct (load_equation_core props reg x q H) as (same & E & _).
  destruct (core_inv _ _ _ _ _ E) as (KI & KO & NI & NO & S).
  destruct (core_ok ok Hm props Hok _ _ KI KO PI NO S)
    as (e' & same' & iA & pA & iB & pB & mi & mo & L' & EA & EB & FA & FB & LB & P & MU & FP & PP & _).
  rewrite E in L'. injection L' as <- <-.
  exists iA, pA, iB, pB. do 9 (split; [assumption|]).
  intros B. unfold numberProducts. now apply (number_products props (xi_out x)).
Qed.

Lemma equation_throws reg x : nonneg (xi_in x) -> nonneg (xi_out x) ->
  (~ (List.Forall (known props) (xi_in x) /\ List.Forall (known props) (xi_out x)) ->
     load_equation reg props x = Throw ExnRuntime) /\
  (List.Forall (known props) (xi_in x) -> List.Forall (known props) (xi_out x) -> sum_n (xi_in x) <> 2%Z ->
     load_equation reg props x = Throw ExnXml).
Proof.
  intros NI NO. split.
  - intros K. apply load_equation_fail. apply core_unknown; try assumption. exists ok; auto.
  - intros KI KO S. apply load_equation_fail. apply core_not_two; try assumption. exists ok; auto.
Qed.

Lemma core_ok_iff xin xout :
  (exists r, load_core props xin xout = Ok r) <->
  List.Forall (known props) xin /\ List.Forall (known props) xout /\ nonneg xin /\ nonneg xout /\ sum_n xin = 2%Z.
Proof.
  split.
  - intros [[e same] E]. exact (core_inv _ _ _ _ _ E).
  - intros (A & B & C & D & E). now apply (core_total ok Hm props Hok).
Qed.

Lemma elastic_loaded reg x q : load_equation reg props x = Ok q ->
  positive (xi_in x) -> positive (xi_out x) -> no_from (xi_out x) ->
  eq_isElastic q = true <-> Permutation (expand_names (xi_in x)) (expand_names (xi_out x)).
Proof.
  intros H PI PO NF. destruct (load_equation_core props reg x q H) as (same & E & _).
  exact (isElastic_loaded ok Hm props Hok _ _ _ _ E PI PO NF).
Qed.

(** The label under which the interaction model is looked up. *)
Lemma default_model reg x q : load_equation reg props x = Ok q -> xi_model x = None -> positive (xi_in x) ->
  exists label load, r_im reg label = Some load /\ load props x (q_core q) (q_cs q) = Ok (q_model q) /\
    ((label = "elastic"%string /\ sides_agree (xi_in x) (xi_out x)) \/
     (label = "inelastic"%string /\ ~ sides_agree (xi_in x) (xi_out x))).
Proof.
  intros H HN PI. destruct (load_equation_core props reg x q H) as (same & E & load & R & L & _).
  pose proof (same_loaded ok Hm props Hok _ _ _ _ E PI) as I.
  exists (model_label x same), load. split; [exact R|split; [exact L|]].
  unfold model_label. rewrite HN. destruct same; [left|right]; (split; [reflexivity|]).
  - now apply I.
  - intros Q. apply I in Q. discriminate.
Qed.
End T.

Lemma product_lookup l i : terms_ok l -> (0 <= i)%Z ->
  countComponents l = Z.of_nat (length (expand_terms l)) /\
  getTermForProduct l i = match nth_error (expand_terms l) (Z.to_nat i) with
                          | Some t => Ok t
                          | None => Throw ExnRuntime
                          end.
Proof. intros H I. split; [now apply countComponents_expand|now apply getTermForProduct_spec]. Qed.
