(** The equations of an initialised database, pair by pair. *)
From Coq Require Import String Ascii ZArith Bool Arith Lia Sorted Permutation List.
From Verif Require Import Base Num ModelTerm ModelCollide ModelXsec ModelSet ModelEq ModelFilter ModelDB
  SpecTerm SpecEq SpecFilter SpecDB ProofTerm ProofInelastic ProofOrder ProofEq ProofEq2 ProofEq3
  ProofFilter ProofFilter3 ProofTop4 ProofDB ProofDB2 ProofDB3.
From Coq Require Import List.
Import ListNotations.

Section P.
Context {N : Num}.
Notation P := (prop N).

Lemma written_names A B nA nB (xin : list xterm) : written_as A B nA nB xin ->
  positive xin /\ (A <> B \/ nA = nB -> Permutation [nA; nB] (expand_names xin)).
Proof.
  intros [W1 W2]. destruct (Nat.eq_dec A B) as [E|E].
  - destruct (W1 E) as (t & -> & E1 & E2). split.
    + constructor; [|constructor]. unfold xt_n. rewrite E2. lia.
    + intros [H| <-]; [contradiction|]. unfold expand_names. cbn. unfold xt_n. rewrite E2, E1. apply Permutation_refl.
  - destruct (W2 E) as (t & u & Pm & [T1 T2] & [U1 U2]).
    assert (Nt : xt_n t = 1%Z) by (unfold xt_n; destruct T2 as [-> | ->]; reflexivity).
    assert (Nu : xt_n u = 1%Z) by (unfold xt_n; destruct U2 as [-> | ->]; reflexivity).
    split.
    + eapply Permutation_Forall; [apply Permutation_sym; exact Pm|]. constructor; [lia|]. constructor; [lia|constructor].
    + intros _. unfold expand_names. 
      assert (C : Permutation (concat (map (fun t => repeat (x_P t) (Z.to_nat (xt_n t))) [t; u]))
                              (concat (map (fun t => repeat (x_P t) (Z.to_nat (xt_n t))) xin))).
      { apply Permutation_sym. rewrite <- !flat_map_concat_map. apply Permutation_flat_map. exact Pm. }
      eapply Permutation_trans; [|exact C]. cbn [map concat]. rewrite Nt, Nu, T1, U1. apply Permutation_refl.
Qed.

(** What an interaction that belongs to a pair loads to. *)
Definition loads_for reg (r : list P) A B (x : xinter N) (q : equation N) : Prop :=
  exists pA pB, load_equation reg r x = Ok q /\
    nth_error r A = Some pA /\ nth_error r B = Some pB /\ nltb (pr_mass pB) (pr_mass pA) = false /\
    Permutation [pr_name pA; pr_name pB] (expand_names (xi_in x)) /\
    e_A (q_core q) = term_sp (Z.of_nat A) /\ e_B (q_core q) = term_sp (Z.of_nat B) /\
    e_mu (q_core q) = ReducedMass (pr_mass pA) (pr_mass pB) /\
    List.Forall (product_of r (xi_out x)) (e_products (q_core q)) /\
    Permutation (expand_species (e_products (q_core q))) (map (findParticleIndx r) (expand_names (xi_out x))).

Lemma pair_equation (ok : N -> Prop) reg d f (props r : list P) s : mass_order ok -> masses_ok ok props -> unique_names props ->
  initBinary reg d f props = Ok (r, s) ->
  forall A B x q, A <= B < length r -> belongs r A B x -> load_equation reg r x = Ok q -> loads_for reg r A B x q.
Proof.
  intros Hm Ho U H A B x q HAB Hb Lx.
  destruct (init_sorted ok reg d f props r s Hm Ho H) as [Pr Hs].
  assert (Ur : unique_names r) by (eapply Permutation_NoDup; [apply Permutation_map; exact Pr|exact U]).
  assert (Hr : masses_ok ok r) by (eapply Permutation_Forall; [exact Pr|exact Ho]).
  pose proof Hb as (_ & (pA & pB & HA & HB & W) & _).
  destruct (written_names _ _ _ _ _ W) as [Pos Nm].
  destruct (equation_loaded ok Hm r Hr reg x q Lx Pos) as (iA & qA & iB & qB & EA & EB & FA & FB & Lt & Pm & Mu & Po & Ps & _).
  assert (Nm' : Permutation [pr_name pA; pr_name pB] (expand_names (xi_in x))).
  { apply Nm. destruct (Nat.eq_dec A B) as [->|E]; [right|left; exact E]. congruence. }
  assert (Q : Permutation [pr_name qA; pr_name qB] [pr_name pA; pr_name pB]) by (eapply Permutation_trans; [exact Pm|apply Permutation_sym, Nm']).
  pose proof (lookup_added r A pA Ur HA) as LA. pose proof (lookup_added r B pB Ur HB) as LB.
  assert (Cases : (pr_name qA = pr_name pA /\ pr_name qB = pr_name pB) \/ (pr_name qA = pr_name pB /\ pr_name qB = pr_name pA)).
  { apply Permutation_length_2_inv in Q as [Q|Q]; injection Q; auto. }
  assert (EE : (iA = A /\ qA = pA /\ iB = B /\ qB = pB)).
  { destruct Cases as [[N1 N2]|[N1 N2]]; rewrite N1 in FA; rewrite N2 in FB.
    - destruct (first_named_unique _ _ _ _ _ _ FA LA) as [-> ->]. destruct (first_named_unique _ _ _ _ _ _ FB LB) as [-> ->]. auto.
    - destruct (first_named_unique _ _ _ _ _ _ FA LB) as [-> ->]. destruct (first_named_unique _ _ _ _ _ _ FB LA) as [-> ->].
      destruct (Nat.eq_dec A B) as [->|E]; [rewrite HA in HB; injection HB as ->; auto|].
      exfalso. destruct (Hs A B pA pB) as (_ & _ & Hlt); [lia|assumption|assumption|]. rewrite (Hlt U) in Lt. discriminate. }
  destruct EE as (-> & -> & -> & ->).
  exists pA, pB. split; [assumption|]. do 2 (split; [assumption|]). split; [|split; [exact Nm'|do 4 (split; [assumption|]); assumption]].
  destruct (Nat.eq_dec A B) as [->|E].
  - rewrite HA in HB. injection HB as ->. destruct Hm as [[Hi _] _]. apply Hi.
    unfold masses_ok in Hr. rewrite List.Forall_forall in Hr. apply Hr. eapply nth_error_In; eassumption.
  - destruct (Hs A B pA pB) as (G & _); [lia|assumption|assumption|]. exact G.
Qed.

(** The sources of the equations of a pair. *)
Lemma cell_sources reg d f (props r : list P) s : unique_names props -> set_ok (x_inter d) -> plain_names props (x_inter d) ->
  initBinary reg d f props = Ok (r, s) ->
  forall A B, A <= B < length r -> exists xs qs, pair_interactions d f r A B = Ok xs /\ cell_get s A B = Ok qs /\
    List.Forall2 (fun x q => load_equation reg r x = Ok q) xs qs /\
    List.Forall (fun x => In x (x_inter d) /\ belongs r A B x) xs.
Proof.
  intros U Hd Hn H A B HAB. destruct (init_cells reg d f props r s H) as [-> K].
  destruct (K A B) as (xs & qs & E & Hx & Hl); [lia|lia|].
  rewrite Nat.min_l, Nat.max_r in Hx by lia. exists xs, qs. do 3 (split; [assumption|]).
  assert (U' := sort_unique props U).
  assert (Hn' : plain_names (sort_props props) (x_inter d)).
  { destruct Hn as [Hn1 Hn2]. split; [|assumption]. intros p Ip. apply Hn1.
    eapply Permutation_in; [apply Permutation_sym, sort_perm|assumption]. }
  destruct (pair_selected d f (sort_props props) A B xs Hd U' Hn' Hx) as (m & Sm & _ & Hm & R).
  destruct (filter_total (x_inter d) Hd f m Sm) as (r' & Er & _ & Sub). { intros y Iy. apply Hm in Iy. tauto. }
  rewrite R in Er. injection Er as <-. apply List.Forall_forall. intros x Ix. apply Hm, Sub, Ix.
Qed.

Lemma cell_equation (ok : N -> Prop) reg d f (props r : list P) s : mass_order ok -> masses_ok ok props -> unique_names props ->
  set_ok (x_inter d) -> plain_names props (x_inter d) -> initBinary reg d f props = Ok (r, s) ->
  forall A B, A <= B < length r -> exists xs qs, pair_interactions d f r A B = Ok xs /\ cell_get s A B = Ok qs /\
    List.Forall (fun x => In x (x_inter d) /\ belongs r A B x) xs /\
    List.Forall2 (loads_for reg r A B) xs qs.
Proof.
  intros Hm Ho U Hd Hn H A B HAB.
  destruct (cell_sources reg d f props r s U Hd Hn H A B HAB) as (xs & qs & E1 & E2 & F & G).
  exists xs, qs. do 3 (split; [assumption|]). clear E1 E2. induction F as [|x q xs qs L F IH]; constructor; inversion G; subst.
  - eapply pair_equation; try eassumption. tauto.
  - now apply IH.
Qed.
End P.
