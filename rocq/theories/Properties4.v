(** C45-C49: orders, term loading and equation loading. *)
From Coq Require Import String List ZArith Bool Arith Lia Sorted Permutation.
From Flocq Require Import IEEE754.BinarySingleNaN.
From Verif Require Import Base Num ModelTerm ModelCollide ModelFactories ModelXsec ModelSet ModelEq
  SpecTerm SpecEq ProofTerm ProofOrder ProofEq ProofEq2 ProofEq3 ProofTop4.
From Coq Require Import List.
Import ListNotations.
Local Open Scope string_scope.

(** C45.  Species order: whenever the masses compare like an order, (mass, name) is a
    strict weak order and incomparable species agree in mass and name. *)
Theorem C45_property_order : forall (N : Num) (ok : N -> Prop), mass_order ok ->
  strict_weak_order_on (fun p => ok (pr_mass p)) (prop_ltb (N:=N)) /\
  (forall p q : prop N, ok (pr_mass p) -> ok (pr_mass q) ->
     (prop_ltb p q = false /\ prop_ltb q p = false) <->
     (neqb (pr_mass p) (pr_mass q) = true /\ pr_name p = pr_name q)).
Proof. exact @property_order. Qed.
Print Assumptions C45_property_order.
(** All real masses and all doubles except NaN compare like an order. *)
Theorem C45_real_masses : mass_order (N:=RNum) (fun _ => True).
Proof. exact R_mass_order. Qed.
Print Assumptions C45_real_masses.
Theorem C45_double_masses : forall lm, mass_order (N:=F64 lm) (fun x => is_nan (x : binary64) = false).
Proof. exact F_mass_order. Qed.
Print Assumptions C45_double_masses.
(** With NaN masses the species order is no strict weak order. *)
Theorem C45_nan_mass_refuted : forall lm, ~ strict_weak_order (prop_ltb (N:=F64 lm)).
Proof. exact nan_not_order. Qed.
Print Assumptions C45_nan_mass_refuted.
Theorem C45_term_order : strict_weak_order term_ltb.
Proof. exact term_order. Qed.
Print Assumptions C45_term_order.
(** The order of EqTerm is that of the names, and total. *)
Theorem C45_eqterm_order : strict_weak_order str_ltb /\
  (forall a b, str_ltb a b = false -> str_ltb b a = false -> a = b).
Proof. exact str_order. Qed.
Print Assumptions C45_eqterm_order.
Theorem C45_input_order : strict_weak_order_on plain_input input_ltb.
Proof. exact input_order_plain. Qed.
Print Assumptions C45_input_order.
Theorem C45_input_order_refuted : ~ strict_weak_order input_ltb.
Proof. exact input_not_order. Qed.
Print Assumptions C45_input_order_refuted.

(** A machine database for the examples: masses 1, 4, 4 and 7 (not sorted). *)
Definition lm0 : libm := mkLibm (fun x => x) (fun x => x) (fun x => x) (fun x _ => x) (fun x => x) (fun x => x) (fofZ 3) (fofZ 2).
Notation F := (F64 lm0).
Definition dbx : list (prop F) :=
  [mkProp (N:=F) "Xe" (fofZ 7) (fofZ 0); mkProp (N:=F) "B" (fofZ 4) (fofZ 0);
   mkProp (N:=F) "e" (fofZ 1) (fofZ (-1)); mkProp (N:=F) "A" (fofZ 4) (fofZ (-1))].
Definition okF : F -> Prop := fun x => is_nan (x : binary64) = false.
Lemma dbx_ok : masses_ok okF dbx.
Proof. unfold masses_ok, dbx, okF. apply Forall_cons; [vm_compute; reflexivity|]. apply Forall_cons; [vm_compute; reflexivity|]. apply Forall_cons; [vm_compute; reflexivity|]. apply Forall_cons; [vm_compute; reflexivity|]. apply Forall_nil. Qed.
Example C45_case :
  map (fun p => map (fun q => prop_ltb p q) dbx) dbx =
  [[false; false; false; false]; [true; false; false; false]; [true; true; false; true]; [true; true; false; false]].
Proof. vm_compute. reflexivity. Qed.
Example C45_input_case : plain_input (mkInput (term_sp 1) (term_sp 2)) /\
  input_ltb (mkInput (term_sp 1) (term_sp 2)) (mkInput (term_sp 1) (term_sp 3)) = true.
Proof. split; reflexivity. Qed.

(** C46.  Loading one side succeeds iff all names are known and no multiplicity is
    negative; the result is then one entry per distinct species ascending in (mass,
    name) with the number of particles and per-particle data in document order. *)
Theorem C46_load_terms : forall (N : Num) (ok : N -> Prop), mass_order ok ->
  forall props : list (prop N), masses_ok ok props -> forall xl,
  List.Forall (known props) xl -> nonneg xl ->
  exists m, loadAndSortTerms props xl = Ok (m, sum_n xl) /\ term_map_of props xl m.
Proof. exact @load_terms_ok. Qed.
Print Assumptions C46_load_terms.
Theorem C46_loaded_only_if : forall (N : Num) (ok : N -> Prop), mass_order ok ->
  forall props : list (prop N), masses_ok ok props -> forall xl m c,
  loadAndSortTerms props xl = Ok (m, c) ->
  List.Forall (known props) xl /\ nonneg xl /\ c = sum_n xl /\ term_map_of props xl m.
Proof. exact @load_terms_result. Qed.
Print Assumptions C46_loaded_only_if.
Theorem C46_unknown_throws : forall (N : Num) (props : list (prop N)) xl,
  nonneg xl -> ~ List.Forall (known props) xl -> loadAndSortTerms props xl = Throw ExnRuntime.
Proof. exact @load_terms_unknown. Qed.
Print Assumptions C46_unknown_throws.
(** The result of loading is never undefined. *)
Theorem C46_ok_or_throw : forall (N : Num) (props : list (prop N)) xl,
  (exists r, loadAndSortTerms props xl = Ok r) \/ (exists e, loadAndSortTerms props xl = Throw e).
Proof. exact @load_terms_throw. Qed.
Print Assumptions C46_ok_or_throw.

Definition xt (n : Z) (P : string) : xterm := mkXT P (Some n) None None.
(** "B + 2 A[0] + Xe + B[1]" *)
Definition xs1 : list xterm := [mkXT "B" None None None; mkXT "A" (Some 2%Z) (Some 0%Z) None; xt 1 "Xe"; mkXT "B" None (Some 1%Z) (Some "op")].
Example C46_case : List.Forall (known dbx) xs1 /\ nonneg xs1 /\
  (match loadAndSortTerms dbx xs1 with
   | Ok (m, c) => Some (map (fun e => (fst (fst e), ti_n (snd e), ti_from (snd e), ti_ops (snd e))) m, c)
   | _ => None end)
  = Some ([(3, 2%Z, [0; 0]%Z, [""; ""]); (1, 2%Z, [-1; 1]%Z, [""; "op"]); (0, 1%Z, [-1]%Z, [""])], 5%Z).
Proof.
  split; [|split; [|vm_compute; reflexivity]].
  - repeat (apply Forall_cons; [match goal with |- known _ ?t => change (In (x_P t) ["Xe"; "B"; "e"; "A"]) end; cbn [In x_P xt]; tauto|]).
    apply Forall_nil.
  - repeat (apply Forall_cons; [cbn; lia|]). apply Forall_nil.
Qed.
Example C46_unknown_case : ~ List.Forall (known dbx) [xt 1 "A"; xt 1 "He"] /\
  (match loadAndSortTerms dbx [xt 1 "A"; xt 1 "He"] with Throw ExnRuntime => true | _ => false end) = true.
Proof.
  split; [|vm_compute; reflexivity]. intros H. apply Forall_inv_tail, Forall_inv in H.
  change (In "He" ["Xe"; "B"; "e"; "A"]) in H. cbn [In] in H. decompose [or] H; try discriminate; assumption.
Qed.

(** C47.  A loaded equation: reactants, products, reduced mass, number of products. *)
Theorem C47_loaded : forall (N : Num) (ok : N -> Prop), mass_order ok ->
  forall props : list (prop N), masses_ok ok props -> forall reg x q,
  load_equation reg props x = Ok q -> positive (xi_in x) ->
  exists iA pA iB pB,
    e_A (q_core q) = term_sp (Z.of_nat iA) /\ e_B (q_core q) = term_sp (Z.of_nat iB) /\
    first_named props (pr_name pA) iA pA /\ first_named props (pr_name pB) iB pB /\
    prop_ltb pB pA = false /\
    Permutation [pr_name pA; pr_name pB] (expand_names (xi_in x)) /\
    e_mu (q_core q) = ReducedMass (pr_mass pA) (pr_mass pB) /\
    List.Forall (product_of props (xi_out x)) (e_products (q_core q)) /\
    Permutation (expand_species (e_products (q_core q))) (map (findParticleIndx props) (expand_names (xi_out x))) /\
    ((Z.of_nat (length (expand_names (xi_out x))) < 4294967296)%Z ->
     numberProducts (q_core q) = Z.of_nat (length (expand_names (xi_out x)))).
Proof. exact @equation_loaded. Qed.
Print Assumptions C47_loaded.
Theorem C47_throws : forall (N : Num) (ok : N -> Prop), mass_order ok ->
  forall props : list (prop N), masses_ok ok props -> forall reg x,
  nonneg (xi_in x) -> nonneg (xi_out x) ->
  (~ (List.Forall (known props) (xi_in x) /\ List.Forall (known props) (xi_out x)) ->
     load_equation reg props x = Throw ExnRuntime) /\
  (List.Forall (known props) (xi_in x) -> List.Forall (known props) (xi_out x) -> sum_n (xi_in x) <> 2%Z ->
     load_equation reg props x = Throw ExnXml).
Proof. exact @equation_throws. Qed.
Print Assumptions C47_throws.
(** The part of loading that builds reactants and products succeeds exactly for known
    names, non-negative multiplicities and two reactants, and is never undefined. *)
Theorem C47_core_iff : forall (N : Num) (ok : N -> Prop), mass_order ok ->
  forall props : list (prop N), masses_ok ok props -> forall xin xout,
  (exists r, load_core props xin xout = Ok r) <->
  List.Forall (known props) xin /\ List.Forall (known props) xout /\ nonneg xin /\ nonneg xout /\ sum_n xin = 2%Z.
Proof. exact @core_ok_iff. Qed.
Print Assumptions C47_core_iff.
Theorem C47_core_defined : forall (N : Num) (ok : N -> Prop), mass_order ok ->
  forall props : list (prop N), masses_ok ok props -> forall xin xout,
  load_core props xin xout <> UB /\ load_core props xin xout <> Diverge.
Proof. exact @core_no_ub. Qed.
Print Assumptions C47_core_defined.
(** Without positive multiplicities the reactants can be wrong: "0 A + 2 B" loads as
    A + A. *)
Theorem C47_zero_multiplicity_refuted :
  exists (props : list (prop F)) xin xout e same, masses_ok okF props /\ nonneg xin /\
    load_core props xin xout = Ok (e, same) /\
    expand_names xin = ["B"; "B"] /\ findParticleIndx props "B" = 1%Z /\ t_species (e_A e) = 3%Z /\ t_species (e_B e) = 3%Z.
Proof.
  exists dbx, [xt 0 "A"; xt 2 "B"], [xt 2 "B"].
  assert (H : (match load_core dbx [xt 0 "A"; xt 2 "B"] [xt 2 "B"] with
               | Ok (e, _) => Some (t_species (e_A e), t_species (e_B e)) | _ => None end) = Some (3, 3)%Z)
    by (vm_compute; reflexivity).
  destruct (load_core dbx [xt 0 "A"; xt 2 "B"] [xt 2 "B"]) as [[e same]| | |] eqn:E; try discriminate.
  injection H as HA HB. exists e, same.
  split; [exact dbx_ok|]. split; [|split; [reflexivity|split; [reflexivity|split; [vm_compute; reflexivity|split; assumption]]]].
  apply Forall_cons; [cbn; lia|]. apply Forall_cons; [cbn; lia|]. apply Forall_nil.
Qed.
Print Assumptions C47_zero_multiplicity_refuted.

(** "Xe + e -> B + A" with a constant cross section. *)
Definition reg0 : registry F := default_reg (N:=F) 0 true finf (fofZ 0) (fun _ _ => true) (fun _ a b => (a, b))
  (setParticleFactories (N:=F) finf) (fun _ => Ok []) false false.
Definition xi1 : xinter F := mkXI (N:=F) 0 ["standard"] [xt 1 "Xe"; xt 1 "e"] [xt 1 "B"; xt 1 "A"] "Xee" "BA"
  (Some (Some "constant", DConstant (N:=F) (fofZ 2) None)) None None None.
Definition eq_view (q : outcome (equation F)) :=
  match q with
  | Ok q => Some (t_species (e_A (q_core q)), t_species (e_B (q_core q)),
                  map (fun t => (t_species t, t_n t)) (e_products (q_core q)), numberProducts (q_core q),
                  match q_model q with MElastic _ => 0 | MVSS _ _ => 1 | MIn22 _ => 2 | MIn23 _ => 3 | _ => 4 end)
  | _ => None
  end.
Example C47_case : positive (xi_in xi1) /\
  eq_view (load_equation reg0 dbx xi1) = Some (2%Z, 0%Z, [(3, 1); (1, 1)]%Z, 2%Z, 2).
Proof.
  split; [|vm_compute; reflexivity].
  apply Forall_cons; [cbn; lia|]. apply Forall_cons; [cbn; lia|]. apply Forall_nil.
Qed.
Example C47_three_reactants :
  (match load_equation reg0 dbx (mkXI (N:=F) 0 [] [xt 3 "e"] [xt 3 "e"] "" "" None None None None) with
   | Throw ExnXml => true | _ => false end) = true.
Proof. vm_compute. reflexivity. Qed.

(** C48.  isElastic of a loaded equation without 'from' on its products. *)
Theorem C48_loaded : forall (N : Num) (ok : N -> Prop), mass_order ok ->
  forall props : list (prop N), masses_ok ok props -> forall reg x q,
  load_equation reg props x = Ok q ->
  positive (xi_in x) -> positive (xi_out x) -> no_from (xi_out x) ->
  eq_isElastic q = true <-> Permutation (expand_names (xi_in x)) (expand_names (xi_out x)).
Proof. exact @elastic_loaded. Qed.
Print Assumptions C48_loaded.
(** The interaction model chosen when the document names none: elastic exactly when both
    sides have the same species with the same numbers, 'from' and 'ops' data. *)
Theorem C48_default_model : forall (N : Num) (ok : N -> Prop), mass_order ok ->
  forall props : list (prop N), masses_ok ok props -> forall reg x q,
  load_equation reg props x = Ok q -> xi_model x = None -> positive (xi_in x) ->
  exists label load, r_im reg label = Some load /\ load props x (q_core q) (q_cs q) = Ok (q_model q) /\
    ((label = "elastic" /\ sides_agree (xi_in x) (xi_out x)) \/
     (label = "inelastic" /\ ~ sides_agree (xi_in x) (xi_out x))).
Proof. exact @default_model. Qed.
Print Assumptions C48_default_model.
(** Which for plain terms is the same criterion. *)
Theorem C48_agree_plain : forall xin xout,
  positive xin -> positive xout -> no_from xin -> no_from xout -> no_ops xin -> no_ops xout ->
  sides_agree xin xout <-> Permutation (expand_names xin) (expand_names xout).
Proof. exact agree_plain. Qed.
Print Assumptions C48_agree_plain.

Definition xi_from : xinter F := mkXI (N:=F) 0 ["standard"] [xt 1 "A"; xt 1 "B"] [mkXT "A" None (Some 0%Z) None; mkXT "B" None (Some 1%Z) None]
  "AB" "AB" (Some (Some "constant", DConstant (N:=F) (fofZ 2) None)) (Some "elastic") None None.
Definition xi_zero : xinter F := mkXI (N:=F) 0 ["standard"] [xt 1 "A"; xt 1 "B"] [xt 1 "A"; xt 1 "B"; xt 0 "Xe"]
  "AB" "AB0Xe" (Some (Some "constant", DConstant (N:=F) (fofZ 2) None)) (Some "elastic") None None.
(** With explicit 'from' data, or a product of multiplicity zero, an elastic equation
    is not recognised. *)
Theorem C48_from_refuted : exists (props : list (prop F)) reg x q,
  masses_ok okF props /\ positive (xi_in x) /\ positive (xi_out x) /\
  Permutation (expand_names (xi_in x)) (expand_names (xi_out x)) /\
  load_equation reg props x = Ok q /\ eq_isElastic q = false.
Proof.
  exists dbx, reg0, xi_from.
  assert (H : (match load_equation reg0 dbx xi_from with Ok q => negb (eq_isElastic q) | _ => false end) = true)
    by (vm_compute; reflexivity).
  destruct (load_equation reg0 dbx xi_from) as [q| | |] eqn:E; try discriminate.
  exists q. split; [exact dbx_ok|]. apply negb_true_iff in H.
  split; [|split; [|split; [apply Permutation_refl|auto]]].
  - repeat (apply Forall_cons; [cbn; lia|]). apply Forall_nil.
  - repeat (apply Forall_cons; [cbn; lia|]). apply Forall_nil.
Qed.
Print Assumptions C48_from_refuted.
Theorem C48_zero_product_refuted : exists (props : list (prop F)) reg x q,
  masses_ok okF props /\ positive (xi_in x) /\ no_from (xi_out x) /\
  Permutation (expand_names (xi_in x)) (expand_names (xi_out x)) /\
  load_equation reg props x = Ok q /\ eq_isElastic q = false.
Proof.
  exists dbx, reg0, xi_zero.
  assert (H : (match load_equation reg0 dbx xi_zero with Ok q => negb (eq_isElastic q) | _ => false end) = true)
    by (vm_compute; reflexivity).
  destruct (load_equation reg0 dbx xi_zero) as [q| | |] eqn:E; try discriminate.
  exists q. split; [exact dbx_ok|]. apply negb_true_iff in H.
  split; [|split; [|split; [apply Permutation_refl|auto]]].
  - repeat (apply Forall_cons; [cbn; lia|]). apply Forall_nil.
  - repeat (apply Forall_cons; [cbn; reflexivity|]). apply Forall_nil.
Qed.
Print Assumptions C48_zero_product_refuted.
(** Conversely a hand-built equation with a repeated product term is taken for elastic
    although a particle is created: A + B -> A + A + B. *)
Theorem C48_duplicate_refuted : exists A B products,
  isElastic A B products = true /\ terms_ok products /\
  length (expand_terms products) = 3.
Proof.
  exists (term_sp 0), (term_sp 1), [term_sp 0; term_sp 0; term_sp 1].
  split; [reflexivity|split; [|reflexivity]]. split; [|vm_compute; reflexivity].
  repeat (apply Forall_cons; [cbn; lia|]). apply Forall_nil.
Qed.
Print Assumptions C48_duplicate_refuted.

Definition xi_el : xinter F := mkXI (N:=F) 0 ["standard"] [xt 2 "A"] [xt 1 "A"; xt 1 "A"] "2A" "AA"
  (Some (Some "constant", DConstant (N:=F) (fofZ 2) None)) None None None.
Example C48_case : positive (xi_in xi_el) /\ positive (xi_out xi_el) /\ no_from (xi_out xi_el) /\
  eq_view (load_equation reg0 dbx xi_el) = Some (3%Z, 3%Z, [(3, 2)]%Z, 2%Z, 0) /\
  (match load_equation reg0 dbx xi_el with Ok q => eq_isElastic q | _ => false end) = true.
Proof.
  split; [|split; [|split; [|split; vm_compute; reflexivity]]];
    repeat (apply Forall_cons; [cbn; first [lia|reflexivity]|]); apply Forall_nil.
Qed.
Example C48_default_case : xi_model xi1 = None /\ ~ sides_agree (xi_in xi1) (xi_out xi1) /\ sides_agree (xi_in xi_el) (xi_out xi_el).
Proof.
  split; [reflexivity|split].
  - intros [_ H]. destruct (H "e") as [Q _]. vm_compute in Q. discriminate.
  - apply agree_plain; try (repeat (apply Forall_cons; [cbn; first [lia|reflexivity]|]); apply Forall_nil). apply Permutation_refl.
Qed.

(** C49.  Products by position. *)
Theorem C49_product_lookup : forall l i, terms_ok l -> (0 <= i)%Z ->
  countComponents l = Z.of_nat (length (expand_terms l)) /\
  getTermForProduct l i = match nth_error (expand_terms l) (Z.to_nat i) with
                          | Some t => Ok t
                          | None => Throw ExnRuntime
                          end.
Proof. exact product_lookup. Qed.
Print Assumptions C49_product_lookup.
Example C49_case : terms_ok [term_sn 4 2; term_sn 7 1; term_sn 9 3] /\
  map (fun i => match getTermForProduct [term_sn 4 2; term_sn 7 1; term_sn 9 3] i with Ok t => Some (t_species t) | _ => None end)
    [0; 1; 2; 3; 4; 5; 6]%Z = [Some 4; Some 4; Some 7; Some 9; Some 9; Some 9; None]%Z.
Proof.
  split; [|reflexivity]. split; [|vm_compute; reflexivity]. repeat (apply Forall_cons; [cbn; lia|]). apply Forall_nil.
Qed.
