(** C57-C60, C65, C66: interaction filters, equation texts and filter documents. *)
From Coq Require Import String Ascii List ZArith Bool Arith Lia Sorted Permutation DecimalString DecimalPos DecimalZ.
From Verif Require Import Base Num ModelTerm ModelCollide ModelXsec ModelSet ModelEq ModelFilter
  SpecTerm SpecEq SpecFilter ProofOrder ProofFilter ProofFilter2 ProofFilter3 ProofFilter4 ProofText ProofLoad Properties4.
From Coq Require Import List.
Import ListNotations.
Local Open Scope string_scope.

(** ** Examples: a document of six interactions *)
Definition xd (id : nat) (path : list string) (xin xout : list xterm) (i o : string) (m : option string) : xinter F :=
  mkXI (N:=F) id path xin xout i o None m None None.
Definition x0 := xd 0 ["standard"] [xt 1 "A"; xt 1 "B"] [xt 1 "A"; xt 1 "B"] "AB" "AB" (Some "elastic").
Definition x1 := xd 1 ["standard"] [xt 2 "A"] [xt 1 "B"] "2A" "B" (Some "inelastic").
Definition x2 := xd 2 ["alt"; "sub"] [xt 1 "A"; xt 1 "B"] [xt 1 "A"; xt 1 "B"] "AB" "AB" (Some "vss").
Definition x3 := xd 3 ["other"] [xt 2 "A"] [xt 1 "B"] "2A" "B" None.
Definition x4 := xd 4 ["alt"] [xt 1 "A"; xt 1 "B"] [xt 1 "A"; xt 1 "B"] "AB" "AB" None.
Definition x5 := xd 5 ["other"] [xt 1 "e"; xt 1 "B"] [xt 1 "B"] "eB" "B" None.
Definition docx : xset F := [x0; x1; x2; x3; x4; x5].
Lemma docx_ok : set_ok docx.
Proof. unfold set_ok, docx. repeat (apply SSorted_cons || apply SSorted_nil || apply Forall_cons || apply Forall_nil || (cbn; lia)). Qed.
Definition ids (o : outcome (xset F)) : option (list nat) := match o with Ok r => Some (map (xi_id (N:=F)) r) | _ => None end.

(** C57.  Every filter terminates normally with a subset of its input. *)
Theorem C57_C58_total : forall (N : Num) (doc : list (xinter N)), set_ok doc ->
  forall f s, set_ok s -> subset s doc ->
  exists r, run_filter doc f s = Ok r /\ set_ok r /\ subset r s.
Proof. exact @filter_total. Qed.
Print Assumptions C57_C58_total.
Theorem C57_algebra : forall (N : Num) (doc : list (xinter N)), set_ok doc ->
  forall l r s a b, set_ok s -> subset s doc ->
  run_filter doc l s = Ok a -> run_filter doc r s = Ok b ->
  exists i u d, run_filter doc (FAnd l r) s = Ok i /\ run_filter doc (FOr l r) s = Ok u /\
    run_filter doc (FNot l r) s = Ok d /\ run_filter doc FNull s = Ok s /\
    forall x, (In x i <-> In x a /\ In x b) /\ (In x u <-> In x a \/ In x b) /\ (In x d <-> In x a /\ ~ In x b).
Proof. exact @filter_algebra. Qed.
Print Assumptions C57_algebra.
(** A tree without sections decides interaction by interaction. *)
Theorem C57_C60_pointwise : forall (N : Num) (doc : list (xinter N)), set_ok doc ->
  forall f, pointwise f -> forall s r, set_ok s -> subset s doc ->
  run_filter doc f s = Ok r -> forall x, In x r <-> In x s /\ keeps f x.
Proof. exact @filter_pointwise. Qed.
Print Assumptions C57_C60_pointwise.
Theorem C57_idempotent : forall (N : Num) (doc : list (xinter N)), set_ok doc ->
  forall f s r, pointwise f -> set_ok s -> subset s doc ->
  run_filter doc f s = Ok r -> run_filter doc f r = Ok r.
Proof. exact @filter_idem. Qed.
Print Assumptions C57_idempotent.
Definition tree1 : filt := FNot (FOr (FLabel "vss") (FEqIO false [mkET "A" 2])) (FAnd FElastic FNull).
Example C57_case : pointwise tree1 /\ ids (run_filter docx tree1 docx) = Some [1; 3] /\
  ids (run_filter docx (FOr FElastic (FLabel "inelastic")) docx) = Some [0; 1; 2; 4].
Proof. split; [cbn; tauto|split; vm_compute; reflexivity]. Qed.

(** C58.  The preferred section. *)
Theorem C58_preferred : forall (N : Num) (doc : list (xinter N)), set_ok doc ->
  forall section f s fs r, section <> "" -> set_ok s -> subset s doc ->
  run_filter doc f s = Ok fs -> run_filter doc (FSection section false f) s = Ok r ->
  subset r fs /\
  (forall x, In x fs -> exists y, In y r /\ text y = text x /\ forall z, In z r -> text z = text x -> z = y) /\
  (forall y x i j, In y r -> In x fs -> text x = text y -> rank section y i -> rank section x j ->
     i < j \/ (i = j /\ xi_id x <= xi_id y)).
Proof. exact @section_preferred. Qed.
Print Assumptions C58_preferred.
Theorem C58_required : forall (N : Num) (doc : list (xinter N)), set_ok doc ->
  forall section f s fs r, section <> "" -> set_ok s -> subset s doc ->
  run_filter doc f s = Ok fs -> run_filter doc (FSection section true f) s = Ok r ->
  forall x, In x r <-> In x fs /\ below section x.
Proof. exact @section_required. Qed.
Print Assumptions C58_required.
(** An empty section name switches off the sub-filter too. *)
Theorem C58_empty_name : forall (N : Num) (doc : list (xinter N)) required f s,
  run_filter doc (FSection "" required f) s = Ok s.
Proof. exact @section_empty. Qed.
Print Assumptions C58_empty_name.
Example C58_case : ids (run_filter docx (FSection "alt" false FNull) docx) = Some [1; 4; 5] /\
  ids (run_filter docx (FSection "alt" true FNull) docx) = Some [2; 4] /\
  ids (run_filter docx (FSection "alt/sub" true FNull) docx) = Some [2] /\
  ids (run_filter docx (FSection "" true FElastic) docx) = Some [0; 1; 2; 3; 4; 5].
Proof. split; [|split; [|split]]; vm_compute; reflexivity. Qed.

(** C59.  Equation texts. *)
Theorem C59_text_unique : forall a b a' b',
  simple_terms a -> simple_terms b -> simple_terms a' -> simple_terms b' ->
  eq_text a b = eq_text a' b' <-> same_terms a a' /\ same_terms b b'.
Proof. exact eq_text_inj. Qed.
Print Assumptions C59_text_unique.
(** Multiplicity zero is not shown, and a blank in a name reads like a multiplicity. *)
Theorem C59_zero_refuted : exists a b b', eq_text a b = eq_text a b' /\ ~ same_terms b b' /\
  nonneg b /\ nonneg b' /\ List.Forall (fun t => simple_name (x_P t)) (b ++ b').
Proof.
  exists [xt 1 "A"], [xt 0 "A"], [xt 1 "A"]. split; [vm_compute; reflexivity|split].
  - intros H. inversion H as [|? ? ? ? S _]; subst. destruct S as (_ & S & _). discriminate.
  - split; [|split]; repeat (apply Forall_cons || apply Forall_nil); cbn; try lia;
      (split; [discriminate|split; [discriminate|split; cbn; intuition discriminate]]).
Qed.
Print Assumptions C59_zero_refuted.
Theorem C59_blank_refuted : exists a b b', eq_text a b = eq_text a b' /\ ~ same_terms b b' /\ positive b /\ positive b'.
Proof.
  exists [xt 1 "A"], [xt 2 "A"], [xt 1 "2 A"]. split; [vm_compute; reflexivity|split].
  - intros H. inversion H as [|? ? ? ? S _]; subst. destruct S as (_ & S & _). discriminate.
  - split; repeat (apply Forall_cons || apply Forall_nil); cbn; lia.
Qed.
Print Assumptions C59_blank_refuted.
Example C59_case : simple_terms [xt 2 "Xe+"; mkXT "e-" None (Some 1%Z) None] /\
  eq_text [xt 2 "Xe+"; mkXT "e-" None (Some 1%Z) None] [xt 1 "Xe"] = "2 Xe+ + e-[1]  -->  Xe".
Proof.
  split; [|vm_compute; reflexivity].
  repeat (apply Forall_cons || apply Forall_nil); (split; [split; [discriminate|split; [discriminate|split; cbn; intuition discriminate]]|cbn; lia]).
Qed.

(** C60.  The term set of an EqIO filter. *)
Theorem C60_first_wins : forall l,
  eq_sorted (eqset_of l) /\ forall t, In t (eqset_of l) <-> first_term l t.
Proof. exact eqset_spec. Qed.
Print Assumptions C60_first_wins.
(** The documented override (the last insertion wins) does not happen. *)
Theorem C60_override_refuted : exists l t u, l = [t; u] /\ q_name t = q_name u /\ t <> u /\
  In t (eqset_of l) /\ ~ In u (eqset_of l).
Proof.
  exists [mkET "A" 1; mkET "A" 2], (mkET "A" 1), (mkET "A" 2).
  split; [reflexivity|split; [reflexivity|split; [discriminate|split; [left; reflexivity|]]]].
  intros [H|[]]. discriminate.
Qed.
Print Assumptions C60_override_refuted.
Theorem C60_no_terms : forall (N : Num) (doc : list (xinter N)) out s, set_ok s ->
  run_filter doc (FEqIO out []) s = Ok [].
Proof. exact @eqio_empty. Qed.
Print Assumptions C60_no_terms.
(** A side matched by terms without multiplicity zero has exactly their species, one
    term each. *)
Theorem C60_exact_species : forall (N : Num) (doc : list (xinter N)), set_ok doc ->
  forall out l s r x, set_ok s -> subset s doc ->
  List.Forall (fun t => q_n t <> 0%Z) l ->
  run_filter doc (FEqIO out (eqset_of l)) s = Ok r -> In x r ->
  Permutation (map q_name (eqset_of l)) (map x_P (if out then xi_out x else xi_in x)).
Proof. exact @eqio_exact. Qed.
Print Assumptions C60_exact_species.
(** A negative number is a wildcard. *)
Theorem C60_wildcard : forall (N : Num) (doc : list (xinter N)), set_ok doc ->
  forall out name n s r, set_ok s -> subset s doc -> (n < 0)%Z ->
  run_filter doc (FEqIO out [mkET name n]) s = Ok r ->
  forall x, In x r <-> In x s /\ exists t, (if out then xi_out x else xi_in x) = [t] /\ x_P t = name.
Proof. exact @eqio_wildcard. Qed.
Print Assumptions C60_wildcard.
Example C60_case : eqset_of [mkET "B" 1; mkET "A" (-1); mkET "B" 3] = [mkET "A" (-1); mkET "B" 1] /\
  ids (run_filter docx (FEqIO false (eqset_of [mkET "B" 1; mkET "A" (-1); mkET "B" 3])) docx) = Some [0; 2; 4] /\
  ids (run_filter docx (FEqIO false [mkET "A" (-1)]) docx) = Some [1; 3] /\
  ids (run_filter docx (FEqIO true [mkET "B" 1]) docx) = Some [1; 3; 5] /\
  ids (run_filter docx (FEqIO true []) docx) = Some [].
Proof. split; [|split; [|split; [|split]]]; vm_compute; reflexivity. Qed.

(** C65.  Filter documents: every filter with a document form is read back as itself,
    whatever decimal conversion is used, provided it reads what is printed. *)
Theorem C65_round_trip : forall (to_int : string -> outcome Z) (print : Z -> string),
  (forall z, to_int (print z) = Ok z) ->
  forall f, expressible f -> load_filter to_int (write_filter print f) = Ok f.
Proof. exact load_write. Qed.
Print Assumptions C65_round_trip.
Theorem C65_loaded_expressible : forall to_int x f, load_filter to_int x = Ok f -> expressible f.
Proof. exact load_wf. Qed.
Print Assumptions C65_loaded_expressible.
Theorem C65_unknown_tag : forall to_int t a c s,
  ~ In t ["Or"; "And"; "Not"; "Null"; "EqIO"; "Label"; "Section"; "Elastic"] ->
  load_filter to_int (XNode t a c s) = Throw ExnInvalidArg.
Proof. exact load_unknown. Qed.
Print Assumptions C65_unknown_tag.
Theorem C65_arity : forall to_int t a c s, In t ["Or"; "And"; "Not"] -> length c <> 2 ->
  load_filter to_int (XNode t a c s) = Throw ExnXml.
Proof. exact load_arity. Qed.
Print Assumptions C65_arity.
(** "not required" reads as required. *)
Theorem C65_preference_refuted : exists x, assoc "preference" (attrs_of x) = Some "not required" /\
  forall to_int, load_filter to_int x = Ok (FSection "alt" true FNull).
Proof.
  exists (XNode "Section" [("name", "alt"); ("preference", "not required")] [] "").
  split; [reflexivity|]. intros. vm_compute. reflexivity.
Qed.
Print Assumptions C65_preference_refuted.
Definition print10 (z : Z) : string := NilZero.string_of_int (Z.to_int z).
Definition read10 (s : string) : outcome Z :=
  match NilZero.int_of_string s with Some d => Ok (Z.of_int d) | None => Throw ExnRuntime end.
Example C65_decimal : forall z, read10 (print10 z) = Ok z.
Proof.
  intros z. unfold read10, print10. rewrite NilZero.isi.
  - now rewrite of_to.
  - destruct z; cbn; try discriminate. intros H. apply (DecimalPos.Unsigned.to_uint_nonnil p). now injection H.
  - destruct z; cbn; try discriminate. intros H. apply (DecimalPos.Unsigned.to_uint_nonnil p). now injection H.
Qed.
Definition tree2 : filt := FSection "alt" true (FNot (FEqIO true [mkET "A" (-1); mkET "B" 12]) (FLabel "vss")).
Example C65_case : expressible tree2 /\ load_filter read10 (write_filter print10 tree2) = Ok tree2 /\
  load_filter read10 (XNode "Nor" [] [] "") = Throw ExnInvalidArg /\
  load_filter read10 (XNode "And" [] [leaf "Null" ""] "") = Throw ExnXml.
Proof.
  split; [|split; [|split]]; try (vm_compute; reflexivity).
  cbn. split; [split; [discriminate|]|exact I].
  repeat (apply SSorted_cons || apply SSorted_nil || apply Forall_cons || apply Forall_nil || reflexivity).
Qed.

(** C66.  The Elastic filter compares the text of the two sides.  Equal sides are kept;
    reordered ones are dropped and different ones can be kept. *)
Theorem C66_equal_sides : forall (N : Num) (doc : list (xinter N)), set_ok doc ->
  forall s r x, set_ok s -> subset s doc -> run_filter doc FElastic s = Ok r ->
  In x s -> compact x -> map (fun t => (x_P t, x_n t)) (xi_in x) = map (fun t => (x_P t, x_n t)) (xi_out x) -> In x r.
Proof. exact @elastic_equal. Qed.
Print Assumptions C66_equal_sides.
Definition xswap := xd 0 ["standard"] [xt 1 "A"; xt 1 "B"] [xt 1 "B"; xt 1 "A"] "1A1B" "1B1A" None.
Theorem C66_reordered_refuted : exists (x : xinter F), compact x /\
  Permutation (expand_names (xi_in x)) (expand_names (xi_out x)) /\ run_filter [x] FElastic [x] = Ok [].
Proof.
  exists xswap. split; [split; reflexivity|split; [|reflexivity]].
  apply perm_swap.
Qed.
Print Assumptions C66_reordered_refuted.
Definition xglue := xd 0 ["standard"] [mkXT "A" None None None; mkXT "B" None None None] [mkXT "AB" None None None] "AB" "AB" None.
Theorem C66_glued_refuted : exists (x : xinter F), compact x /\
  ~ Permutation (expand_names (xi_in x)) (expand_names (xi_out x)) /\ run_filter [x] FElastic [x] = Ok [x].
Proof.
  exists xglue. split; [split; reflexivity|split; [|reflexivity]].
  intros H. apply Permutation_length in H. discriminate.
Qed.
Print Assumptions C66_glued_refuted.
Example C66_case : compact (xd 7 ["standard"] [xt 2 "A"] [xt 2 "A"] "2A" "2A" None).
Proof. split; reflexivity. Qed.
