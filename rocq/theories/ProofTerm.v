(** Lemmas on terms: expansion by multiplicity and orderings. *)
From Coq Require Import String List ZArith Bool Lia ZifyBool.
From Verif Require Import Base ModelTerm SpecTerm.
Import ListNotations.
Local Open Scope Z_scope.

Lemma expand_cons t l : expand_terms (t :: l) = repeat t (Z.to_nat (t_n t)) ++ expand_terms l.
Proof. reflexivity. Qed.

Lemma count_from l : forall s, Forall (fun t => 0 <= t_n t) l -> 0 <= s ->
  s + Z.of_nat (length (expand_terms l)) < 4294967296 ->
  fold_left (fun s t => u32 (s + t_n t)) l s = s + Z.of_nat (length (expand_terms l)).
Proof.
  induction l as [|t l IH]; intros s H0 Hs Hlt.
  - cbn. lia.
  - inversion H0; subst. rewrite expand_cons, app_length, repeat_length in *.
    cbn [fold_left]. unfold u32 at 2.
    rewrite Z.mod_small by lia. rewrite IH; try assumption; lia.
Qed.

Lemma countComponents_expand l : terms_ok l ->
  countComponents l = Z.of_nat (length (expand_terms l)).
Proof. intros [H1 H2]. unfold countComponents. rewrite count_from; auto; lia. Qed.

Lemma getTerm_from l : forall s i, Forall (fun t => 0 <= t_n t) l -> 0 <= s ->
  s + Z.of_nat (length (expand_terms l)) < 4294967296 -> s <= i ->
  getTermForProduct_from s i l =
  match nth_error (expand_terms l) (Z.to_nat (i - s)) with Some t => Ok t | None => Throw ExnRuntime end.
Proof.
  induction l as [|t l IH]; intros s i H0 Hs Hlt Hi.
  - cbn. destruct (Z.to_nat (i - s)); reflexivity.
  - inversion H0; subst. rewrite expand_cons, app_length, repeat_length in *.
    cbn [getTermForProduct_from]. unfold u32. rewrite Z.mod_small by lia.
    destruct (Z.ltb_spec i (s + t_n t)).
    + rewrite nth_error_app1 by (rewrite repeat_length; lia).
      rewrite nth_error_repeat by lia. reflexivity.
    + rewrite nth_error_app2 by (rewrite repeat_length; lia). rewrite repeat_length.
      rewrite IH; try assumption; try lia.
      replace (Z.to_nat (i - (s + t_n t))) with (Z.to_nat (i - s) - Z.to_nat (t_n t))%nat by lia. reflexivity.
Qed.

Lemma getTermForProduct_spec l i : terms_ok l -> 0 <= i ->
  getTermForProduct l i =
  match nth_error (expand_terms l) (Z.to_nat i) with Some t => Ok t | None => Throw ExnRuntime end.
Proof.
  intros [H1 H2] Hi. unfold getTermForProduct. rewrite getTerm_from; auto; try lia.
  rewrite Z.sub_0_r. reflexivity.
Qed.

(** ** Orders *)
Lemma term_order : strict_weak_order term_ltb.
Proof. unfold strict_weak_order, term_ltb. repeat split; lia. Qed.

Lemma listZ_eqb_refl a : listZ_eqb a a = true.
Proof. unfold listZ_eqb; destruct list_eq_dec; congruence. Qed.
Lemma listZ_eqb_eq a b : listZ_eqb a b = true <-> a = b.
Proof. unfold listZ_eqb; destruct list_eq_dec; split; congruence. Qed.

Lemma input_order_irrefl x : input_ltb x x = false.
Proof. unfold input_ltb, term_ltb, term_eqb. rewrite listZ_eqb_refl. lia. Qed.
Lemma input_order_trans x y z : input_ltb x y = true -> input_ltb y z = true -> input_ltb x z = true.
Proof.
  unfold input_ltb, term_ltb, term_eqb. intros Hxy Hyz.
  destruct (listZ_eqb (t_from (in_A x)) (t_from (in_A y))) eqn:E1;
  destruct (listZ_eqb (t_from (in_A y)) (t_from (in_A z))) eqn:E2;
  destruct (listZ_eqb (t_from (in_A x)) (t_from (in_A z))) eqn:E3; try lia.
  rewrite listZ_eqb_eq in E1, E2. rewrite <- E1 in E2. rewrite E2 in E3.
  rewrite listZ_eqb_refl in E3. discriminate.
Qed.
Lemma input_order_incomp x y z :
  t_from (in_A x) = t_from (in_A y) -> t_from (in_A y) = t_from (in_A z) ->
  input_ltb x y = false -> input_ltb y x = false -> input_ltb y z = false -> input_ltb z y = false ->
  input_ltb x z = false /\ input_ltb z x = false.
Proof.
  unfold input_ltb, term_ltb, term_eqb. intros E1 E2. rewrite E1, E2, !listZ_eqb_refl.
  intros. split; lia.
Qed.
