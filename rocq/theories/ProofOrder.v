(** The orders used as map and set keys. *)
From Coq Require Import String Ascii List ZArith Bool Arith Lia Reals Lra.
From Flocq Require Import Core IEEE754.BinarySingleNaN.
From Verif Require Import Base Num ModelTerm ModelEq SpecTerm SpecEq ProofTerm.
Import List ListNotations.

(** ** Strings *)
Lemma scmp_refl s : String.compare s s = Eq.
Proof. induction s as [|c s IH]; cbn; [reflexivity|]. unfold Ascii.compare. now rewrite N.compare_refl. Qed.
Lemma scmp_lt_trans : forall a b c, String.compare a b = Lt -> String.compare b c = Lt -> String.compare a c = Lt.
Proof.
  induction a as [|x a IH]; intros [|y b] [|z c]; cbn; try congruence.
  unfold Ascii.compare.
  destruct (N.compare_spec (N_of_ascii x) (N_of_ascii y)) as [E|L|G]; try discriminate;
  destruct (N.compare_spec (N_of_ascii y) (N_of_ascii z)) as [E'|L'|G']; try discriminate; intros H1 H2.
  - rewrite E, E', N.compare_refl. eauto.
  - rewrite E. apply N.compare_lt_iff in L'. now rewrite L'.
  - rewrite <- E'. apply N.compare_lt_iff in L. now rewrite L.
  - assert (Q : (N_of_ascii x < N_of_ascii z)%N) by lia. apply N.compare_lt_iff in Q. now rewrite Q.
Qed.

Lemma str_irrefl s : str_ltb s s = false.
Proof. unfold str_ltb. now rewrite scmp_refl. Qed.
Lemma str_trans a b c : str_ltb a b = true -> str_ltb b c = true -> str_ltb a c = true.
Proof.
  unfold str_ltb. destruct (String.compare a b) eqn:E1; try discriminate.
  destruct (String.compare b c) eqn:E2; try discriminate. now rewrite (scmp_lt_trans a b c).
Qed.
Lemma str_asym a b : str_ltb a b = true -> str_ltb b a = false.
Proof.
  intros H. destruct (str_ltb b a) eqn:E; [|reflexivity].
  pose proof (str_trans _ _ _ H E). now rewrite str_irrefl in H0.
Qed.
Lemma str_total a b : str_ltb a b = false -> str_ltb b a = false -> a = b.
Proof.
  unfold str_ltb. rewrite (String.compare_antisym b a). destruct (String.compare a b) eqn:E; cbn; try discriminate.
  intros. now apply String.compare_eq_iff.
Qed.

(** The order of EqTerm (filter/EqIO.h 77-79) is that of the names. *)
Lemma str_order : strict_weak_order str_ltb /\ (forall a b, str_ltb a b = false -> str_ltb b a = false -> a = b).
Proof.
  split; [split; [|split]|exact str_total].
  - exact str_irrefl.
  - exact str_trans.
  - intros x y z A B C D. rewrite <- (str_total _ _ A B) in C, D. auto.
Qed.

Section Order.
Context {N : Num} (ok : N -> Prop) (Hm : mass_order ok).
Notation okp := (fun p : prop N => ok (pr_mass p)).

Lemma m_irrefl a : ok a -> nltb a a = false. Proof. apply Hm. Qed.
Lemma m_trans a b c : ok a -> ok b -> ok c -> nltb a b = true -> nltb b c = true -> nltb a c = true.
Proof. destruct Hm as [[_ [H _]] _]. eauto. Qed.
Lemma m_eq a b : ok a -> ok b -> neqb a b = true <-> (nltb a b = false /\ nltb b a = false).
Proof. apply Hm. Qed.
Lemma m_asym a b : ok a -> ok b -> nltb a b = true -> nltb b a = false.
Proof.
  intros A B H. destruct (nltb b a) eqn:E; [|reflexivity].
  pose proof (m_trans _ _ _ A B A H E) as Q. now rewrite (m_irrefl a A) in Q.
Qed.
Lemma m_eq_sym a b : ok a -> ok b -> neqb a b = neqb b a.
Proof.
  intros A B. apply eq_true_iff_eq. rewrite !m_eq by assumption. tauto.
Qed.
Lemma m_eq_trans a b c : ok a -> ok b -> ok c -> neqb a b = true -> neqb b c = true -> neqb a c = true.
Proof.
  intros A B C. rewrite !m_eq by assumption. intros [H1 H2] [H3 H4].
  destruct Hm as [[_ [_ H]] _]. exact (H a b c A B C H1 H2 H3 H4).
Qed.
Lemma m_lt_eq a b c : ok a -> ok b -> ok c -> nltb a b = true -> neqb b c = true -> nltb a c = true.
Proof.
  intros A B C H E. destruct (nltb a c) eqn:Q; [reflexivity|].
  destruct (nltb c a) eqn:Q2.
  - pose proof (m_trans _ _ _ C A B Q2 H) as X. apply m_eq in E; try assumption. destruct E. congruence.
  - assert (Hac : neqb c a = true) by (apply m_eq; auto).
    pose proof (m_eq_trans _ _ _ B C A E Hac) as X. apply m_eq in X; try assumption. destruct X. congruence.
Qed.
Lemma m_eq_lt a b c : ok a -> ok b -> ok c -> neqb a b = true -> nltb b c = true -> nltb a c = true.
Proof.
  intros A B C E H. destruct (nltb a c) eqn:Q; [reflexivity|].
  destruct (nltb c a) eqn:Q2.
  - pose proof (m_trans _ _ _ B C A H Q2) as X. apply m_eq in E; try assumption. destruct E. congruence.
  - assert (Hac : neqb c a = true) by (apply m_eq; auto).
    pose proof (m_eq_trans _ _ _ C A B Hac E) as X. apply m_eq in X; try assumption. destruct X. congruence.
Qed.

Lemma prop_irrefl (p : prop N) : okp p -> prop_ltb p p = false.
Proof. intros H. unfold prop_ltb. rewrite (m_irrefl _ H), str_irrefl. now rewrite andb_false_r. Qed.
Lemma prop_trans (p q r : prop N) : okp p -> okp q -> okp r ->
  prop_ltb p q = true -> prop_ltb q r = true -> prop_ltb p r = true.
Proof.
  unfold prop_ltb. intros P Q R. rewrite !orb_true_iff, !andb_true_iff.
  intros [H1|[H1 S1]] [H2|[H2 S2]].
  - left. exact (m_trans _ _ _ P Q R H1 H2).
  - left. exact (m_lt_eq _ _ _ P Q R H1 H2).
  - left. exact (m_eq_lt _ _ _ P Q R H1 H2).
  - right. split; [exact (m_eq_trans _ _ _ P Q R H1 H2)|eapply str_trans; eauto].
Qed.
(** Incomparable species have equal mass and the same name. *)
Lemma prop_incomp (p q : prop N) : okp p -> okp q ->
  (prop_ltb p q = false /\ prop_ltb q p = false) <-> (neqb (pr_mass p) (pr_mass q) = true /\ pr_name p = pr_name q).
Proof.
  unfold prop_ltb. intros P Q. rewrite !orb_false_iff, !andb_false_iff. split.
  - intros [[A1 A2] [B1 B2]].
    assert (E : neqb (pr_mass p) (pr_mass q) = true) by (apply m_eq; auto).
    rewrite (m_eq_sym (pr_mass q) (pr_mass p)) in B2 by assumption. rewrite E in A2, B2.
    split; [exact E|]. destruct A2, B2; try discriminate. now apply str_total.
  - intros [E S]. pose proof E as E'. apply m_eq in E' as [L1 L2]; try assumption.
    rewrite S, str_irrefl, L1, L2. auto.
Qed.
Lemma prop_asym (p q : prop N) : okp p -> okp q -> prop_ltb p q = true -> prop_ltb q p = false.
Proof.
  intros P Q H. destruct (prop_ltb q p) eqn:E; [|reflexivity].
  pose proof (prop_trans _ _ _ P Q P H E) as X. now rewrite (prop_irrefl p P) in X.
Qed.

Lemma prop_order : strict_weak_order_on okp (prop_ltb (N:=N)).
Proof.
  split; [exact prop_irrefl|split; [exact prop_trans|]].
  intros x y z X Y Z A B C D.
  destruct (proj1 (prop_incomp x y X Y) (conj A B)) as [E1 S1].
  destruct (proj1 (prop_incomp y z Y Z) (conj C D)) as [E2 S2].
  apply (prop_incomp x z X Z). split; [exact (m_eq_trans _ _ _ X Y Z E1 E2)|congruence].
Qed.
End Order.

(** ** Real and machine masses *)
Lemma R_mass_order : mass_order (N:=RNum) (fun _ => True).
Proof.
  unfold mass_order, strict_weak_order_on. cbn. unfold Rltb, Reqb.
  split; [split; [|split]|].
  - intros x _. destruct (Rlt_dec x x); [lra|reflexivity].
  - intros x y z _ _ _. destruct (Rlt_dec x y), (Rlt_dec y z), (Rlt_dec x z); try discriminate; try reflexivity; lra.
  - intros x y z _ _ _.
    destruct (Rlt_dec x y), (Rlt_dec y x), (Rlt_dec y z), (Rlt_dec z y), (Rlt_dec x z), (Rlt_dec z x);
      try discriminate; auto; lra.
  - intros a b _ _. destruct (Req_EM_T a b), (Rlt_dec a b), (Rlt_dec b a); try lra; split; intuition (try discriminate; try lra).
Qed.

(** Every double that is not a NaN, as a real (infinities beyond all finite values). *)
Definition fext (x : binary64) : R :=
  match x with
  | B754_infinity false => bpow radix2 femax
  | B754_infinity true => - bpow radix2 femax
  | _ => B2R x
  end.
Lemma fext_bound (x : binary64) : is_finite x = true -> (- bpow radix2 femax < B2R x < bpow radix2 femax)%R.
Proof. intros _. pose proof (abs_B2R_lt_emax fprec femax x) as H. apply Rabs_lt_inv in H. exact H. Qed.
Lemma fin_ext (x : binary64) : is_finite x = true -> fext x = B2R x.
Proof. destruct x as [s|[|]| |s m e H]; cbn; intros; try reflexivity; discriminate. Qed.
Lemma fltb_ext (x y : binary64) : is_nan x = false -> is_nan y = false -> Bltb x y = Rlt_bool (fext x) (fext y).
Proof.
  intros Hx Hy. pose proof (bpow_gt_0 radix2 femax) as P.
  destruct (is_finite x) eqn:Fx, (is_finite y) eqn:Fy.
  - rewrite (fin_ext x), (fin_ext y) by assumption. now apply Bltb_correct.
  - pose proof (fext_bound x Fx) as B. rewrite (fin_ext x Fx).
    destruct y as [|[|]| |]; try discriminate; cbn [fext].
    + rewrite Rlt_bool_false by lra. destruct x as [[|]|[|]| |[|] ? ? ?]; try discriminate; reflexivity.
    + rewrite Rlt_bool_true by lra. destruct x as [[|]|[|]| |[|] ? ? ?]; try discriminate; reflexivity.
  - pose proof (fext_bound y Fy) as B. rewrite (fin_ext y Fy).
    destruct x as [|[|]| |]; try discriminate; cbn [fext].
    + rewrite Rlt_bool_true by lra. destruct y as [[|]|[|]| |[|] ? ? ?]; try discriminate; reflexivity.
    + rewrite Rlt_bool_false by lra. destruct y as [[|]|[|]| |[|] ? ? ?]; try discriminate; reflexivity.
  - destruct x as [|[|]| |], y as [|[|]| |]; try discriminate; cbn [fext].
    + rewrite Rlt_bool_false by lra. reflexivity.
    + rewrite Rlt_bool_true by lra. reflexivity.
    + rewrite Rlt_bool_false by lra. reflexivity.
    + rewrite Rlt_bool_false by lra. reflexivity.
Qed.
Lemma feqb_ext (x y : binary64) : is_nan x = false -> is_nan y = false -> Beqb x y = Req_bool (fext x) (fext y).
Proof.
  intros Hx Hy. pose proof (bpow_gt_0 radix2 femax) as P.
  destruct (is_finite x) eqn:Fx, (is_finite y) eqn:Fy.
  - rewrite (fin_ext x), (fin_ext y) by assumption. now apply Beqb_correct.
  - pose proof (fext_bound x Fx) as B. rewrite (fin_ext x Fx).
    destruct y as [|[|]| |]; try discriminate; cbn [fext];
      rewrite Req_bool_false by lra; destruct x as [[|]|[|]| |[|] ? ? ?]; try discriminate; reflexivity.
  - pose proof (fext_bound y Fy) as B. rewrite (fin_ext y Fy).
    destruct x as [|[|]| |]; try discriminate; cbn [fext];
      rewrite Req_bool_false by lra; destruct y as [[|]|[|]| |[|] ? ? ?]; try discriminate; reflexivity.
  - destruct x as [|[|]| |], y as [|[|]| |]; try discriminate; cbn [fext];
      first [rewrite Req_bool_true by lra; reflexivity | rewrite Req_bool_false by lra; reflexivity].
Qed.

Lemma F_mass_order lm : mass_order (N:=F64 lm) (fun x => is_nan (x : binary64) = false).
Proof.
  unfold mass_order, strict_weak_order_on. cbn [nltb neqb F64 T].
  split; [split; [|split]|].
  - intros x X. rewrite fltb_ext by assumption. apply Rlt_bool_false. lra.
  - intros x y z X Y Z. rewrite !fltb_ext by assumption.
    destruct (Rlt_bool_spec (fext x) (fext y)), (Rlt_bool_spec (fext y) (fext z)); try discriminate.
    intros. apply Rlt_bool_true. lra.
  - intros x y z X Y Z. rewrite !fltb_ext by assumption.
    destruct (Rlt_bool_spec (fext x) (fext y)), (Rlt_bool_spec (fext y) (fext x)),
      (Rlt_bool_spec (fext y) (fext z)), (Rlt_bool_spec (fext z) (fext y)); try discriminate.
    intros. split; apply Rlt_bool_false; lra.
  - intros a b A B. rewrite !fltb_ext, feqb_ext by assumption.
    destruct (Req_bool_spec (fext a) (fext b)), (Rlt_bool_spec (fext a) (fext b)), (Rlt_bool_spec (fext b) (fext a));
      try lra; split; intuition (try discriminate; try lra).
Qed.

(** With a NaN mass the order is broken: NaN is incomparable to both of two
    different masses. *)
Lemma nan_not_order lm : ~ strict_weak_order (prop_ltb (N:=F64 lm)).
Proof.
  intros (_ & _ & H).
  pose (p := fun m : binary64 => mkProp (N:=F64 lm) "x" m B754_nan).
  destruct (H (p (B754_zero false)) (p B754_nan) (p finf)) as [Q _]; try (vm_compute; reflexivity).
  vm_compute in Q. discriminate.
Qed.

Lemma input_order_plain : strict_weak_order_on plain_input input_ltb.
Proof.
  split; [intros; apply input_order_irrefl|split; [intros ? ? ? _ _ _; apply input_order_trans|]].
  intros x y z X Y Z A B C D. unfold plain_input in *.
  destruct (Z.eq_dec (t_n (in_A x)) (t_n (in_A y))) as [E1|N1];
  destruct (Z.eq_dec (t_n (in_A y)) (t_n (in_A z))) as [E2|N2].
  - apply (input_order_incomp x y z); congruence.
  - exfalso. revert C D N2. clear. unfold input_ltb, term_ltb, term_eqb.
    destruct (listZ_eqb (t_from (in_A y)) (t_from (in_A z))), (listZ_eqb (t_from (in_A z)) (t_from (in_A y))); lia.
  - exfalso. revert A B N1. clear. unfold input_ltb, term_ltb, term_eqb.
    destruct (listZ_eqb (t_from (in_A x)) (t_from (in_A y))), (listZ_eqb (t_from (in_A y)) (t_from (in_A x))); lia.
  - exfalso. revert A B N1. clear. unfold input_ltb, term_ltb, term_eqb.
    destruct (listZ_eqb (t_from (in_A x)) (t_from (in_A y))), (listZ_eqb (t_from (in_A y)) (t_from (in_A x))); lia.
Qed.
Lemma input_not_order : ~ strict_weak_order input_ltb.
Proof.
  intros (_ & _ & H).
  pose (i := fun f b => mkInput (mkTerm 0 1 [f] [""%string]) (term_sp b)).
  destruct (H (i 0 1) (i 1 1) (i 0 2))%Z as [Q _]; try (vm_compute; reflexivity).
  vm_compute in Q. discriminate.
Qed.
