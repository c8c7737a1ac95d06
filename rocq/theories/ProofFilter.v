(** Filters as set operations. *)
From Coq Require Import String Ascii List ZArith Bool Sorted Arith Lia.
From Verif Require Import Base Num ModelTerm ModelEq ModelFilter SpecEq SpecFilter ProofOrder.
From Coq Require Import List.
Import ListNotations.

Section F.
Context {N : Num}.
Notation X := (xinter N).
Implicit Types (s a b r : list X) (x y : X).

Lemma ss_inv x s : set_ok (x :: s) -> set_ok s /\ forall y, In y s -> xi_id x < xi_id y.
Proof. intros H. inversion H; subst. split; [assumption|]. now apply Forall_forall. Qed.
Lemma ss_cons x s : set_ok s -> (forall y, In y s -> xi_id x < xi_id y) -> set_ok (x :: s).
Proof. intros H1 H2. constructor; [exact H1|]. now apply Forall_forall. Qed.
Lemma ss_unique s x y : set_ok s -> In x s -> In y s -> xi_id x = xi_id y -> x = y.
Proof.
  intros H. induction s as [|z s IH]; intros Hx Hy E; [destruct Hx|].
  apply ss_inv in H as [H L]. destruct Hx as [->|Hx], Hy as [->|Hy]; auto.
  - specialize (L _ Hy). lia.
  - specialize (L _ Hx). lia.
Qed.
Lemma ss_nodup s : set_ok s -> NoDup s.
Proof.
  intros H. induction s as [|z s IH]; [constructor|]. apply ss_inv in H as [H L].
  constructor; [|auto]. intros I. specialize (L _ I). lia.
Qed.
Lemma ss_app_last s x : set_ok s -> (forall y, In y s -> xi_id y < xi_id x) -> set_ok (s ++ [x]).
Proof.
  induction s as [|z s IH]; intros H L; cbn.
  - apply ss_cons; [constructor|intros y []].
  - apply ss_inv in H as [H L']. apply ss_cons.
    + apply IH; [exact H|]. intros y I. apply L. now right.
    + intros y I. apply in_app_or in I as [I|[<-|[]]]; [auto|]. apply L. now left.
Qed.
Lemma ss_filter (p : X -> bool) s : set_ok s -> set_ok (List.filter p s).
Proof.
  induction s as [|z s IH]; intros H; cbn; [constructor|]. apply ss_inv in H as [H L].
  destruct (p z); [|auto]. apply ss_cons; [auto|]. intros y I. apply filter_In in I. apply L. tauto.
Qed.
(** Ascending lists with the same elements are equal. *)
Lemma ss_ext a b : set_ok a -> set_ok b -> (forall x, In x a <-> In x b) -> a = b.
Proof.
  revert b. induction a as [|x a IH]; intros b Ha Hb E.
  - destruct b as [|y b]; [reflexivity|]. exfalso. apply (E y). now left.
  - destruct b as [|y b]; [exfalso; apply (E x); now left|].
    apply ss_inv in Ha as [Ha La]. apply ss_inv in Hb as [Hb Lb].
    assert (x = y).
    { destruct (proj1 (E x) (or_introl eq_refl)) as [?|I]; [congruence|].
      destruct (proj2 (E y) (or_introl eq_refl)) as [?|J]; [congruence|].
      specialize (La _ J). specialize (Lb _ I). lia. }
    subst y. f_equal. apply IH; [assumption|assumption|]. intros z. split; intros I.
    + destruct (proj1 (E z) (or_intror I)) as [->|?]; [|assumption]. specialize (La _ I). lia.
    + destruct (proj2 (E z) (or_intror I)) as [->|?]; [|assumption]. specialize (Lb _ I). lia.
Qed.

(** ** Insertion *)
Lemma ins_in x s z : In z (set_insert x s) -> z = x \/ In z s.
Proof.
  induction s as [|y s IH]; cbn [set_insert]; [intros [->|[]]; now left|].
  destruct (Nat.ltb_spec (xi_id x) (xi_id y)); [cbn; intros [->|I]; [now left|right; exact I]|].
  destruct (Nat.ltb_spec (xi_id y) (xi_id x)); cbn; [intros [->|I]; [auto|destruct (IH I); auto]|auto].
Qed.
Lemma ins_old x s z : In z s -> In z (set_insert x s).
Proof.
  induction s as [|y s IH]; cbn [set_insert]; [intuition|].
  destruct (Nat.ltb_spec (xi_id x) (xi_id y)); [cbn; intuition|].
  destruct (Nat.ltb_spec (xi_id y) (xi_id x)); cbn; intuition.
Qed.
Lemma ins_new x s : exists z, In z (set_insert x s) /\ xi_id z = xi_id x.
Proof.
  induction s as [|y s IH]; cbn [set_insert]; [exists x; intuition|].
  destruct (Nat.ltb_spec (xi_id x) (xi_id y)); [exists x; cbn; intuition|].
  destruct (Nat.ltb_spec (xi_id y) (xi_id x)).
  - destruct IH as (z & I & E). exists z. cbn. intuition.
  - exists y. split; [now left|lia].
Qed.
Lemma ins_ok x s : set_ok s -> set_ok (set_insert x s).
Proof.
  induction s as [|y s IH]; intros H; cbn [set_insert]; [apply ss_cons; [exact H|intros ? []]|].
  pose proof (ss_inv _ _ H) as [H' L].
  destruct (Nat.ltb_spec (xi_id x) (xi_id y)) as [A|A].
  - apply ss_cons; [exact H|]. intros z [<-|I]; [exact A|]. specialize (L _ I). lia.
  - destruct (Nat.ltb_spec (xi_id y) (xi_id x)) as [B|B]; [|exact H].
    apply ss_cons; [auto|]. intros z I. apply ins_in in I as [->|I]; auto.
Qed.
Lemma ins_last x s : (forall y, In y s -> xi_id y < xi_id x) -> set_insert x s = s ++ [x].
Proof.
  induction s as [|y s IH]; intros L; cbn [set_insert]; [reflexivity|].
  pose proof (L y (or_introl eq_refl)).
  destruct (Nat.ltb_spec (xi_id x) (xi_id y)); [lia|].
  destruct (Nat.ltb_spec (xi_id y) (xi_id x)); [|lia]. rewrite IH; [reflexivity|].
  intros z I. apply L. now right.
Qed.

Lemma setof_acc (l : list X) : forall s, set_ok s ->
  set_ok (fold_left (fun s x => set_insert x s) l s) /\
  (forall z, In z (fold_left (fun s x => set_insert x s) l s) -> In z s \/ In z l) /\
  (forall z, In z s -> In z (fold_left (fun s x => set_insert x s) l s)) /\
  (forall z, In z l -> exists w, In w (fold_left (fun s x => set_insert x s) l s) /\ xi_id w = xi_id z).
Proof.
  induction l as [|x l IH]; intros s H; cbn.
  - split; [exact H|]. split; [auto|]. split; [auto|]. intros z [].
  - destruct (IH _ (ins_ok x s H)) as (A & B & C & D). split; [exact A|]. split; [|split].
    + intros z I. apply B in I as [I|I]; [|auto]. apply ins_in in I as [->|I]; auto.
    + intros z I. apply C. now apply ins_old.
    + intros z [->|I]; [|auto]. destruct (ins_new z s) as (w & I & E). exists w. auto.
Qed.
Lemma setof_ok (l : list X) : set_ok (N:=N) (set_of l).
Proof. apply setof_acc. constructor. Qed.
Lemma setof_sub (l : list X) z : In z (set_of l) -> In z l.
Proof. intros I. apply setof_acc in I as [[]|I]; [assumption|constructor]. Qed.
(** A list whose elements are determined by their identity. *)
Definition coherent (l : list X) := forall x y, In x l -> In y l -> xi_id x = xi_id y -> x = y.
Lemma setof_in l z : coherent l -> (In z (set_of l) <-> In z l).
Proof.
  intros C. split; [apply setof_sub|]. intros I.
  destruct (setof_acc l [] (SSorted_nil _)) as (_ & B & _ & D). destruct (D _ I) as (w & J & E).
  destruct (B _ J) as [[]|K]. now rewrite <- (C w z K I E).
Qed.
Lemma setof_id s : set_ok s -> set_of s = s.
Proof.
  intros H. apply ss_ext; [apply setof_ok|exact H|]. intros x. apply setof_in.
  intros u v Hu Hv E. now apply (ss_unique s).
Qed.

Lemma query_acc (p : X -> bool) (l : list X) : forall r, set_ok (r ++ l) ->
  fold_left (fun r x => if p x then set_insert x r else r) l r = r ++ List.filter p l.
Proof.
  induction l as [|x l IH]; intros r H; cbn; [now rewrite app_nil_r|].
  assert (L : forall y, In y r -> xi_id y < xi_id x).
  { clear IH. induction r as [|z r IHr]; [intros ? []|]. apply ss_inv in H as [H L]. intros y [->|I]; auto.
    apply L. apply in_or_app. right. now left. }
  destruct (p x).
  - rewrite ins_last by exact L. rewrite IH; [now rewrite <- app_assoc|]. now rewrite <- app_assoc.
  - apply IH. clear IH. revert H L. induction r as [|z r IHr]; cbn; intros H L; [now apply ss_inv in H|].
    apply ss_inv in H as [H L2]. apply ss_cons.
    + apply IHr; [exact H|]. intros y I. apply L. now right.
    + intros y I. apply L2. apply in_app_or in I as [I|I]; apply in_or_app; [now left|right; now right].
Qed.
Lemma query_filter_eq (p : X -> bool) s : set_ok s -> query_filter p s = List.filter p s.
Proof. intros H. unfold query_filter. now rewrite query_acc. Qed.

(** ** The merge algorithms *)
Definition agree a b := forall x y, In x a -> In y b -> xi_id x = xi_id y -> x = y.

Ltac ids x y := destruct (Nat.ltb_spec (xi_id x) (xi_id y)); [|destruct (Nat.ltb_spec (xi_id y) (xi_id x))].

Lemma merge_inter_spec a : forall b, set_ok a -> set_ok b -> agree a b ->
  merge_inter a b = List.filter (fun x => set_mem x b) a.
Proof.
  induction a as [|x a IHa]; intros b Ha Hb E; [reflexivity|].
  assert (Z : forall c, (forall y, In y c -> xi_id x < xi_id y) -> set_mem x c = false).
  { intros c L. apply not_true_iff_false. intros M. unfold set_mem in M. apply existsb_exists in M as (y & I & Q).
    apply Nat.eqb_eq in Q. specialize (L _ I). lia. }
  assert (D : forall y b, (forall z, In z a -> xi_id y <> xi_id z) ->
    List.filter (fun x => set_mem x (y :: b)) a = List.filter (fun x => set_mem x b) a).
  { intros y c L. apply filter_ext_in. intros z I. cbn. destruct (Nat.eqb_spec (xi_id z) (xi_id y)) as [Q|]; [|reflexivity].
    specialize (L _ I). congruence. }
  pose proof (ss_inv _ _ Ha) as [Ha' La].
  induction b as [|y b IHb].
  - cbn. transitivity (List.filter (fun _ : X => false) a); [|now apply filter_ext].
    symmetry. clear. induction a; cbn; auto.
  - pose proof (ss_inv _ _ Hb) as [Hb' Lb].
    change (merge_inter (x :: a) (y :: b)) with
      (if Nat.ltb (xi_id x) (xi_id y) then merge_inter a (y :: b)
       else if Nat.ltb (xi_id y) (xi_id x) then merge_inter (x :: a) b else x :: merge_inter a b).
    assert (E' : agree a (y :: b)) by (intros u v Hu; apply E; now right).
    ids x y.
    + rewrite (IHa (y :: b) Ha' Hb E'). cbn [List.filter]. rewrite Z; [reflexivity|].
      intros z [<-|I]; [assumption|]. specialize (Lb _ I). lia.
    + rewrite IHb; [|assumption|intros u v Hu Hv; apply E; [assumption|now right]].
      cbn [List.filter]. replace (set_mem x (y :: b)) with (set_mem x b).
      2:{ cbn. destruct (Nat.eqb_spec (xi_id x) (xi_id y)); [lia|reflexivity]. }
      rewrite (D y b); [reflexivity|]. intros z I. specialize (La _ I). lia.
    + rewrite (IHa b Ha' Hb'); [|intros u v Hu Hv; apply E; now right].
      cbn [List.filter]. replace (set_mem x (y :: b)) with true.
      2:{ cbn. destruct (Nat.eqb_spec (xi_id x) (xi_id y)); [reflexivity|lia]. }
      rewrite (D y b); [reflexivity|]. intros z I. specialize (La _ I). lia.
Qed.

Lemma merge_diff_spec a : forall b, set_ok a -> set_ok b -> agree a b ->
  merge_diff a b = List.filter (fun x => negb (set_mem x b)) a.
Proof.
  induction a as [|x a IHa]; intros b Ha Hb E; [reflexivity|].
  assert (Z : forall c, (forall y, In y c -> xi_id x < xi_id y) -> set_mem x c = false).
  { intros c L. apply not_true_iff_false. intros M. unfold set_mem in M. apply existsb_exists in M as (y & I & Q).
    apply Nat.eqb_eq in Q. specialize (L _ I). lia. }
  assert (D : forall y b, (forall z, In z a -> xi_id y <> xi_id z) ->
    List.filter (fun x => negb (set_mem x (y :: b))) a = List.filter (fun x => negb (set_mem x b)) a).
  { intros y c L. apply filter_ext_in. intros z I. cbn. destruct (Nat.eqb_spec (xi_id z) (xi_id y)) as [Q|]; [|reflexivity].
    specialize (L _ I). congruence. }
  pose proof (ss_inv _ _ Ha) as [Ha' La].
  induction b as [|y b IHb].
  - cbn. f_equal. transitivity (List.filter (fun _ : X => true) a); [|now apply filter_ext].
    symmetry. clear. induction a; cbn; congruence.
  - pose proof (ss_inv _ _ Hb) as [Hb' Lb].
    change (merge_diff (x :: a) (y :: b)) with
      (if Nat.ltb (xi_id x) (xi_id y) then x :: merge_diff a (y :: b)
       else if Nat.ltb (xi_id y) (xi_id x) then merge_diff (x :: a) b else merge_diff a b).
    assert (E' : agree a (y :: b)) by (intros u v Hu; apply E; now right).
    ids x y.
    + rewrite (IHa (y :: b) Ha' Hb E'). cbn [List.filter]. rewrite Z; [reflexivity|].
      intros z [<-|I]; [assumption|]. specialize (Lb _ I). lia.
    + rewrite IHb; [|assumption|intros u v Hu Hv; apply E; [assumption|now right]].
      cbn [List.filter]. replace (set_mem x (y :: b)) with (set_mem x b).
      2:{ cbn. destruct (Nat.eqb_spec (xi_id x) (xi_id y)); [lia|reflexivity]. }
      rewrite (D y b); [reflexivity|]. intros z I. specialize (La _ I). lia.
    + rewrite (IHa b Ha' Hb'); [|intros u v Hu Hv; apply E; now right].
      cbn [List.filter]. replace (set_mem x (y :: b)) with true.
      2:{ cbn. destruct (Nat.eqb_spec (xi_id x) (xi_id y)); [reflexivity|lia]. }
      rewrite (D y b); [reflexivity|]. intros z I. specialize (La _ I). lia.
Qed.

Lemma merge_union_spec a : forall b, set_ok a -> set_ok b -> agree a b ->
  set_ok (merge_union a b) /\ forall z, In z (merge_union a b) <-> In z a \/ In z b.
Proof.
  induction a as [|x a IHa]; intros b Ha Hb E; [split; [exact Hb|cbn; intuition]|].
  pose proof (ss_inv _ _ Ha) as [Ha' La].
  induction b as [|y b IHb]; [split; [exact Ha|cbn; intuition]|].
  pose proof (ss_inv _ _ Hb) as [Hb' Lb].
  change (merge_union (x :: a) (y :: b)) with
    (if Nat.ltb (xi_id x) (xi_id y) then x :: merge_union a (y :: b)
     else if Nat.ltb (xi_id y) (xi_id x) then y :: merge_union (x :: a) b else x :: merge_union a b).
  ids x y.
  - destruct (IHa (y :: b) Ha' Hb) as [A B]; [intros u v Hu; apply E; now right|]. split.
    + apply ss_cons; [exact A|]. intros z I. apply B in I as [I|[<-|I]]; auto. specialize (Lb _ I). lia.
    + intros z. cbn [In]. rewrite B. cbn [In]. tauto.
  - destruct IHb as [A B]; [assumption|intros u v Hu Hv; apply E; [assumption|now right]|]. split.
    + apply ss_cons; [exact A|]. intros z I. apply B in I as [[<-|I]|I]; auto. specialize (La _ I). lia.
    + intros z. cbn [In]. rewrite B. cbn [In]. tauto.
  - destruct (IHa b Ha' Hb') as [A B]; [intros u v Hu Hv; apply E; now right|].
    assert (x = y) by (apply E; [now left|now left|lia]). subst y. split.
    + apply ss_cons; [exact A|]. intros z I. apply B in I as [I|I]; auto.
    + intros z. cbn [In]. rewrite B. cbn [In]. tauto.
Qed.

Lemma mem_in s x : (forall y, In y s -> xi_id x = xi_id y -> x = y) -> (set_mem x s = true <-> In x s).
Proof.
  intros C. unfold set_mem. rewrite existsb_exists. split.
  - intros (y & I & Q). apply Nat.eqb_eq in Q. now rewrite (C y I Q).
  - intros I. exists x. split; [exact I|apply Nat.eqb_refl].
Qed.

(** ** Predicates *)
Lemma match_term_spec t (x : xterm) : match_term t x = true <->
  x_P x = q_name t /\ (q_n t = 1%Z -> x_n x = None \/ x_n x = Some 1%Z) /\
  ((1 < q_n t)%Z -> x_n x = Some (q_n t)).
Proof.
  unfold match_term. rewrite andb_true_iff, String.eqb_eq.
  destruct (Z.eqb_spec (q_n t) 1) as [E|E].
  - destruct (x_n x) as [n|].
    + rewrite Z.eqb_eq. split; [intros [? ->]; repeat split; auto; lia|]. intros (A & B & _). split; [exact A|].
      destruct (B E) as [Q|Q]; congruence.
    + split; [intros [? _]; repeat split; auto; lia|]. intros (A & _). auto.
  - destruct (Z.ltb_spec 1 (q_n t)) as [L|L].
    + destruct (x_n x) as [n|].
      * rewrite Z.eqb_eq. split; [intros [? ->]; repeat split; auto; lia|]. intros (A & _ & B). split; [exact A|].
        specialize (B L). congruence.
      * split; [intros [_ Q]; discriminate|]. intros (_ & _ & B). specialize (B L). discriminate.
    + split; [intros [? _]; repeat split; auto; lia|]. intros (A & _). auto.
Qed.
Lemma match_set_spec set xl : match_set set xl = true <-> side_matches set xl.
Proof.
  unfold match_set, side_matches. rewrite andb_true_iff, Nat.eqb_eq, forallb_forall.
  split; intros [A B]; (split; [exact A|]); intros t I; specialize (B t I).
  - apply orb_true_iff in B as [B|B]; [left; now apply Z.eqb_eq|right].
    apply existsb_exists in B as (x & J & M). exists x. split; [exact J|]. now apply match_term_spec.
  - apply orb_true_iff. destruct B as [B|(x & J & M)]; [left; now apply Z.eqb_eq|right].
    apply existsb_exists. exists x. split; [exact J|]. now apply match_term_spec.
Qed.
Lemma prefix_spec p q : path_prefix p q = true <-> exists r : list string, q = p ++ r.
Proof.
  revert q. induction p as [|x p IH]; intros q; cbn.
  - split; [exists q; reflexivity|auto].
  - destruct q as [|y q]; [split; [discriminate|intros [r E]; discriminate]|].
    rewrite andb_true_iff, String.eqb_eq, IH. split.
    + intros [-> [r ->]]. now exists r.
    + intros [r E]. injection E as -> ->. split; [reflexivity|now exists r].
Qed.
Lemma in_section_spec t x : in_section t x = true <-> below t x.
Proof. apply prefix_spec. Qed.
End F.
