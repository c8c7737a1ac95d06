(** Results of whole filters; the Section filter. *)
From Coq Require Import String Ascii List ZArith Bool Sorted Arith Lia.
From Verif Require Import Base Num ModelTerm ModelEq ModelFilter SpecEq SpecFilter ProofOrder ProofFilter ProofInelastic.
From Coq Require Import List.
Import ListNotations.

Section F.
Context {N : Num}.
Notation X := (xinter N).
Variable doc : list X.
Hypothesis Hdoc : set_ok doc.

Lemma doc_agree (a b : list X) : subset a doc -> subset b doc -> agree a b.
Proof. intros A B x y Hx Hy. apply (ss_unique doc); auto. Qed.
Lemma sub_filter (p : X -> bool) s : subset (List.filter p s) s.
Proof. intros x I. apply filter_In in I. tauto. Qed.
Lemma sub_trans (a b c : list X) : subset a b -> subset b c -> subset a c.
Proof. unfold subset. auto. Qed.

Lemma section_set_in t x : In x (section_set doc t) <-> In x doc /\ below t x.
Proof.
  unfold section_set. rewrite setof_in.
  - now rewrite filter_In, in_section_spec.
  - intros u v Hu Hv. apply filter_In in Hu, Hv. apply (ss_unique doc); tauto.
Qed.
Lemma section_mem t x : In x doc -> set_mem x (section_set doc t) = true <-> below t x.
Proof.
  intros D. rewrite mem_in.
  - rewrite section_set_in. tauto.
  - intros y I. apply section_set_in in I. apply (ss_unique doc); tauto.
Qed.

(** ** The map of equation texts *)
Notation emap := (list (string * eqslots (N:=N))).
Definition keys_ok (m : emap) : Prop := StronglySorted (fun a b => str_ltb (fst a) (fst b) = true) m.
Fixpoint eget (k : string) (m : emap) : option eqslots :=
  match m with
  | [] => None
  | (k', e) :: m => if String.eqb k k' then Some e else eget k m
  end.
Lemma eget_in m k e : keys_ok m -> (In (k, e) m <-> eget k m = Some e).
Proof.
  induction m as [|[k' e'] m IH]; intros H; cbn; [split; [intros []|discriminate]|].
  inversion H as [|? ? H' L]; subst. rewrite Forall_forall in L.
  destruct (String.eqb_spec k k') as [->|Ne].
  - split.
    + intros [E|I]; [congruence|]. specialize (L _ I). cbn in L. rewrite str_irrefl in L. discriminate.
    + intros E. injection E as ->. now left.
  - rewrite <- (IH H'). split; [intros [E|I]; [congruence|assumption]|auto].
Qed.
Lemma eset_keys k f (m : emap) z : In z (eqmap_set k f m) -> fst z = k \/ exists e, In (fst z, e) m.
Proof.
  induction m as [|[k' e'] m IH]; cbn; [intros [<-|[]]; now left|].
  destruct (str_ltb k k'); [cbn; intros [<-|[<-|I]]; [now left|right; exists e'; now left|right; exists (snd z); right; now destruct z]|].
  destruct (str_ltb k' k); cbn; intros [<-|I].
  - right. exists e'. now left.
  - destruct (IH I) as [?|[e J]]; [now left|right; exists e; now right].
  - right. exists e'. now left.
  - right. exists (snd z). right. now destruct z.
Qed.
Lemma eset_ok k f (m : emap) : keys_ok m -> keys_ok (eqmap_set k f m).
Proof.
  induction m as [|[k' e'] m IH]; intros H; cbn.
  - constructor; [constructor|constructor].
  - inversion H as [|? ? H' L]; subst. rewrite Forall_forall in L.
    destruct (str_ltb k k') eqn:E1.
    + constructor; [exact H|]. apply Forall_forall. intros z [<-|I]; [exact E1|].
      exact (str_trans _ _ _ E1 (L _ I)).
    + destruct (str_ltb k' k) eqn:E2.
      * constructor; [exact (IH H')|]. apply Forall_forall. intros z I. apply eset_keys in I as [->|[e I]]; [exact E2|exact (L _ I)].
      * constructor; [exact H'|]. apply Forall_forall. intros z I. exact (L _ I).
Qed.
Lemma eset_get k f (m : emap) k' : keys_ok m ->
  eget k' (eqmap_set k f m) =
  if String.eqb k' k then Some (f (match eget k m with Some e => e | None => mkES None None None end))
  else eget k' m.
Proof.
  induction m as [|[j e'] m IH]; intros H; cbn.
  - destruct (String.eqb_spec k' k); reflexivity.
  - inversion H as [|? ? H' L]; subst. rewrite Forall_forall in L.
    destruct (str_ltb k j) eqn:E1.
    + cbn. replace (String.eqb k j) with false.
      2:{ symmetry. apply String.eqb_neq. intros ->. rewrite str_irrefl in E1. discriminate. }
      replace (eget k m) with (@None (eqslots (N:=N))); [destruct (String.eqb_spec k' k); reflexivity|].
      symmetry. destruct (eget k m) eqn:G; [|reflexivity]. apply eget_in in G; [|exact H'].
      pose proof (str_trans _ _ _ E1 (L _ G)) as Q. cbn in Q. rewrite str_irrefl in Q. discriminate.
    + destruct (str_ltb j k) eqn:E2.
      * cbn. rewrite (IH H'). destruct (String.eqb_spec k j) as [->|]; [rewrite str_irrefl in E2; discriminate|].
        destruct (String.eqb_spec k' j) as [->|]; [|reflexivity].
        destruct (String.eqb_spec j k) as [->|]; [congruence|reflexivity].
      * pose proof (str_total _ _ E1 E2) as <-. cbn. rewrite String.eqb_refl.
        destruct (String.eqb_spec k' k); reflexivity.
Qed.

(** The last element of a list with a property. *)
Definition last_such (p : X -> bool) (l : list X) : option X := find p (rev l).
Lemma last_snoc p l x : last_such p (l ++ [x]) = if p x then Some x else last_such p l.
Proof. unfold last_such. rewrite rev_app_distr. reflexivity. Qed.
Lemma last_some p l x : set_ok l -> last_such p l = Some x ->
  In x l /\ p x = true /\ forall y, In y l -> p y = true -> xi_id y <= xi_id x.
Proof.
  intros H. unfold last_such. intros F. pose proof (find_some _ _ F) as [I P].
  split; [now apply in_rev|]. split; [exact P|]. intros y J Q.
  assert (G : forall l : list X, StronglySorted (fun a b => xi_id b < xi_id a) l -> find p l = Some x -> In y l -> xi_id y <= xi_id x).
  { clear - Q. induction l as [|z l IH]; intros S F J; [destruct J|]. cbn in F.
    inversion S as [|? ? S' L]; subst. rewrite Forall_forall in L. destruct (p z) eqn:E.
    - injection F as ->. destruct J as [->|J]; [lia|]. specialize (L _ J). lia.
    - destruct J as [->|J]; [congruence|]. auto. }
  apply (G (rev l)); [|exact F|now apply -> in_rev].
  clear - H. induction l as [|z l IH]; [constructor|]. apply ss_inv in H as [H L]. cbn.
  assert (S : forall (u : list X) v, StronglySorted (fun a b => xi_id b < xi_id a) u -> (forall w, In w u -> xi_id v < xi_id w) ->
    StronglySorted (fun a b => xi_id b < xi_id a) (u ++ [v])).
  { clear. induction u as [|w u IH]; intros v S L; cbn; [constructor; constructor|].
    inversion S as [|? ? S' L']; subst. constructor; [apply IH; [exact S'|intros; apply L; now right]|].
    apply Forall_app. split; [exact L'|]. constructor; [apply L; now left|constructor]. }
  apply S; [auto|]. intros w I. apply L. now apply in_rev.
Qed.
Lemma last_none p l : last_such p l = None -> forall y, In y l -> p y = false.
Proof. intros F y I. apply (find_none _ _ F). now apply -> in_rev. Qed.
Lemma last_exists p l y : In y l -> p y = true -> exists x, last_such p l = Some x.
Proof. intros I P. destruct (last_such p l) eqn:E; [eauto|]. rewrite (last_none _ _ E _ I) in P. discriminate. Qed.

Variable sec : string.
Definition cls (x : X) : nat :=
  if set_mem x (section_set doc sec) then 0 else if set_mem x (section_set doc "standard") then 1 else 2.
Definition is_slot (k : string) (c : nat) (x : X) : bool := String.eqb (text x) k && Nat.eqb (cls x) c.
Definition slots_of (l : list X) (k : string) : option eqslots :=
  if existsb (fun x => String.eqb (text x) k) l
  then Some (mkES (last_such (is_slot k 0) l) (last_such (is_slot k 1) l) (last_such (is_slot k 2) l))
  else None.

Lemma no_slot l k : existsb (fun x => String.eqb (text x) k) l = false -> forall c, last_such (is_slot k c) l = None.
Proof.
  intros H c. destruct (last_such (is_slot k c) l) as [x|] eqn:E; [|reflexivity].
  unfold last_such in E. apply find_some in E as [I P]. apply in_rev in I. unfold is_slot in P.
  apply andb_true_iff in P as [P _]. rewrite <- not_true_iff_false in H. exfalso. apply H. apply existsb_exists. eauto.
Qed.
Lemma slots_default l k :
  match slots_of l k with Some e => e | None => mkES None None None end =
  mkES (last_such (is_slot k 0) l) (last_such (is_slot k 1) l) (last_such (is_slot k 2) l).
Proof.
  unfold slots_of. destruct (existsb _ l) eqn:E; [reflexivity|]. now rewrite !(no_slot _ _ E).
Qed.

Lemma section_fold l : forall l0 m, keys_ok m -> (forall k, eget k m = slots_of l0 k) ->
  keys_ok (fold_left (section_step doc sec) l m) /\
  forall k, eget k (fold_left (section_step doc sec) l m) = slots_of (l0 ++ l) k.
Proof.
  induction l as [|x l IH]; intros l0 m Hm H; cbn.
  - rewrite app_nil_r. auto.
  - replace (l0 ++ x :: l) with ((l0 ++ [x]) ++ l) by (now rewrite <- app_assoc).
    assert (G : forall c f, cls x = c ->
       (forall e, f e = match c with 0 => mkES (Some x) (es_standard e) (es_unmatched e)
                        | 1 => mkES (es_matched e) (Some x) (es_unmatched e)
                        | _ => mkES (es_matched e) (es_standard e) (Some x) end) ->
       forall k, eget k (eqmap_set (text x) f m) = slots_of (l0 ++ [x]) k).
    { intros c f C Hf k. rewrite eset_get by exact Hm.
      unfold slots_of at 1. rewrite existsb_app. cbn [existsb]. rewrite orb_false_r, !last_snoc.
      unfold is_slot at 1 3 5. rewrite (String.eqb_sym k).
      destruct (String.eqb_spec (text x) k) as [->|Ne].
      - rewrite orb_true_r. cbn [andb]. rewrite Hf, H, slots_default. cbn.
        rewrite C. assert (c = 0 \/ c = 1 \/ c = 2) as [-> |[-> | ->]]; [|reflexivity|reflexivity|reflexivity].
        rewrite <- C. unfold cls. destruct (set_mem _ _); [auto|]. destruct (set_mem _ _); auto.
      - rewrite orb_false_r. cbn [andb]. rewrite H. reflexivity. }
    unfold section_step at 2 4. fold (text x).
    destruct (set_mem x (section_set doc sec)) eqn:E1; [|destruct (set_mem x (section_set doc "standard")) eqn:E2].
    + apply IH; [now apply eset_ok|]. apply (G 0); [unfold cls; now rewrite E1|reflexivity].
    + apply IH; [now apply eset_ok|]. apply (G 1); [unfold cls; now rewrite E1, E2|reflexivity].
    + apply IH; [now apply eset_ok|]. apply (G 2); [unfold cls; now rewrite E1, E2|reflexivity].
Qed.

Lemma omap_all {A B} (f : A -> outcome B) l : (forall x, In x l -> exists y, f x = Ok y) ->
  exists r, omap f l = Ok r /\ forall y, In y r <-> exists x, In x l /\ f x = Ok y.
Proof.
  induction l as [|x l IH]; intros H; cbn.
  - exists []. split; [reflexivity|]. intros y. split; [intros []|intros (z & [] & _)].
  - destruct (H x (or_introl eq_refl)) as [y E]. rewrite E. cbn.
    destruct IH as (r & Er & Ir); [intros; apply H; now right|]. rewrite Er. cbn.
    exists (y :: r). split; [reflexivity|]. intros z. cbn. rewrite Ir. split.
    + intros [<-|(w & I & Q)]; eauto.
    + intros (w & [<-|I] & Q); [left; congruence|right; eauto].
Qed.

Lemma rank_cls x : In x doc -> rank sec x (cls x).
Proof.
  intros D. unfold rank, cls. pose proof (section_mem sec x D) as A. pose proof (section_mem "standard" x D) as B.
  destruct (set_mem x (section_set doc sec)).
  - left. split; [now apply A|reflexivity].
  - assert (~ below sec x) by (intros Q; apply A in Q; discriminate).
    destruct (set_mem x (section_set doc "standard")).
    + right; left. repeat split; [assumption|now apply B].
    + right; right. repeat split; [assumption|]. intros Q. apply B in Q. discriminate.
Qed.
Lemma rank_fun (x : X) k k' : rank sec x k -> rank sec x k' -> k = k'.
Proof. unfold rank. intuition congruence. Qed.

(** The preferred Section filter on the result [fs] of its sub-filter. *)
Lemma preferred_ok fs : set_ok fs -> subset fs doc ->
  exists l, omap (fun e => section_pick (snd e)) (fold_left (section_step doc sec) fs []) = Ok l /\
    set_ok (set_of l) /\ subset (set_of l) fs /\
    (forall x, In x fs -> exists y, In y (set_of l) /\ text y = text x) /\
    (forall y, In y (set_of l) -> forall x, In x fs -> text x = text y ->
       cls y < cls x \/ (cls y = cls x /\ xi_id x <= xi_id y)).
Proof.
  intros Hs D. destruct (section_fold fs [] []) as [K G]; [constructor|reflexivity|]. cbn [app] in G.
  assert (C3 : forall x, cls x = 0 \/ cls x = 1 \/ cls x = 2).
  { intros x. unfold cls. destruct (set_mem _ _); [auto|]. destruct (set_mem _ _); auto. }
  (* what is picked for an equation text *)
  assert (P : forall k e, slots_of fs k = Some e -> exists y, section_pick e = Ok y /\ In y fs /\ text y = k /\
     forall x, In x fs -> text x = k -> cls y < cls x \/ (cls y = cls x /\ xi_id x <= xi_id y)).
  { intros k e E. unfold slots_of in E. destruct (existsb _ fs) eqn:X1; [|discriminate]. injection E as <-.
    apply existsb_exists in X1 as (x0 & I0 & T0). apply String.eqb_eq in T0.
    assert (T : forall c y, last_such (is_slot k c) fs = Some y ->
      In y fs /\ text y = k /\ cls y = c /\ forall x, In x fs -> text x = k -> cls x = c -> xi_id x <= xi_id y).
    { intros c y L. destruct (last_some _ _ _ Hs L) as (I & Q & M). unfold is_slot in Q.
      apply andb_true_iff in Q as [Q1 Q2]. apply String.eqb_eq in Q1. apply Nat.eqb_eq in Q2.
      split; [exact I|]. split; [exact Q1|]. split; [exact Q2|]. intros x J A B. apply M; [exact J|]. unfold is_slot.
      now rewrite A, B, String.eqb_refl, Nat.eqb_refl. }
    assert (Z : forall c, last_such (is_slot k c) fs = None -> forall x, In x fs -> text x = k -> cls x <> c).
    { intros c L x J A B. pose proof (last_none _ _ L _ J) as Q. unfold is_slot in Q.
      rewrite A, B, String.eqb_refl, Nat.eqb_refl in Q. discriminate. }
    unfold section_pick. cbn.
    destruct (last_such (is_slot k 0) fs) as [y|] eqn:L0; [|destruct (last_such (is_slot k 1) fs) as [y|] eqn:L1;
      [|destruct (last_such (is_slot k 2) fs) as [y|] eqn:L2]].
    - destruct (T _ _ L0) as (A & B & C & M). exists y. repeat split; auto. intros x I Q.
      destruct (C3 x) as [E|[E|E]]; [right|left|left]; rewrite ?E, ?C; try lia. split; [congruence|auto].
    - destruct (T _ _ L1) as (A & B & C & M). exists y. repeat split; auto. intros x I Q.
      pose proof (Z _ L0 x I Q). destruct (C3 x) as [E|[E|E]]; [congruence|right|left]; rewrite ?E, ?C; try lia.
      split; [congruence|auto].
    - destruct (T _ _ L2) as (A & B & C & M). exists y. repeat split; auto. intros x I Q.
      pose proof (Z _ L0 x I Q). pose proof (Z _ L1 x I Q).
      destruct (C3 x) as [E|[E|E]]; [congruence|congruence|right]. split; [congruence|auto].
    - exfalso. destruct (C3 x0) as [E|[E|E]]; revert E; [apply (Z _ L0)|apply (Z _ L1)|apply (Z _ L2)]; auto. }
  destruct (omap_all (fun e : string * eqslots => section_pick (snd e)) (fold_left (section_step doc sec) fs [])) as (l & El & Il).
  { intros [k e] I. apply eget_in in I; [|exact K]. rewrite G in I. destruct (P _ _ I) as (y & E & _). now exists y. }
  exists l. split; [exact El|]. split; [apply setof_ok|].
  assert (J : forall y, In y l -> In y fs /\ forall x, In x fs -> text x = text y -> cls y < cls x \/ (cls y = cls x /\ xi_id x <= xi_id y)).
  { intros y I. apply Il in I as ([k e] & I & Q). apply eget_in in I; [|exact K]. rewrite G in I.
    destruct (P _ _ I) as (y' & E & A & <- & M). cbn in Q. rewrite E in Q. injection Q as ->. auto. }
  assert (C : coherent l).
  { intros x y Hx Hy. apply (ss_unique fs); [exact Hs|now apply J|now apply J]. }
  split; [|split].
  - intros y I. apply setof_sub in I. now apply J.
  - intros x I. destruct (slots_of fs (text x)) as [e|] eqn:E.
    + destruct (P _ _ E) as (y & Q & A & B & _). exists y. split; [|exact B]. apply setof_in; [exact C|]. apply Il.
      exists (text x, e). split; [|exact Q]. apply eget_in; [exact K|]. now rewrite G.
    + unfold slots_of in E. destruct (existsb _ fs) eqn:X1; [discriminate|].
      exfalso. rewrite <- not_true_iff_false in X1. apply X1. apply existsb_exists. exists x.
      split; [exact I|apply String.eqb_refl].
  - intros y I. apply setof_sub in I. now apply J.
Qed.
End F.
