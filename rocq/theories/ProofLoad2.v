(** Loading filters gives exactly their meaning (C65). *)
From Coq Require Import String Ascii List ZArith Bool Sorted Arith Lia.
From Verif Require Import Base Num ModelTerm ModelEq ModelFilter ModelMisc SpecEq SpecFilter SpecLoad SpecMisc
  ProofOrder ProofFilter3 ProofInelastic ProofLoad ProofDB ProofMisc.
From Coq Require Import List.
Import ListNotations.
Local Open Scope string_scope.
Local Open Scope list_scope.

Lemma assoc_some k l v : assoc k l = Some v <-> attr k l v.
Proof.
  induction l as [|[k' v'] l IH]; cbn [assoc].
  - split; [discriminate|]. intros (l1 & l2 & E & _). destruct l1; discriminate.
  - destruct (String.eqb_spec k k') as [<-|Ne].
    + split.
      * intros H. injection H as <-. exists [], l. split; [reflexivity|intros []].
      * intros (l1 & l2 & E & N). destruct l1 as [|p l1]; cbn in E; [injection E as -> _; reflexivity|].
        injection E as <- _. exfalso. apply N. now left.
    + rewrite IH. split.
      * intros (l1 & l2 & -> & N). exists ((k', v') :: l1), l2. split; [reflexivity|]. cbn. intros [E|I]; [congruence|exact (N I)].
      * intros (l1 & l2 & E & N). destruct l1 as [|p l1]; cbn in E; [injection E as <- _ _; congruence|].
        injection E as <- ->. exists l1, l2. split; [reflexivity|]. intros I. apply N. now right.
Qed.
Lemma assoc_none k l : assoc k l = None <-> ~ In k (map fst l).
Proof.
  induction l as [|[k' v'] l IH]; cbn [assoc map fst In]; [split; [intros _ []|reflexivity]|].
  destruct (String.eqb_spec k k') as [<-|Ne]; [split; [discriminate|intros H; exfalso; apply H; now left]|].
  rewrite IH. split; [intros H [E|I]; [congruence|exact (H I)]|intros H I; apply H; now right].
Qed.
Lemma assoc_or k d l v : match assoc k l with Some s => s | None => d end = v <-> attr_or k d l v.
Proof.
  unfold attr_or. rewrite <- assoc_some, <- assoc_none. destruct (assoc k l) as [s|].
  - split; [intros ->; now left|intros [E|[E _]]; [now injection E|discriminate]].
  - split; [intros <-; now right|intros [E|[_ E]]; [discriminate|now symmetry]].
Qed.

Lemma filter_none {A} (p : A -> bool) l : List.filter p l = [] <-> (forall z, In z l -> p z = false).
Proof.
  induction l as [|x l IH]; cbn; [split; [intros _ ? []|reflexivity]|]. destruct (p x) eqn:E.
  - split; [discriminate|]. intros H. specialize (H x (or_introl eq_refl)). congruence.
  - rewrite IH. split; [intros H z [<-|I]; auto|intros H z I; apply H; now right].
Qed.
Lemma filter_one {A} (p : A -> bool) l y : List.filter p l = [y] <->
  exists l1 l2, l = l1 ++ y :: l2 /\ p y = true /\ (forall z, In z (l1 ++ l2) -> p z = false).
Proof.
  split.
  - induction l as [|x l IH]; cbn; [discriminate|]. destruct (p x) eqn:E.
    + intros H. injection H as -> H. exists [], l. split; [reflexivity|]. split; [exact E|]. now apply filter_none.
    + intros H. destruct (IH H) as (l1 & l2 & -> & P & Q). exists (x :: l1), l2. split; [reflexivity|]. split; [exact P|].
      intros z [<-|I]; [exact E|now apply Q].
  - intros (l1 & l2 & -> & P & Q). rewrite filter_app. cbn. rewrite P.
    replace (List.filter p l1) with (@nil A) by (symmetry; apply filter_none; intros z I; apply Q, in_or_app; now left).
    replace (List.filter p l2) with (@nil A) by (symmetry; apply filter_none; intros z I; apply Q, in_or_app; now right). reflexivity.
Qed.
Lemma child_some x c t : child_text x c = Ok (Some t) <-> only_child x c t.
Proof.
  unfold child_text, only_child. split.
  - destruct (List.filter _ _) as [|y [|]] eqn:E; try discriminate. intros H. injection H as <-.
    apply filter_one in E as (l1 & l2 & E & P & Q). exists l1, y, l2. split; [exact E|]. apply String.eqb_eq in P. split; [exact P|].
    split; [reflexivity|]. intros z I. apply String.eqb_neq, Q, I.
  - intros (l1 & y & l2 & E & P & <- & Q). replace (List.filter _ _) with [y]; [reflexivity|]. symmetry. apply filter_one.
    exists l1, l2. split; [exact E|]. split; [now apply String.eqb_eq|]. intros z I. apply String.eqb_neq, Q, I.
Qed.
Lemma child_none x c : child_text x c = Ok None <-> no_child x c.
Proof.
  unfold child_text, no_child. split.
  - destruct (List.filter _ _) as [|y [|]] eqn:E; try discriminate. intros _ z I. apply String.eqb_neq. revert z I. now apply filter_none.
  - intros H. replace (List.filter _ _) with (@nil xnode); [reflexivity|]. symmetry. apply filter_none. intros z I. apply String.eqb_neq, H, I.
Qed.

Section Load.
Variable to_int : string -> outcome Z.
Lemma term_loads x t : load_eqterm to_int x = Ok t <-> term_means to_int x t.
Proof.
  unfold load_eqterm, term_means. split.
  - intros H. apply obind_ok in H as (p & Ep & H). apply obind_ok in H as (n & En & H).
    destruct p as [p|]; [|discriminate]. destruct n as [s|].
    + apply obind_ok in H as (k & Ek & H). injection H as <-. split; [now apply child_some|]. right. exists s. split; [now apply child_some|exact Ek].
    + injection H as <-. split; [now apply child_some|]. left. split; [now apply child_none|reflexivity].
  - destruct t as [q k]. cbn [q_name q_n]. intros [P [[Nn ->]|(s & S & K)]]; apply child_some in P; rewrite P; cbn [obind].
    + apply child_none in Nn. rewrite Nn. reflexivity.
    + apply child_some in S. rewrite S. cbn [obind]. rewrite K. reflexivity.
Qed.
Lemma omap_forall2 {A B} (f : A -> outcome B) (P : A -> B -> Prop) : (forall x y, f x = Ok y <-> P x y) ->
  forall l r, omap f l = Ok r <-> Forall2 P l r.
Proof.
  intros H. induction l as [|x l IH]; intros r; cbn [omap].
  - split; [intros E; injection E as <-; constructor|intros E; inversion E; reflexivity].
  - split.
    + intros E. apply obind_ok in E as (y & Ey & E). apply obind_ok in E as (ys & Es & E). injection E as <-.
      constructor; [now apply H|now apply IH].
    + intros E. inversion E as [|? y ? ys Py Ps]; subst. apply H in Py. rewrite Py. cbn [obind]. apply IH in Ps. rewrite Ps. reflexivity.
Qed.
Lemma sorted_same (l1 l2 : list eqterm) : eq_sorted l1 -> eq_sorted l2 -> (forall t, In t l1 <-> In t l2) -> l1 = l2.
Proof.
  unfold eq_sorted. revert l2. induction l1 as [|a l1 IH]; intros l2 H1 H2 E.
  - destruct l2 as [|b l2]; [reflexivity|]. exfalso. apply (E b). now left.
  - destruct l2 as [|b l2]; [exfalso; apply (E a); now left|].
    inversion H1 as [|? ? S1 F1]; subst. inversion H2 as [|? ? S2 F2]; subst. rewrite Forall_forall in F1, F2.
    assert (Eab : a = b).
    { destruct (proj1 (E a) (or_introl eq_refl)) as [->|Ia]; [reflexivity|]. destruct (proj2 (E b) (or_introl eq_refl)) as [->|Ib]; [reflexivity|].
      pose proof (F1 _ Ib) as X. pose proof (F2 _ Ia) as Y. apply str_asym in X. congruence. }
    subst b. f_equal. apply IH; [exact S1|exact S2|]. intros t. split; intros I.
    + destruct (proj1 (E t) (or_intror I)) as [<-|J]; [|exact J]. exfalso. specialize (F1 _ I). pose proof (str_asym _ _ F1). congruence.
    + destruct (proj2 (E t) (or_intror I)) as [<-|J]; [|exact J]. exfalso. specialize (F2 _ I). pose proof (str_asym _ _ F2). congruence.
Qed.

Lemma load_means x f : load_filter to_int x = Ok f -> means to_int x f.
Proof.
  revert f. induction x as [t a c s IH] using xnode_ind2. intros f. cbn [load_filter].
  do 3 (match goal with |- context [String.eqb t ?b] => destruct (String.eqb_spec t b) as [->|_] end;
        [destruct c as [|u [|v [|]]]; try discriminate; intros H;
         apply obind_ok in H as (l & El & H); apply obind_ok in H as (r & Er & H); injection H as <-;
         constructor; [apply (IH u); [cbn; tauto|exact El]|apply (IH v); [cbn; tauto|exact Er]]|]).
  destruct (String.eqb_spec t "Null") as [->|_]; [intros H; injection H as <-; constructor|].
  destruct (String.eqb_spec t "EqIO") as [->|_].
  { destruct (assoc "dir" a) as [d|] eqn:Ed; [|discriminate]. intros H. apply obind_ok in H as (out & Eo & H).
    assert (Eo' : tolower d = (if out then "out" else "in")).
    { destruct (String.eqb_spec (tolower d) "in") as [E|_]; [injection Eo as <-; exact E|].
      destruct (String.eqb_spec (tolower d) "out") as [E|_]; [injection Eo as <-; exact E|discriminate]. }
    destruct c as [|u c]; [discriminate|]. apply obind_ok in H as (terms & E & H). injection H as <-.
    apply (Means_EqIO to_int) with (d := d) (ts := terms); [now apply assoc_some|exact Eo'|discriminate| |apply eqset_spec|apply eqset_spec].
    apply (omap_forall2 _ _ term_loads). exact E. }
  destruct (String.eqb_spec t "Label") as [->|_]; [intros H; injection H as <-; constructor|].
  destruct (String.eqb_spec t "Section") as [->|_].
  { set (name := match assoc "name" a with Some s => s | None => "standard" end).
    set (pref := match assoc "preference" a with Some s => s | None => "preferred" end).
    assert (Hn : attr_or "name" "standard" a name) by (apply assoc_or; reflexivity).
    assert (Hp : attr_or "preference" "preferred" a pref) by (apply assoc_or; reflexivity).
    destruct c as [|u [|]]; try discriminate; intros H.
    - injection H as <-. apply Means_Section with pref; [exact Hn|exact Hp|apply contains_spec|now left].
    - apply obind_ok in H as (g & E & H). injection H as <-.
      apply Means_Section with pref; [exact Hn|exact Hp|apply contains_spec|]. right. exists u. split; [reflexivity|]. exact (IH u (or_introl eq_refl) g E). }
  destruct (String.eqb_spec t "Elastic") as [->|_]; [intros H; injection H as <-; constructor|discriminate].
Qed.
Lemma means_load x : forall f, means to_int x f -> load_filter to_int x = Ok f.
Proof.
  induction x as [t a c s IH] using xnode_ind2. intros f H. inversion H; subst.
  - cbn. rewrite (IH l) with (f := x) by (cbn; tauto). cbn. rewrite (IH r) with (f := y) by (cbn; tauto). reflexivity.
  - cbn. rewrite (IH l) with (f := x) by (cbn; tauto). cbn. rewrite (IH r) with (f := y) by (cbn; tauto). reflexivity.
  - cbn. rewrite (IH l) with (f := x) by (cbn; tauto). cbn. rewrite (IH r) with (f := y) by (cbn; tauto). reflexivity.
  - reflexivity.
  - reflexivity.
  - reflexivity.
  - match goal with H : attr _ _ _ |- _ => apply assoc_some in H; rename H into Ed end.
    match goal with H : Forall2 _ _ _ |- _ => apply (omap_forall2 _ _ term_loads) in H; rename H into Et end.
    cbn [load_filter]. change (String.eqb "EqIO" "Or") with false. change (String.eqb "EqIO" "And") with false.
    change (String.eqb "EqIO" "Not") with false. change (String.eqb "EqIO" "Null") with false. change (String.eqb "EqIO" "EqIO") with true.
    cbv iota. rewrite Ed. match goal with H : tolower _ = _ |- _ => rewrite H end.
    assert (Es : eqset_of ts = terms).
    { destruct (eqset_spec ts) as [S1 Q1]. apply sorted_same; [exact S1|assumption|]. intros t. rewrite Q1. symmetry.
      match goal with H : forall t, In t terms <-> _ |- _ => apply H end. }
    destruct out; cbn; destruct c as [|u c]; try congruence; rewrite Et; cbn; rewrite Es; reflexivity.
  - match goal with H : attr_or "name" _ _ _ |- _ => apply assoc_or in H; rename H into En end.
    match goal with H : attr_or "preference" _ _ _ |- _ => apply assoc_or in H; rename H into Ep end.
    cbn [load_filter]. change (String.eqb "Section" "Or") with false. change (String.eqb "Section" "And") with false.
    change (String.eqb "Section" "Not") with false. change (String.eqb "Section" "Null") with false. change (String.eqb "Section" "EqIO") with false.
    change (String.eqb "Section" "Label") with false. change (String.eqb "Section" "Section") with true. cbv iota zeta. rewrite En, Ep.
    assert (Er : contains (tolower pref) "required" = req).
    { match goal with H : req = true <-> _ |- _ => rename H into Hr end. destruct req; [apply contains_spec, Hr; reflexivity|].
      destruct (contains (tolower pref) "required") eqn:E; [|reflexivity]. apply contains_spec, Hr in E. discriminate. }
    rewrite Er. match goal with H : _ \/ _ |- _ => destruct H as [[-> ->]|(e & -> & He)] end; [reflexivity|].
    rewrite (IH e) with (f := f0) by (cbn; tauto). reflexivity.
Qed.
End Load.

(** Required properties. *)
Lemma load_required {V} (req : string -> bool) (dflt : string -> V) (query : string -> option (outcome V)) f r k l :
  list_load (fun a => prop_load (req a) (dflt a) (query a)) (denote (AAgg f r k)) = Some (Ok l) <->
  Forall2 (fun a p => fst p = a /\ (query a = Some (Ok (snd p)) \/ (query a = None /\ req a = false /\ snd p = dflt a)))
    (written (AAgg f r k)) l.
Proof.
  rewrite load_order. transitivity (omap (fun a => do v <- prop_load (req a) (dflt a) (query a); Ok (a, v)) (written (AAgg f r k)) = Ok l).
  { split; [intros H; injection H as H; exact H|intros ->; reflexivity]. }
  apply omap_forall2. clear. intros a [b v]. cbn [fst snd]. unfold prop_load. split.
  - intros H. apply obind_ok in H as (w & E & H). injection H as <- <-. split; [reflexivity|].
    destruct (query a) as [q|]; [left; now f_equal|]. right. destruct (req a); [discriminate|]. injection E as <-. auto.
  - intros [-> [E|(E & E' & ->)]]; rewrite E; [reflexivity|]. rewrite E'. reflexivity.
Qed.
