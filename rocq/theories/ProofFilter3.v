(** Statements on filters in the form used by the property files. *)
From Coq Require Import String Ascii List ZArith Bool Sorted Arith Lia.
From Verif Require Import Base Num ModelTerm ModelEq ModelFilter SpecEq SpecFilter ProofOrder ProofFilter ProofFilter2 ProofInelastic.
From Coq Require Import List.
Import ListNotations.

Section F.
Context {N : Num}.
Notation X := (xinter N).
Variable doc : list X.
Hypothesis Hdoc : set_ok doc.

Lemma inter_in (a b : list X) x : set_ok a -> set_ok b -> subset a doc -> subset b doc ->
  In x (merge_inter a b) <-> In x a /\ In x b.
Proof.
  intros Ha Hb Sa Sb. rewrite merge_inter_spec; [|assumption|assumption|now apply (doc_agree doc)].
  rewrite filter_In. split; intros [I J]; (split; [exact I|]).
  - apply mem_in in J; [exact J|]. intros y K. apply (ss_unique doc); auto.
  - apply mem_in; [|exact J]. intros y K. apply (ss_unique doc); auto.
Qed.
Lemma inter_ok (a b : list X) : set_ok a -> set_ok b -> subset a doc -> subset b doc -> set_ok (merge_inter a b).
Proof.
  intros Ha Hb Sa Sb. rewrite merge_inter_spec; [now apply ss_filter|assumption|assumption|now apply (doc_agree doc)].
Qed.
Lemma diff_in (a b : list X) x : set_ok a -> set_ok b -> subset a doc -> subset b doc ->
  In x (merge_diff a b) <-> In x a /\ ~ In x b.
Proof.
  intros Ha Hb Sa Sb. rewrite merge_diff_spec; [|assumption|assumption|now apply (doc_agree doc)].
  rewrite filter_In, negb_true_iff, <- not_true_iff_false.
  split; intros [I J]; (split; [exact I|]); contradict J.
  - apply mem_in; [|exact J]. intros y K. apply (ss_unique doc); auto.
  - apply mem_in in J; [exact J|]. intros y K. apply (ss_unique doc); auto.
Qed.
Lemma diff_ok (a b : list X) : set_ok a -> set_ok b -> subset a doc -> subset b doc -> set_ok (merge_diff a b).
Proof.
  intros Ha Hb Sa Sb. rewrite merge_diff_spec; [now apply ss_filter|assumption|assumption|now apply (doc_agree doc)].
Qed.

Lemma filter_total f : forall s, set_ok s -> subset s doc ->
  exists r, run_filter doc f s = Ok r /\ set_ok r /\ subset r s.
Proof.
  induction f as [| |l|out terms|l IHl r IHr|l IHl r IHr|l IHl r IHr|section required f IH]; intros s Hs D; cbn.
  - exists s. repeat split; [assumption|unfold subset; auto].
  - rewrite query_filter_eq by assumption. eexists. split; [reflexivity|]. split; [now apply ss_filter|apply sub_filter].
  - rewrite query_filter_eq by assumption. eexists. split; [reflexivity|]. split; [now apply ss_filter|apply sub_filter].
  - rewrite query_filter_eq by assumption. eexists. split; [reflexivity|]. split; [now apply ss_filter|apply sub_filter].
  - destruct (IHl s Hs D) as (a & -> & Ha & Sa). destruct (IHr s Hs D) as (b & -> & Hb & Sb). cbn.
    assert (subset a doc /\ subset b doc) as [Da Db] by (split; eapply sub_trans; eauto).
    eexists. split; [reflexivity|]. split; [now apply inter_ok|]. intros x I. apply inter_in in I; try assumption.
    apply Sa, I.
  - destruct (IHl s Hs D) as (a & -> & Ha & Sa). destruct (IHr s Hs D) as (b & -> & Hb & Sb). cbn.
    assert (subset a doc /\ subset b doc) as [Da Db] by (split; eapply sub_trans; eauto).
    destruct (merge_union_spec a b Ha Hb (doc_agree doc Hdoc _ _ Da Db)) as [U V].
    eexists. split; [reflexivity|]. split; [exact U|]. intros x I. apply V in I as [I|I]; auto.
  - destruct (IHl s Hs D) as (a & -> & Ha & Sa). destruct (IHr s Hs D) as (b & -> & Hb & Sb). cbn.
    assert (subset a doc /\ subset b doc) as [Da Db] by (split; eapply sub_trans; eauto).
    eexists. split; [reflexivity|]. split; [now apply diff_ok|]. intros x I. apply diff_in in I; try assumption.
    apply Sa, I.
  - destruct (String.eqb section ""); [exists s; repeat split; [assumption|unfold subset; auto]|].
    destruct (IH s Hs D) as (a & -> & Ha & Sa). cbn. assert (Da : subset a doc) by (eapply sub_trans; eauto).
    destruct (Nat.eqb (length a) 0); [exists a; auto|]. destruct required.
    + assert (Ds : subset (section_set doc section) doc) by (intros x I; apply section_set_in in I; tauto).
      eexists. split; [reflexivity|]. split; [apply inter_ok; try assumption; apply setof_ok|].
      intros x I. apply inter_in in I; try assumption; [|apply setof_ok]. apply Sa, I.
    + destruct (preferred_ok doc section a Ha Da) as (l & E & O & S & _).
      cbn in E |- *. rewrite E. cbn. eexists. split; [reflexivity|]. split; [exact O|]. eapply sub_trans; eauto.
Qed.

Lemma keeps_dec f (x : X) : {keeps f x} + {~ keeps f x}.
Proof.
  induction f as [| |l|out terms|l IHl r IHr|l IHl r IHr|l IHl r IHr|section required f IH]; cbn.
  - now left.
  - apply string_dec.
  - destruct (xi_model x) as [m|]; [destruct (string_dec m l) as [->|]; [now left|right; congruence]|right; discriminate].
  - destruct terms as [|t terms]; [right; intros [H _]; auto|].
    destruct (match_set (t :: terms) (if out then xi_out x else xi_in x)) eqn:E.
    + left. split; [discriminate|]. now apply match_set_spec.
    + right. intros [_ H]. apply match_set_spec in H. congruence.
  - destruct IHl, IHr; [left|right|right|right]; tauto.
  - destruct IHl, IHr; [left|left|left|right]; tauto.
  - destruct IHl, IHr; [right|left|right|right]; tauto.
  - now left.
Qed.

Lemma query_in (p : X -> bool) s x (P : Prop) : set_ok s -> (p x = true <-> P) ->
  In x (query_filter p s) <-> In x s /\ P.
Proof. intros H E. rewrite query_filter_eq by exact H. rewrite filter_In, E. tauto. Qed.
Lemma eqio_spec out terms (x : X) : eqio_query out terms x = true <->
  terms <> [] /\ side_matches terms (if out then xi_out x else xi_in x).
Proof.
  unfold eqio_query. destruct terms as [|t terms]; [split; [discriminate|intros [H _]; now contradict H]|].
  rewrite match_set_spec. split; [split; [discriminate|assumption]|tauto].
Qed.
Lemma label_spec l (x : X) : label_query l x = true <-> xi_model x = Some l.
Proof.
  unfold label_query. destruct (xi_model x) as [m|]; [|split; discriminate].
  rewrite String.eqb_eq. split; congruence.
Qed.

(** Filters without sections test each interaction by itself. *)
Lemma filter_pointwise f : pointwise f -> forall s r, set_ok s -> subset s doc ->
  run_filter doc f s = Ok r -> forall x, In x r <-> In x s /\ keeps f x.
Proof.
  induction f as [| |l|out terms|l IHl r IHr|l IHl r IHr|l IHl r IHr|section required f IH]; intros P s res Hs D E x; cbn in E |- *.
  - injection E as <-. tauto.
  - injection E as <-. apply query_in; [assumption|]. apply String.eqb_eq.
  - injection E as <-. apply query_in; [assumption|]. apply label_spec.
  - injection E as <-. apply query_in; [assumption|]. apply eqio_spec.
  - destruct P as [Pl Pr]. destruct (filter_total l s Hs D) as (a & Ea & Ha & Sa), (filter_total r s Hs D) as (b & Eb & Hb & Sb).
    rewrite Ea, Eb in E. injection E as <-.
    rewrite inter_in; try assumption; try (eapply sub_trans; eauto).
    rewrite (IHl Pl s a Hs D Ea), (IHr Pr s b Hs D Eb). tauto.
  - destruct P as [Pl Pr]. destruct (filter_total l s Hs D) as (a & Ea & Ha & Sa), (filter_total r s Hs D) as (b & Eb & Hb & Sb).
    rewrite Ea, Eb in E. injection E as <-.
    destruct (merge_union_spec a b Ha Hb) as [_ V]; [apply (doc_agree doc Hdoc); eapply sub_trans; eauto|].
    rewrite V, (IHl Pl s a Hs D Ea), (IHr Pr s b Hs D Eb). tauto.
  - destruct P as [Pl Pr]. destruct (filter_total l s Hs D) as (a & Ea & Ha & Sa), (filter_total r s Hs D) as (b & Eb & Hb & Sb).
    rewrite Ea, Eb in E. injection E as <-.
    rewrite diff_in; try assumption; try (eapply sub_trans; eauto).
    rewrite (IHl Pl s a Hs D Ea), (IHr Pr s b Hs D Eb). tauto.
  - destruct P.
Qed.
Lemma filter_idem f s r : pointwise f -> set_ok s -> subset s doc ->
  run_filter doc f s = Ok r -> run_filter doc f r = Ok r.
Proof.
  intros P Hs D E. destruct (filter_total f s Hs D) as (r' & E' & Hr & Sr). rewrite E in E'. injection E' as <-.
  assert (Dr : subset r doc) by (eapply sub_trans; eauto).
  destruct (filter_total f r Hr Dr) as (q & Eq & Hq & Sq). rewrite Eq. f_equal.
  apply ss_ext; [assumption|assumption|]. intros x.
  rewrite (filter_pointwise f P r q Hr Dr Eq). split; [tauto|]. intros I. split; [exact I|].
  now apply (filter_pointwise f P s r Hs D E).
Qed.

(** And, Or and Not of arbitrary filters. *)
Lemma filter_algebra l r s a b : set_ok s -> subset s doc ->
  run_filter doc l s = Ok a -> run_filter doc r s = Ok b ->
  exists i u d, run_filter doc (FAnd l r) s = Ok i /\ run_filter doc (FOr l r) s = Ok u /\
    run_filter doc (FNot l r) s = Ok d /\ run_filter doc FNull s = Ok s /\
    forall x, (In x i <-> In x a /\ In x b) /\ (In x u <-> In x a \/ In x b) /\ (In x d <-> In x a /\ ~ In x b).
Proof.
  intros Hs D Ea Eb. destruct (filter_total l s Hs D) as (a' & Ea' & Ha & Sa), (filter_total r s Hs D) as (b' & Eb' & Hb & Sb).
  rewrite Ea in Ea'. injection Ea' as <-. rewrite Eb in Eb'. injection Eb' as <-.
  assert (subset a doc /\ subset b doc) as [Da Db] by (split; eapply sub_trans; eauto).
  cbn. rewrite Ea, Eb. cbn. eexists _, _, _. do 4 (split; [reflexivity|]). intros x.
  split; [now apply inter_in|]. split; [|now apply diff_in].
  apply merge_union_spec; [assumption|assumption|]. now apply (doc_agree doc Hdoc).
Qed.

Lemma section_preferred section f s fs r : section <> ""%string -> set_ok s -> subset s doc ->
  run_filter doc f s = Ok fs -> run_filter doc (FSection section false f) s = Ok r ->
  subset r fs /\
  (forall x, In x fs -> exists y, In y r /\ text y = text x /\ forall z, In z r -> text z = text x -> z = y) /\
  (forall y x i j, In y r -> In x fs -> text x = text y -> rank section y i -> rank section x j ->
     i < j \/ (i = j /\ xi_id x <= xi_id y)).
Proof.
  intros Ne Hs D Ef E. destruct (filter_total f s Hs D) as (fs' & Ef' & Hf & Sf). rewrite Ef in Ef'. injection Ef' as <-.
  assert (Df : subset fs doc) by (eapply sub_trans; eauto).
  cbn in E. destruct (String.eqb_spec section "") as [->|_]; [congruence|]. rewrite Ef in E. cbn in E.
  destruct (preferred_ok doc section fs Hf Df) as (l & El & O & S & C & B).
  assert (Er : r = set_of l \/ (fs = [] /\ r = fs)).
  { destruct (Nat.eqb_spec (length fs) 0) as [Z|Z].
    - right. injection E as <-. destruct fs; [auto|discriminate].
    - left. cbn in El. rewrite El in E. now injection E as <-. }
  destruct Er as [->|[-> ->]].
  2:{ split; [intros x []|]. split; [intros x []|intros y x i j []]. }
  split; [exact S|]. split.
  - intros x I. destruct (C x I) as (y & J & T). exists y. split; [exact J|]. split; [exact T|].
    intros z K Q. apply (ss_unique fs); [assumption|now apply S|now apply S|].
    destruct (B y J z (S _ K)) as [L|[L1 L2]]; [congruence| |].
    + destruct (B z K y (S _ J)) as [M|[M _]]; [congruence| |]; lia.
    + destruct (B z K y (S _ J)) as [M|[M1 M2]]; [congruence| |]; lia.
  - intros y x i j J I T Ry Rx.
    pose proof (rank_cls doc Hdoc section y (Df _ (S _ J))) as Ry'. pose proof (rank_cls doc Hdoc section x (Df _ I)) as Rx'.
    rewrite (rank_fun section y i _ Ry Ry'), (rank_fun section x j _ Rx Rx').
    now apply B.
Qed.
Lemma section_required section f s fs r : section <> ""%string -> set_ok s -> subset s doc ->
  run_filter doc f s = Ok fs -> run_filter doc (FSection section true f) s = Ok r ->
  forall x, In x r <-> In x fs /\ below section x.
Proof.
  intros Ne Hs D Ef E. destruct (filter_total f s Hs D) as (fs' & Ef' & Hf & Sf). rewrite Ef in Ef'. injection Ef' as <-.
  assert (Df : subset fs doc) by (eapply sub_trans; eauto).
  cbn in E. destruct (String.eqb_spec section "") as [->|_]; [congruence|]. rewrite Ef in E. cbn in E. intros x.
  destruct (Nat.eqb_spec (length fs) 0) as [Z|Z].
  - injection E as <-. destruct fs; [|discriminate]. cbn. tauto.
  - injection E as <-. rewrite inter_in; try assumption; [|apply setof_ok|intros y I; apply section_set_in in I; tauto].
    rewrite section_set_in by exact Hdoc. split; [tauto|]. intros [I B]. auto.
Qed.
Lemma section_empty required f s : run_filter doc (FSection "" required f) s = Ok s.
Proof. reflexivity. Qed.

(** ** EqIO *)
Lemma eqio_empty out s : set_ok s -> run_filter doc (FEqIO out []) s = Ok [].
Proof.
  intros H. cbn. rewrite query_filter_eq by exact H. f_equal. unfold eqio_query.
  clear. induction s; auto.
Qed.
End F.

Lemma eqins_in t s z : In z (eqset_insert t s) -> z = t \/ In z s.
Proof.
  induction s as [|y s IH]; cbn [eqset_insert]; [intros [->|[]]; now left|].
  destruct (str_ltb (q_name t) (q_name y)); [intros [->|I]; [now left|right; exact I]|].
  destruct (str_ltb (q_name y) (q_name t)); [|auto].
  intros [->|I]; [right; now left|]. destruct (IH I); [auto|right; now right].
Qed.
Lemma eqins_old t s z : In z s -> In z (eqset_insert t s).
Proof.
  induction s as [|y s IH]; cbn [eqset_insert]; [intros []|].
  destruct (str_ltb (q_name t) (q_name y)); [intros I; now right|].
  destruct (str_ltb (q_name y) (q_name t)); [|auto]. intros [->|I]; [now left|right; auto].
Qed.
Definition eq_sorted (s : list eqterm) := StronglySorted (fun a b => str_ltb (q_name a) (q_name b) = true) s.
Lemma eqins_ok t s : eq_sorted s -> eq_sorted (eqset_insert t s).
Proof.
  induction s as [|y s IH]; intros H; cbn [eqset_insert]; [constructor; constructor|].
  inversion H as [|? ? H' L]; subst. rewrite Forall_forall in L.
  destruct (str_ltb (q_name t) (q_name y)) eqn:A.
  - constructor; [exact H|]. apply Forall_forall. intros z [<-|I]; [exact A|]. exact (str_trans _ _ _ A (L _ I)).
  - destruct (str_ltb (q_name y) (q_name t)) eqn:B; [|exact H].
    constructor; [exact (IH H')|]. apply Forall_forall. intros z I. apply eqins_in in I as [->|I]; auto.
Qed.
Lemma eqins_new t s : eq_sorted s -> (forall z, In z s -> q_name z <> q_name t) -> In t (eqset_insert t s).
Proof.
  induction s as [|y s IH]; intros H Ne; cbn [eqset_insert]; [now left|]. inversion H as [|? ? H' L]; subst.
  destruct (str_ltb (q_name t) (q_name y)) eqn:A; [now left|].
  destruct (str_ltb (q_name y) (q_name t)) eqn:B.
  - right. apply IH; [exact H'|]. intros z I. apply Ne. now right.
  - exfalso. apply (Ne y (or_introl eq_refl)). now apply str_total.
Qed.
Lemma eqins_same t s z : eq_sorted s -> In z s -> q_name z = q_name t -> eqset_insert t s = s.
Proof.
  induction s as [|y s IH]; intros H I E; cbn [eqset_insert]; [destruct I|]. inversion H as [|? ? H' L]; subst.
  rewrite Forall_forall in L. destruct I as [->|I].
  - rewrite <- E, str_irrefl. reflexivity.
  - specialize (L _ I). rewrite E in L. rewrite (str_asym _ _ L), L. f_equal. now apply IH.
Qed.
Lemma eqset_spec_acc l : forall l0 s, eq_sorted s -> (forall t, In t s <-> first_term l0 t) ->
  let r := fold_left (fun s t => eqset_insert t s) l s in
  eq_sorted r /\ forall t, In t r <-> first_term (l0 ++ l) t.
Proof.
  induction l as [|x l IH]; intros l0 s H E; cbn.
  - now rewrite app_nil_r.
  - replace (l0 ++ x :: l) with ((l0 ++ [x]) ++ l) by now rewrite <- app_assoc.
    apply IH; [now apply eqins_ok|]. intros t.
    assert (F : first_term (l0 ++ [x]) t <-> first_term l0 t \/ (t = x /\ forall u, In u l0 -> q_name u <> q_name t)).
    { split.
      - intros (l1 & l2 & Q & M). destruct l2 as [|w l2] using rev_ind; [|clear IHl2].
        + apply app_inj_tail in Q as [-> ->]. right. auto.
        + rewrite app_comm_cons, app_assoc in Q. apply app_inj_tail in Q as [-> ->]. left. exists l1, l2. auto.
      - intros [(l1 & l2 & -> & M)|[-> M]].
        + exists l1, (l2 ++ [x]). split; [now rewrite <- app_assoc|exact M].
        + exists l0, []. auto. }
    rewrite F, <- E.
    assert (Hn : forall u, In u l0 -> exists v, In v s /\ q_name v = q_name u).
    { intros u I. clear - E I. apply in_split in I as (a & b & ->).
      assert (G : forall a b, (exists v, first_term (a ++ u :: b) v /\ q_name v = q_name u)).
      { clear. intros a b. induction a as [|w a IHa].
        - exists u. split; [|reflexivity]. exists [], b. split; [reflexivity|intros ? []].
        - destruct (string_dec (q_name w) (q_name u)) as [Q|Q].
          + exists w. split; [|exact Q]. exists [], (a ++ u :: b). split; [reflexivity|intros ? []].
          + destruct IHa as (v & (l1 & l2 & Ev & M) & Qv). exists v. split; [|exact Qv].
            exists (w :: l1), l2. split; [cbn; now rewrite Ev|]. intros z [->|I]; [congruence|auto]. }
      destruct (G a b) as (v & Fv & Q). exists v. split; [now apply E|exact Q]. }
    destruct (in_dec string_dec (q_name x) (map q_name s)) as [I|I].
    + apply in_map_iff in I as (z & Q & I). rewrite (eqins_same x s z H I Q). split; [auto|].
      intros [J|[-> M]]; [exact J|]. exfalso.
      apply E in I as (l1 & l2 & El & _). apply (M z); [|exact Q]. rewrite El. apply in_or_app. right. now left.
    + assert (Ns : forall z, In z s -> q_name z <> q_name x) by (intros z J Q; apply I; rewrite <- Q; now apply in_map).
      split.
      * intros J. apply eqins_in in J as [->|J]; [right|now left]. split; [reflexivity|].
        intros u Iu Q. destruct (Hn u Iu) as (v & Iv & Qv). apply (Ns v Iv). congruence.
      * intros [J|[-> M]]; [now apply eqins_old|]. now apply eqins_new.
Qed.

Lemma eqset_spec l : eq_sorted (eqset_of l) /\ forall t, In t (eqset_of l) <-> first_term l t.
Proof.
  apply (eqset_spec_acc l [] []); [constructor|]. intros t. split; [intros []|].
  intros (l1 & l2 & E & _). destruct l1; discriminate.
Qed.
