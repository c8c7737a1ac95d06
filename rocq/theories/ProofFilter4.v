(** Consequences for EqIO and Elastic filters. *)
From Coq Require Import String Ascii List ZArith Bool Arith Lia Sorted Permutation.
From Verif Require Import Base Num ModelTerm ModelCollide ModelXsec ModelSet ModelEq ModelFilter
  SpecTerm SpecEq SpecFilter ProofOrder ProofFilter ProofFilter2 ProofFilter3 ProofText ProofLoad.
From Coq Require Import List.
Import ListNotations.

Lemma eq_sorted_nodup l : eq_sorted l -> NoDup (map q_name l).
Proof.
  induction 1 as [|t l S IH H]; cbn; constructor; auto.
  intros I. apply in_map_iff in I as (u & E & I). rewrite List.Forall_forall in H. specialize (H u I).
  cbn in H. rewrite E in H. destruct (proj1 str_order) as (Irr & _). rewrite Irr in H; auto. discriminate.
Qed.

Section P.
Context {N : Num}.
Variable doc : list (xinter N).
Hypothesis Hdoc : set_ok doc.

Lemma eqio_exact out l s r (x : xinter N) : set_ok s -> subset s doc ->
  List.Forall (fun t => q_n t <> 0%Z) l ->
  run_filter doc (FEqIO out (eqset_of l)) s = Ok r -> In x r ->
  Permutation (map q_name (eqset_of l)) (map x_P (if out then xi_out x else xi_in x)).
Proof.
  intros Hs Hsub HF Hr I.
  apply (filter_pointwise doc Hdoc (FEqIO out (eqset_of l)) Logic.I s r Hs Hsub Hr) in I as [_ K].
  cbn in K. destruct K as [_ [L K]].
  destruct (eqset_spec l) as [S Q].
  apply NoDup_Permutation_bis.
  - now apply eq_sorted_nodup.
  - rewrite !map_length. lia.
  - intros a Ia. apply in_map_iff in Ia as (t & <- & It).
    destruct (K t It) as [Z|(y & Iy & E & _)].
    + exfalso. apply Q in It as (l1 & l2 & -> & _). rewrite List.Forall_forall in HF.
      apply (HF t); [apply in_or_app; right; left; reflexivity|assumption].
    + rewrite <- E. now apply in_map.
Qed.

Lemma eqio_wildcard out name n s r : set_ok s -> subset s doc -> (n < 0)%Z ->
  run_filter doc (FEqIO out [mkET name n]) s = Ok r ->
  forall x : xinter N, In x r <-> In x s /\ exists t, (if out then xi_out x else xi_in x) = [t] /\ x_P t = name.
Proof.
  intros Hs Hsub Hn Hr x.
  rewrite (filter_pointwise doc Hdoc (FEqIO out [mkET name n]) Logic.I s r Hs Hsub Hr).
  apply and_iff_compat_l. cbn. split.
  - intros [_ [L K]]. destruct (if out then xi_out x else xi_in x) as [|t [|u l]]; try discriminate.
    destruct (K _ (or_introl eq_refl)) as [Z|(y & [<-|[]] & E & _)]; [cbn in Z; lia|]. eauto.
  - intros (t & E & <-). split; [discriminate|]. rewrite E. split; [reflexivity|].
    intros u [<-|[]]. right. exists t. cbn. repeat split; auto; lia.
Qed.

Lemma elastic_equal s r (x : xinter N) : set_ok s -> subset s doc -> run_filter doc FElastic s = Ok r ->
  In x s -> compact x -> map (fun t => (x_P t, x_n t)) (xi_in x) = map (fun t => (x_P t, x_n t)) (xi_out x) -> In x r.
Proof.
  intros Hs Hsub Hr I [C1 C2] E.
  apply (filter_pointwise doc Hdoc FElastic Logic.I s r Hs Hsub Hr). split; [assumption|].
  cbn. rewrite C1, C2. unfold compact_side. apply (f_equal (String.concat ""%string)).
  clear C1 C2. revert E. generalize (xi_out x). induction (xi_in x) as [|t l IH]; intros [|u m] E; try discriminate; [reflexivity|].
  cbn in E |- *. injection E as Ep En El. rewrite Ep, En. apply f_equal, IH, El.
Qed.
End P.
