(** A database that is initialised twice. *)
From Coq Require Import Reals Lra Lia String List ZArith Bool Sorted Permutation.
From Verif Require Import Base Num ModelTerm ModelCollide ModelXsec ModelSet ModelEq ModelFilter ModelDB ModelMore
  SpecEq SpecFilter SpecDB ProofInelastic ProofCollide ProofDB.
From Coq Require Import List.
Import ListNotations.

Section More.
Context {N : Num}.
Notation P := (prop N).

Lemma sorted_fixed (l : list P) : StronglySorted (fun a b : P => prop_ltb b a = false) l -> sort_props l = l.
Proof.
  unfold sort_props. induction 1 as [|p l S IH H]; [reflexivity|]. cbn [fold_right]. rewrite IH.
  destruct l as [|q l]; [reflexivity|]. cbn [sort_insert]. apply Forall_inv in H. rewrite H. reflexivity.
Qed.
Lemma sort_idem (ok : N -> Prop) (l : list P) : mass_order ok -> masses_ok ok l -> sort_props (sort_props l) = sort_props l.
Proof. intros Ho Hm. apply sorted_fixed, (sort_sorted ok Ho), Hm. Qed.

Lemma omap_again {A B} (f g : A -> outcome B) l r : omap f l = Ok r ->
  (forall a b, In a l -> f a = Ok b -> exists c, g a = Ok c) -> exists r', omap g l = Ok r'.
Proof.
  revert r. induction l as [|a l IH]; intros r H G; cbn in H |- *; [eauto|].
  apply obind_ok in H as (b & Eb & H). apply obind_ok in H as (r0 & Er & _).
  destruct (G a b (or_introl eq_refl) Eb) as (c & ->). cbn.
  destruct (IH r0 Er) as (r' & ->); [intros; eapply G; [now right|eassumption]|]. cbn. eauto.
Qed.

Lemma Forall2_with_in {A B} (R : A -> B -> Prop) l r : List.Forall2 R l r -> List.Forall2 (fun a b => In a l /\ R a b) l r.
Proof.
  induction 1 as [|a b l r H F IH]; constructor; [split; [now left|assumption]|].
  eapply Forall2_weaken; [|exact IH]. intros x y [I Q]. split; [now right|assumption].
Qed.
Lemma again reg d f (ok : N -> Prop) (props r : list P) s : mass_order ok -> masses_ok ok props ->
  initBinary reg d f props = Ok (r, s) ->
  exists s2, initBinaryAgain reg d f r s = Ok (r, s2) /\
    forall i j l, i < length r -> j < length r -> cell_get s i j = Ok l -> cell_get s2 i j = Ok (l ++ l).
Proof.
  intros Ho Hm H. pose proof (init_cells _ _ _ _ _ _ H) as (Er & Hc).
  unfold initBinary in H. apply obind_ok in H as (s' & E & H). injection H as _ <-.
  assert (Hs : sort_props r = r) by (rewrite Er; eapply sort_idem; eassumption).
  rewrite <- Er in E. unfold initBinaryAgain. rewrite Hs.
  destruct (omap_again _ (fun k => do xs <- pair_interactions d f r (fst k) (snd k);
                         do qs <- omap (load_equation reg r) xs;
                         Ok (k, match cell_find s' k with Some q => q ++ qs | None => qs end)) _ _ E) as (s2 & E2).
  { intros k b _ Hk. apply obind_ok in Hk as (xs & -> & Hk). apply obind_ok in Hk as (qs & E0 & _). cbn. rewrite E0. cbn. eauto. }
  rewrite E2. cbn. exists s2. split; [reflexivity|]. intros i j l Li Lj Hl.
  apply omap_forall2 in E2. apply omap_forall2 in E.
  destruct (find_forall2 (fun k l2 => exists l1, cell_find s' k = Some l1 /\ l2 = l1 ++ l1) (species_pairs (length r)) s2) with (k := cell_key i j) as (l2 & F2 & l1 & F1 & ->).
  - assert (G : List.Forall2 (fun k e => fst e = k /\ exists xs, pair_interactions d f r (fst k) (snd k) = Ok xs /\ omap (load_equation reg r) xs = Ok (snd e)) (species_pairs (length r)) s').
    { eapply Forall2_weaken; [|exact E]. cbn. intros k b Hk. apply obind_ok in Hk as (xs & E1 & Hk).
      apply obind_ok in Hk as (qs & E0 & Hk). injection Hk as <-. cbn. eauto. }
    pose proof (find_forall2 (fun k l => exists xs, pair_interactions d f r (fst k) (snd k) = Ok xs /\ omap (load_equation reg r) xs = Ok l) _ _ G) as Hf.
    assert (E2' : List.Forall2 (fun k b => In k (species_pairs (length r)) /\ (do xs <- pair_interactions d f r (fst k) (snd k);
                         do qs <- omap (load_equation reg r) xs;
                         Ok (k, match cell_find s' k with Some q => q ++ qs | None => qs end)) = Ok b) (species_pairs (length r)) s2).
    { apply Forall2_with_in. exact E2. }
    eapply Forall2_weaken; [|exact E2']. cbn. intros k b [Hin Hk].
    destruct (Hf k Hin) as (l1 & F1 & xs & Hx & Hq). rewrite Hx in Hk. cbn in Hk. rewrite Hq in Hk. cbn in Hk.
    injection Hk as <-. cbn. split; [reflexivity|]. exists l1. rewrite F1. split; reflexivity.
  - unfold cell_key. apply pairs_in. lia.
  - unfold cell_get in *. rewrite F1 in Hl. injection Hl as <-. rewrite F2. reflexivity.
Qed.
End More.

Local Open Scope R_scope.
Lemma ofold_sum {A} (f : A -> outcome R) l : forall (a b r : R),
  ofold (fun s i => do m <- f i; Ok (s + m)) a l = Ok r ->
  ofold (fun s i => do m <- f i; Ok (s + m)) b l = Ok (r - a + b).
Proof.
  induction l as [|x l IH]; intros a b r H; cbn in H |- *.
  - injection H as <-. f_equal. ring.
  - destruct (f x) as [m| | |]; try discriminate. cbn in H |- *. rewrite (IH _ (b + m) _ H). f_equal. ring.
Qed.
Lemma ofold_app {A B} (f : B -> A -> outcome B) l l' b : ofold f b (l ++ l') = do c <- ofold f b l; ofold f c l'.
Proof.
  revert b. induction l as [|x l IH]; intros b; [reflexivity|]. cbn. destruct (f b x); cbn; auto.
Qed.
Lemma max_double K (l : list (equation RNum)) V M :
  findMaxSigmaVProduct K l V = Ok M -> findMaxSigmaVProduct K (l ++ l) V = Ok (2 * M).
Proof.
  unfold findMaxSigmaVProduct. intros H. rewrite ofold_app, H. cbn [obind].
  set (f := fun i : equation RNum => do m <- findMaxSigmaV K (q_cs i) V; Ok (fst m)).
  assert (E : forall b, ofold (fun sum i => do m <- findMaxSigmaV K (q_cs i) V; Ok (nadd sum (fst m))) b l
     = ofold (fun s i => do m <- f i; Ok (s + m)) b l).
  { clear. induction l as [|x l IH]; intros b; [reflexivity|]. cbn. unfold f at 1. destruct (findMaxSigmaV K (q_cs x) V); cbn; auto. }
  rewrite E in H. rewrite E. etransitivity; [exact (ofold_sum f l _ M M H)|]. f_equal. change (@n0 RNum) with 0. change (@eq (T RNum)) with (@eq R). ring.
Qed.
Lemma omap_app {A B} (f : A -> outcome B) l l' r r' : omap f l = Ok r -> omap f l' = Ok r' -> omap f (l ++ l') = Ok (r ++ r').
Proof.
  revert r. induction l as [|x l IH]; intros r H H'; cbn in H |- *.
  - injection H as <-. exact H'.
  - apply obind_ok in H as (b & -> & H). apply obind_ok in H as (r0 & E & H). injection H as <-.
    cbn. rewrite (IH _ E H'). reflexivity.
Qed.
Lemma fold_sum (l : list R) : forall a, fold_left (fun s c => s + c) l a = a + fold_left (fun s c => s + c) l 0.
Proof.
  induction l as [|x l IH]; intros a; cbn; [ring|]. rewrite IH, (IH (0 + x)). ring.
Qed.
Lemma total_double K (l : list (equation RNum)) v cs :
  channel_cs K l v = Ok cs -> channel_cs K (l ++ l) v = Ok (cs ++ cs) /\ cs_total (N:=RNum) (cs ++ cs) = 2 * cs_total (N:=RNum) cs.
Proof.
  intros H. split; [exact (omap_app _ _ _ _ _ H H)|]. unfold cs_total. rewrite fold_left_app. unR.
  rewrite (fold_sum cs (fold_left _ cs 0)). ring.
Qed.
