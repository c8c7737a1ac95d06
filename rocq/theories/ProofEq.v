(** Term and equation loading. *)
From Coq Require Import String List ZArith Bool Arith Lia Sorted Permutation.
From Verif Require Import Base Num ModelTerm ModelCollide ModelXsec ModelSet ModelEq
  SpecTerm SpecEq ProofTerm ProofOrder.
Import List ListNotations.

(** ** Lookup *)
Section Lookup.
Context {N : Num}.
Implicit Types (props : list (prop N)) (name : string).

Lemma first_named_unique props name i p j q :
  first_named props name i p -> first_named props name j q -> i = j /\ p = q.
Proof.
  intros (A & An & Af) (B & Bn & Bf).
  assert (i = j).
  { destruct (lt_eq_lt_dec i j) as [[L|E]|G]; [|exact E|].
    - now destruct (Bf i p L A).
    - now destruct (Af j q G B). }
  subst j. split; congruence.
Qed.
Lemma findParticle_first props name i : findParticle props name = Some i <-> exists p, first_named props name i p.
Proof.
  revert i; induction props as [|p props IH]; intros i; cbn [findParticle].
  - split; [discriminate|]. intros (q & A & _). destruct i; discriminate.
  - destruct (String.eqb_spec name (pr_name p)) as [E|E].
    + split.
      * intros [= <-]. exists p. split; [reflexivity|split; [easy|]]. intros; lia.
      * intros (q & A & An & Af). destruct i; [reflexivity|].
        destruct (Af 0 p); [lia|reflexivity|easy].
    + split.
      * destruct (findParticle props name) as [k|] eqn:F; [|discriminate]. intros [= <-].
        destruct (proj1 (IH k) eq_refl) as (q & A & An & Af). exists q. split; [exact A|split; [exact An|]].
        intros [|j] r L H; cbn in H; [injection H as <-; congruence|]. apply (Af j r); [lia|exact H].
      * intros (q & A & An & Af). destruct i as [|i]; cbn in A; [injection A as <-; congruence|].
        rewrite (proj2 (IH i)); [reflexivity|]. exists q. split; [exact A|split; [exact An|]].
        intros j r L H. apply (Af (S j) r); [lia|exact H].
Qed.
Lemma findParticle_none props name : findParticle props name = None <-> ~ In name (map (pr_name (N:=N)) props).
Proof.
  induction props as [|p props IH]; cbn; [tauto|].
  destruct (String.eqb_spec name (pr_name p)) as [E|E].
  - split; [discriminate|]. intros H; destruct H; auto.
  - destruct (findParticle props name); cbn.
    + split; [discriminate|]. intros H. assert (Some n = None) by (apply IH; tauto). discriminate.
    + split; [|reflexivity]. intros _ [H|H]; [congruence|]. now apply IH.
Qed.
Lemma known_first props name : In name (map (pr_name (N:=N)) props) -> exists i p, first_named props name i p.
Proof.
  intros H. destruct (findParticle props name) as [i|] eqn:F.
  - apply findParticle_first in F as (p & F). eauto.
  - now apply findParticle_none in F.
Qed.
Lemma first_known props name i p : first_named props name i p -> In name (map (pr_name (N:=N)) props).
Proof. intros (A & <- & _). apply in_map. now apply nth_error_In in A. Qed.
Lemma indx_first props name i p : first_named props name i p -> findParticleIndx props name = Z.of_nat i.
Proof. intros H. unfold findParticleIndx. now rewrite (proj2 (findParticle_first props name i)) by eauto. Qed.
Lemma db_at_first props name i p : first_named props name i p -> db_at props name = Ok (i, p).
Proof.
  intros H. unfold db_at. rewrite (proj2 (findParticle_first props name i)) by eauto.
  unfold oget. destruct H as (A & _). now rewrite A.
Qed.
Lemma db_at_unknown props name : ~ In name (map (pr_name (N:=N)) props) -> db_at props name = Throw ExnRuntime.
Proof. intros H. unfold db_at. now rewrite (proj2 (findParticle_none props name) H). Qed.
Lemma db_get_first props name i p : first_named props name i p -> db_get props (Z.of_nat i) = Ok p.
Proof.
  intros (A & _). unfold db_get. replace (Z.of_nat i <? 0)%Z with false by lia. rewrite Nat2Z.id.
  unfold oget. now rewrite A.
Qed.
Lemma first_lt props name i p : first_named props name i p -> i < length props.
Proof. intros (A & _). apply nth_error_Some. congruence. Qed.
Lemma first_self props name i p : first_named props name i p -> first_named props (pr_name p) i p.
Proof. intros H. pose proof H as (_ & <- & _). exact H. Qed.
End Lookup.

(** ** Counting *)
Lemma concat_repeat_length {A} (f : xterm -> A) l :
  length (concat (map (fun t => repeat (f t) (Z.to_nat (xt_n t))) l)) =
  length (concat (map (fun t => repeat (x_P t) (Z.to_nat (xt_n t))) l)).
Proof. induction l as [|t l IH]; cbn; [reflexivity|]. rewrite !app_length, !repeat_length, IH. reflexivity. Qed.
Lemma count_repeat_eq (a : string) n : count_occ string_dec (repeat a n) a = n.
Proof. induction n; cbn; [reflexivity|]. destruct string_dec; congruence. Qed.
Lemma count_repeat_neq (a b : string) n : a <> b -> count_occ string_dec (repeat a n) b = 0.
Proof. intros H. induction n; cbn; [reflexivity|]. destruct string_dec; congruence. Qed.
Lemma count_cons t xl name :
  count_name (t :: xl) name = (if named name t then Z.to_nat (xt_n t) else 0) + count_name xl name.
Proof.
  unfold count_name, expand_names, named. cbn. rewrite count_occ_app.
  destruct (String.eqb_spec name (x_P t)) as [->|E]; [now rewrite count_repeat_eq|].
  rewrite count_repeat_neq by congruence. reflexivity.
Qed.
Lemma count_app xl yl name : count_name (xl ++ yl) name = count_name xl name + count_name yl name.
Proof. induction xl as [|t xl IH]; [reflexivity|]. cbn [app]. rewrite !count_cons, IH. lia. Qed.
Lemma froms_app xl yl name : froms_of (xl ++ yl) name = froms_of xl name ++ froms_of yl name.
Proof. unfold froms_of. now rewrite filter_app, map_app, concat_app. Qed.
Lemma ops_app xl yl name : ops_of (xl ++ yl) name = ops_of xl name ++ ops_of yl name.
Proof. unfold ops_of. now rewrite filter_app, map_app, concat_app. Qed.
Lemma count_froms xl name : count_name xl name = length (froms_of xl name).
Proof.
  induction xl as [|t xl IH]; [reflexivity|]. rewrite count_cons. unfold froms_of in *. cbn.
  destruct (named name t); cbn; rewrite ?app_length, ?repeat_length; lia.
Qed.
Lemma count_ops xl name : count_name xl name = length (ops_of xl name).
Proof.
  induction xl as [|t xl IH]; [reflexivity|]. rewrite count_cons. unfold ops_of in *. cbn.
  destruct (named name t); cbn; rewrite ?app_length, ?repeat_length; lia.
Qed.
Lemma count_absent xl name : ~ In name (map x_P xl) -> count_name xl name = 0.
Proof.
  induction xl as [|t xl IH]; [reflexivity|]. cbn [map In]. intros H. rewrite count_cons.
  unfold named. destruct (String.eqb_spec name (x_P t)) as [E|E]; [destruct H; auto|].
  rewrite IH by tauto. reflexivity.
Qed.
Lemma count_present xl name : positive xl -> In name (map x_P xl) -> 1 <= count_name xl name.
Proof.
  induction 1 as [|t xl Ht _ IH]; cbn [map In]; [tauto|]. rewrite count_cons. unfold named.
  destruct (String.eqb_spec name (x_P t)) as [E|E]; [lia|]. intros [H|H]; [congruence|]. apply IH in H. lia.
Qed.
Lemma sum_expand xl : nonneg xl -> sum_n xl = Z.of_nat (length (expand_names xl)).
Proof.
  unfold sum_n, expand_names. induction 1 as [|t xl Ht _ IH]; [reflexivity|]. cbn.
  rewrite app_length, repeat_length, IH. lia.
Qed.
Lemma expand_In xl name : In name (expand_names xl) -> In name (map x_P xl).
Proof.
  unfold expand_names. induction xl as [|t xl IH]; cbn; [tauto|]. rewrite in_app_iff.
  intros [H|H]; [apply repeat_spec in H; auto|auto].
Qed.
Lemma positive_nonneg xl : positive xl -> nonneg xl.
Proof. unfold positive, nonneg. apply Forall_impl. lia. Qed.

Definition info xl name : tinfo := mkTI (Z.of_nat (count_name xl name)) (froms_of xl name) (ops_of xl name).
Lemma info_absent xl name : ~ In name (map x_P xl) -> info xl name = mkTI 0 [] [].
Proof.
  intros H. unfold info. pose proof (count_absent _ _ H) as C. pose proof C as C1. pose proof C as C2.
  rewrite count_froms in C1. rewrite count_ops in C2. apply length_zero_iff_nil in C1, C2. now rewrite C, C1, C2.
Qed.
Lemma info_snoc_same xl t : (0 <= xt_n t)%Z ->
  info (xl ++ [t]) (x_P t) = ti_add (info xl (x_P t)) (xt_n t) (xt_from t) (xt_ops t).
Proof.
  intros H. unfold info, ti_add. cbn. rewrite count_app, froms_app, ops_app, count_cons.
  unfold froms_of at 2, ops_of at 2, named. cbn. rewrite String.eqb_refl. cbn. rewrite !app_nil_r.
  f_equal. change (count_name [] (x_P t)) with 0. lia.
Qed.
Lemma info_snoc_other xl t name : name <> x_P t -> info (xl ++ [t]) name = info xl name.
Proof.
  intros H. unfold info. rewrite count_app, froms_app, ops_app, count_cons.
  unfold froms_of at 2, ops_of at 2, named. cbn. destruct (String.eqb_spec name (x_P t)); [easy|]. cbn.
  rewrite !app_nil_r. f_equal. change (count_name [] name) with 0. lia.
Qed.

(** ** The sorted map *)
Section Load.
Context {N : Num} (ok : N -> Prop) (Hm : mass_order ok).
Variable props : list (prop N).
Hypothesis Hok : masses_ok ok props.
Notation ename := (fun e : (nat * prop N) * tinfo => pr_name (snd (fst e))).
Notation ekey := (fun e : (nat * prop N) * tinfo => snd (fst e)).

Definition keyed (k : nat * prop N) : Prop := first_named props (pr_name (snd k)) (fst k) (snd k).
Lemma keyed_ok k : keyed k -> ok (pr_mass (snd k)).
Proof. intros (A & _). apply nth_error_In in A. exact (proj1 (Forall_forall _ _) Hok _ A). Qed.
Lemma keyed_name k k' : keyed k -> keyed k' -> pr_name (snd k) = pr_name (snd k') -> k = k'.
Proof.
  destruct k as [i p], k' as [j q]. unfold keyed; cbn. intros A B E. rewrite E in A.
  destruct (first_named_unique _ _ _ _ _ _ A B). congruence.
Qed.
Lemma keyed_incomp k k' : keyed k -> keyed k' ->
  prop_ltb (snd k) (snd k') = false -> prop_ltb (snd k') (snd k) = false -> k = k'.
Proof.
  intros A B H1 H2. apply keyed_name; try assumption.
  apply (prop_incomp ok Hm); auto using keyed_ok.
Qed.

Definition sorted_m (m : tmap N) : Prop := ascending (map ekey m).
Definition has (f : string -> tinfo) (m : tmap N) : Prop :=
  List.Forall (fun e => keyed (fst e) /\ snd e = f (ename e)) m.

Lemma add_spec (f f' : string -> tinfo) k n from ops (m : tmap N) :
  keyed k -> sorted_m m -> has f m ->
  (~ In (pr_name (snd k)) (map ename m) -> f (pr_name (snd k)) = mkTI 0 [] []) ->
  f' (pr_name (snd k)) = ti_add (f (pr_name (snd k))) n from ops ->
  (forall name, name <> pr_name (snd k) -> f' name = f name) ->
  sorted_m (tmap_add k n from ops m) /\ has f' (tmap_add k n from ops m) /\
  (forall name, In name (map ename (tmap_add k n from ops m)) <-> name = pr_name (snd k) \/ In name (map ename m)).
Proof.
  intros Hk. unfold sorted_m, ascending, has.
  induction m as [|[x i] m IH]; cbn [tmap_add].
  - intros _ _ H0 H1 H2. cbn in *. split; [repeat constructor|split].
    + constructor; [|constructor]. cbn. split; [exact Hk|]. rewrite H1, H0 by tauto. reflexivity.
    + intros name. intuition congruence.
  - intros HS HF H0 H1 H2. cbn [map] in HS. inversion HS as [|a b HS' HA]; subst a b.
    inversion HF as [|a b [Hx Hi] HF']; subst a b. cbn [fst snd] in *.
    destruct (prop_ltb (snd k) (snd x)) eqn:L1; [|destruct (prop_ltb (snd x) (snd k)) eqn:L2].
    + assert (Hlt : List.Forall (fun e => prop_ltb (snd k) (ekey e) = true) ((x, i) :: m)).
      { constructor; [exact L1|]. rewrite Forall_map in HA. rewrite Forall_forall in *. intros e He.
        apply (prop_trans ok Hm _ (snd x)); auto using keyed_ok.
        apply keyed_ok. now apply HF'. }
      assert (Hno : ~ In (pr_name (snd k)) (map ename ((x, i) :: m))).
      { intros Hin. apply in_map_iff in Hin as (e & E & He).
        rewrite Forall_forall in Hlt, HF. specialize (Hlt e He). destruct (HF e He) as [Ke _].
        assert (fst e = k) by (apply keyed_name; auto). subst k.
        rewrite (prop_irrefl ok Hm) in Hlt; [discriminate|]. now apply keyed_ok. }
      split; [|split].
      * cbn [map fst snd]. constructor; [exact HS|]. change (snd x :: map ekey m) with (map ekey ((x, i) :: m)).
        now rewrite Forall_map.
      * constructor; cbn.
        -- split; [exact Hk|]. now rewrite H1, H0.
        -- rewrite Forall_forall in *. intros e He. destruct (HF e He) as [Ke Ee]. split; [exact Ke|].
           rewrite H2; [exact Ee|]. intros Q. apply Hno. rewrite <- Q. apply in_map_iff. eauto.
      * intros name. cbn. intuition congruence.
    + assert (Hne : pr_name (snd k) <> pr_name (snd x)).
      { intros Q. assert (k = x) by (apply keyed_name; auto). subst x.
        rewrite (prop_irrefl ok Hm) in L2; [discriminate|]. now apply keyed_ok. }
      destruct IH as (I1 & I2 & I3); try assumption.
      { intros Q. apply H0. cbn. intuition congruence. }
      split; [|split].
      * cbn [map fst snd]. constructor; [exact I1|]. rewrite Forall_map. rewrite Forall_forall in *.
        intros e He.
        assert (Hin : In (ename e) (map ename (tmap_add k n from ops m))) by (apply in_map_iff; eauto).
        apply I3 in Hin as [Q|Hin].
        -- destruct (I2 e He) as [Ke _]. assert (fst e = k) by (apply keyed_name; auto). subst k. exact L2.
        -- apply in_map_iff in Hin as (e' & E' & He').
           destruct (I2 e He) as [Ke _], (HF' e' He') as [Ke' _].
           assert (fst e' = fst e) by (apply keyed_name; auto).
           rewrite <- H. apply HA. apply in_map_iff. eauto.
      * constructor; [|exact I2]. cbn. split; [exact Hx|]. rewrite H2 by congruence. exact Hi.
      * intros name. cbn. rewrite I3. intuition congruence.
    + assert (k = x) by (apply keyed_incomp; auto). subst x.
      split; [exact HS|split].
      * constructor; cbn.
        -- split; [exact Hk|]. now rewrite H1, Hi.
        -- cbn [map] in HA. rewrite Forall_map in HA. rewrite Forall_forall in *. intros e He.
           destruct (HF' e He) as [Ke Ee]. split; [exact Ke|].
           rewrite H2; [exact Ee|]. intros Q. assert (fst e = k) by (apply keyed_name; auto).
           specialize (HA e He). rewrite H in HA. rewrite (prop_irrefl ok Hm) in HA; [discriminate|]. now apply keyed_ok.
      * intros name. cbn. intuition congruence.
Qed.

Lemma map_of_iff xl m : term_map_of props xl m <->
  sorted_m m /\ has (info xl) m /\ (forall name, In name (map ename m) <-> In name (map x_P xl)).
Proof. unfold term_map_of, sorted_m, has, entry_of, keyed, info. tauto. Qed.

Lemma fold_load xl : forall pre m s, term_map_of props pre m ->
  List.Forall (known props) xl -> nonneg xl ->
  exists m', ofold (term_step props) (m, s) xl = Ok (m', (s + sum_n xl)%Z) /\ term_map_of props (pre ++ xl) m'.
Proof.
  induction xl as [|t xl IH]; intros pre m s Hpre HK HN.
  - exists m. cbn. split; [f_equal; f_equal; unfold sum_n; cbn; lia|now rewrite app_nil_r].
  - inversion HK as [|a b K1 K2]; subst. inversion HN as [|a b N1 N2]; subst.
    cbn [ofold]. unfold term_step at 1. destruct (known_first _ _ K1) as (i & p & F).
    rewrite (db_at_first _ _ _ _ F). cbn [obind]. replace (xt_n t <? 0)%Z with false by lia. cbn [obind fst snd].
    apply map_of_iff in Hpre as (P1 & P2 & P3). pose proof F as (_ & Fn & _).
    destruct (add_spec (info pre) (info (pre ++ [t])) (i, p) (xt_n t) (xt_from t) (xt_ops t) m) as (Q1 & Q2 & Q3);
      try assumption; cbn [snd] in *.
    + exact (first_self _ _ _ _ F).
    + rewrite P3. apply info_absent.
    + rewrite Fn. now apply info_snoc_same.
    + rewrite Fn. intros. now apply info_snoc_other.
    + destruct (IH (pre ++ [t]) (tmap_add (i, p) (xt_n t) (xt_from t) (xt_ops t) m) (s + xt_n t)%Z) as (m' & E & M);
        try assumption.
      { apply map_of_iff. split; [exact Q1|split; [exact Q2|]]. intros name. rewrite Q3, P3, map_app, in_app_iff, Fn.
        cbn. intuition. }
      exists m'. rewrite E, <- app_assoc in *. split; [|exact M]. f_equal. f_equal. unfold sum_n. cbn. lia.
Qed.

Lemma map_checks xl m : term_map_of props xl m -> forallb ti_ok m = true.
Proof.
  intros (_ & _ & H). apply forallb_forall. rewrite Forall_forall in H. intros e He.
  destruct (H e He) as [_ E]. unfold ti_ok. rewrite E. cbn.
  rewrite <- count_froms, <- count_ops. lia.
Qed.

Lemma load_terms_ok xl : List.Forall (known props) xl -> nonneg xl ->
  exists m, loadAndSortTerms props xl = Ok (m, sum_n xl) /\ term_map_of props xl m.
Proof.
  intros HK HN. unfold loadAndSortTerms.
  destruct (fold_load xl [] [] 0%Z) as (m & E & M); try assumption.
  { apply map_of_iff. split; [constructor|split; [constructor|]]. cbn; tauto. }
  unfold tmap in *. rewrite E. cbn [obind fst]. rewrite (map_checks xl m) by exact M. exists m. auto.
Qed.
End Load.

Section LoadAny.
Context {N : Num} (props : list (prop N)).

Lemma fold_unknown xl : forall s, nonneg xl -> ~ List.Forall (known props) xl ->
  ofold (term_step props) s xl = Throw ExnRuntime.
Proof.
  induction xl as [|t xl IH]; intros s HN HK; [destruct HK; constructor|].
  inversion HN; subst. cbn [ofold]. unfold term_step at 1.
  destruct (in_dec string_dec (x_P t) (map (pr_name (N:=N)) props)) as [K|K].
  - destruct (known_first _ _ K) as (i & p & F). rewrite (db_at_first _ _ _ _ F). cbn [obind].
    replace (xt_n t <? 0)%Z with false by lia. cbn [obind]. apply IH; [assumption|].
    intros Q. apply HK. now constructor.
  - now rewrite db_at_unknown.
Qed.
Lemma load_terms_unknown xl : nonneg xl -> ~ List.Forall (known props) xl ->
  loadAndSortTerms props xl = Throw ExnRuntime.
Proof. intros HN HK. unfold loadAndSortTerms. now rewrite fold_unknown. Qed.

Lemma fold_inv xl : forall s r, ofold (term_step props) s xl = Ok r ->
  List.Forall (known props) xl /\ nonneg xl /\ snd r = (snd s + sum_n xl)%Z.
Proof.
  induction xl as [|t xl IH]; intros s r; cbn [ofold].
  - intros [= <-]. repeat split; try constructor. unfold sum_n; cbn; lia.
  - unfold term_step at 1.
    destruct (in_dec string_dec (x_P t) (map (pr_name (N:=N)) props)) as [K|K];
      [|now rewrite db_at_unknown].
    destruct (known_first _ _ K) as (i & p & F). rewrite (db_at_first _ _ _ _ F). cbn [obind].
    destruct (xt_n t <? 0)%Z eqn:L; [discriminate|]. cbn [obind]. intros H.
    apply IH in H as (A & B & C). split; [now constructor|split].
    + constructor; [lia|exact B].
    + rewrite C. cbn. unfold sum_n. cbn. lia.
Qed.
Lemma load_terms_inv xl r : loadAndSortTerms props xl = Ok r ->
  List.Forall (known props) xl /\ nonneg xl /\ snd r = sum_n xl.
Proof.
  unfold loadAndSortTerms. destruct (ofold _ _ _) as [s| | |] eqn:E; cbn; try discriminate.
  destruct (forallb _ _); [|discriminate]. intros [= <-]. apply fold_inv in E. cbn in E. exact E.
Qed.
(** A failure of loading one side is always an exception. *)
Lemma load_terms_throw xl : (exists r, loadAndSortTerms props xl = Ok r) \/ (exists e, loadAndSortTerms props xl = Throw e).
Proof.
  unfold loadAndSortTerms.
  assert (H : forall l s, (exists r, ofold (term_step props) s l = Ok r) \/ (exists e, ofold (term_step props) s l = Throw e)).
  { induction l as [|t l IH]; intros s; cbn [ofold]; [eauto|]. unfold term_step at 1 3.
    destruct (in_dec string_dec (x_P t) (map (pr_name (N:=N)) props)) as [K|K];
      [|right; rewrite db_at_unknown by exact K; cbn; eauto].
    destruct (known_first _ _ K) as (i & p & F). rewrite (db_at_first _ _ _ _ F). cbn [obind].
    destruct (xt_n t <? 0)%Z; cbn [obind]; [eauto|apply IH]. }
  destruct (H xl ([], 0%Z)) as [[r E]|[e E]]; rewrite E; cbn; [|eauto].
  destruct (forallb _ _); eauto.
Qed.
End LoadAny.
