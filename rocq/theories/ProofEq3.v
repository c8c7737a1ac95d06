(** Elastic recognition of loaded equations. *)
From Coq Require Import String List ZArith Bool Arith Lia Sorted Permutation.
From Verif Require Import Base Num ModelTerm ModelCollide ModelXsec ModelSet ModelEq
  SpecTerm SpecEq ProofTerm ProofOrder ProofEq ProofEq2 ProofInelastic.
Import List ListNotations.

Lemma concat_const {A} (f : xterm -> A) (c : A) l : List.Forall (fun t => f t = c) l ->
  concat (map (fun t => repeat (f t) (Z.to_nat (xt_n t))) l) =
  repeat c (length (concat (map (fun t => repeat (f t) (Z.to_nat (xt_n t))) l))).
Proof.
  induction 1 as [|t l H _ IH]; [reflexivity|]. cbn. rewrite app_length, repeat_app, repeat_length, H, <- IH. reflexivity.
Qed.
Lemma Forall_filter {A} (P : A -> Prop) f (l : list A) : List.Forall P l -> List.Forall P (filter f l).
Proof. rewrite !Forall_forall. intros H x Hx. apply filter_In in Hx. now apply H. Qed.
Lemma no_from_froms xl x : no_from xl -> froms_of xl x = repeat (-1)%Z (count_name xl x).
Proof. intros H. rewrite count_froms. unfold froms_of. apply concat_const. now apply Forall_filter. Qed.
Lemma no_ops_ops xl x : no_ops xl -> ops_of xl x = repeat ""%string (count_name xl x).
Proof. intros H. rewrite count_ops. unfold ops_of. apply concat_const. now apply Forall_filter. Qed.
Lemma perm_counts xl yl : Permutation (expand_names xl) (expand_names yl) <-> (forall x, count_name xl x = count_name yl x).
Proof. apply (Permutation_count_occ string_dec). Qed.
Lemma count_names xl x : positive xl -> In x (map x_P xl) <-> 1 <= count_name xl x.
Proof.
  intros H. split; [now apply count_present|]. intros L.
  destruct (in_dec string_dec x (map x_P xl)) as [I|I]; [exact I|]. rewrite count_absent in L by exact I. lia.
Qed.

Section El.
Context {N : Num} (ok : N -> Prop) (Hm : mass_order ok).
Variable props : list (prop N).
Hypothesis Hok : masses_ok ok props.

Definition kset (xl : list xterm) (k : Z * Z * list Z) : Prop :=
  exists x i p, In x (map x_P xl) /\ first_named props x i p /\
    k = (Z.of_nat i, Z.of_nat (count_name xl x), repeat (-1)%Z (count_name xl x)).

Lemma first_same_index x y i p q : first_named props x i p -> first_named props y i q -> x = y.
Proof. intros (A & An & _) (B & Bn & _). congruence. Qed.

Lemma kset_eq xl yl : positive xl -> positive yl -> List.Forall (known props) xl -> List.Forall (known props) yl ->
  (forall k, kset xl k <-> kset yl k) <-> Permutation (expand_names xl) (expand_names yl).
Proof.
  intros PX PY KX KY. rewrite perm_counts.
  assert (K : forall zl x, List.Forall (known props) zl -> In x (map x_P zl) -> exists i p, first_named props x i p).
  { intros zl x HF Hx. apply in_map_iff in Hx as (t & <- & Ht). rewrite Forall_forall in HF. apply known_first. now apply HF. }
  assert (G : forall zl wl x, List.Forall (known props) zl -> (forall k, kset zl k -> kset wl k) ->
      In x (map x_P zl) -> In x (map x_P wl) /\ count_name zl x = count_name wl x).
  { intros zl wl x HK HS Hx. destruct (K zl x HK Hx) as (i & p & F).
    destruct (HS (Z.of_nat i, Z.of_nat (count_name zl x), repeat (-1)%Z (count_name zl x))) as (y & j & q & Hy & F' & E).
    { exists x, i, p. auto. }
    injection E as E1 E2 _. apply Nat2Z.inj in E1, E2. subst j. rewrite <- (first_same_index _ _ _ _ _ F F') in *. auto. }
  split.
  - intros H x. destruct (in_dec string_dec x (map x_P xl)) as [I|I].
    + apply (G xl yl x KX); [intros k; apply H|exact I].
    + destruct (in_dec string_dec x (map x_P yl)) as [J|J].
      * symmetry. apply (G yl xl x KY); [intros k; apply H|exact J].
      * now rewrite !count_absent.
  - intros H k. split; intros (x & i & p & Hx & F & ->); exists x, i, p.
    + rewrite count_names in Hx by exact PX. rewrite H in *. split; [|auto]. now apply count_names.
    + rewrite count_names in Hx by exact PY. rewrite <- H in *. split; [|auto]. now apply count_names.
Qed.

Lemma products_keys xl m : no_from xl -> term_map_of props xl m -> forall k,
  In k (map tkey (map (fun e => mkTerm (Z.of_nat (fst (fst e))) (ti_n (snd e)) (ti_from (snd e)) (ti_ops (snd e))) m))
  <-> kset xl k.
Proof.
  intros NF M k. rewrite map_map. split.
  - intros H. apply in_map_iff in H as (e & <- & He). destruct (map_entries props _ _ e M He) as (i & p & -> & F & Hin).
    exists (pr_name p), i, p. split; [exact Hin|split; [exact F|]]. unfold tkey. cbn. now rewrite no_from_froms.
  - intros (x & i & p & Hx & F & ->). pose proof M as (_ & B & _). apply B in Hx. apply in_map_iff in Hx as (e & E & He).
    apply in_map_iff. exists e. split; [|exact He].
    destruct (map_entries props _ _ e M He) as (j & q & -> & F' & Hin). cbn in E. subst x.
    destruct (first_named_unique _ _ _ _ _ _ F F') as [<- <-]. unfold tkey. cbn. now rewrite no_from_froms.
Qed.
Lemma products_nodup xl m : term_map_of props xl m ->
  NoDup (map t_species (map (fun e => mkTerm (Z.of_nat (fst (fst e))) (ti_n (snd e)) (ti_from (snd e)) (ti_ops (snd e))) m)).
Proof.
  intros M. pose proof (map_nodup ok Hm props Hok xl m M) as ND. rewrite map_map. cbn [t_species].
  assert (K := fun e => map_entries props xl m e M). clear M.
  induction m as [|e m IH]; cbn; [constructor|]. cbn in ND. inversion ND as [|a b N1 N2]; subst.
  constructor; [|apply IH; [exact N2|intros; apply K; now right]].
  intros H. apply N1. apply in_map_iff in H as (e' & E & He'). apply in_map_iff. exists e'. split; [|exact He'].
  destruct (K e) as (i & p & -> & F & _); [now left|]. destruct (K e') as (j & q & -> & F' & _); [now right|].
  cbn in *. apply Nat2Z.inj in E. subst j. exact (first_same_index _ _ _ _ _ F' F).
Qed.

Lemma inputs_keys xl iA pA iB pB : positive xl ->
  first_named props (pr_name pA) iA pA -> first_named props (pr_name pB) iB pB ->
  Permutation [pr_name pA; pr_name pB] (expand_names xl) ->
  forall k, In k (map tkey (if (Z.of_nat iA =? Z.of_nat iB)%Z then [term_sn (Z.of_nat iA) 2]
                            else [term_sp (Z.of_nat iA); term_sp (Z.of_nat iB)])) <-> kset xl k.
Proof.
  intros PX FA FB P k.
  assert (C : forall x, count_name xl x = count_occ string_dec [pr_name pA; pr_name pB] x)
    by (intros x; symmetry; now apply (Permutation_count_occ string_dec)).
  assert (I : forall x, In x (map x_P xl) <-> x = pr_name pA \/ x = pr_name pB).
  { intros x. rewrite count_names by exact PX. rewrite C. cbn.
    destruct (string_dec (pr_name pA) x), (string_dec (pr_name pB) x); intuition (try congruence; try lia). }
  destruct (Z.eqb_spec (Z.of_nat iA) (Z.of_nat iB)) as [E|E].
  - apply Nat2Z.inj in E. subst iB. pose proof (first_same_index _ _ _ _ _ FA FB) as En. rewrite <- En in *.
    assert (CA : count_name xl (pr_name pA) = 2) by (rewrite C; cbn; destruct string_dec; congruence).
    cbn [map In]. split.
    + intros [<-|[]]. exists (pr_name pA), iA, pA. rewrite I, CA. split; [auto|split; [exact FA|reflexivity]].
    + intros (x & i & p & Hx & F & ->). apply I in Hx. assert (x = pr_name pA) by tauto. subst x.
      destruct (first_named_unique _ _ _ _ _ _ F FA) as [-> _]. rewrite CA. left. reflexivity.
  - assert (En : pr_name pA <> pr_name pB).
    { intros Q. rewrite Q in FA. destruct (first_named_unique _ _ _ _ _ _ FA FB). congruence. }
    assert (CA : count_name xl (pr_name pA) = 1) by (rewrite C; cbn; destruct (string_dec (pr_name pA) (pr_name pA)), (string_dec (pr_name pB) (pr_name pA)); congruence).
    assert (CB : count_name xl (pr_name pB) = 1) by (rewrite C; cbn; destruct (string_dec (pr_name pB) (pr_name pB)), (string_dec (pr_name pA) (pr_name pB)); congruence).
    cbn [map In]. split.
    + intros [<-|[<-|[]]].
      * exists (pr_name pA), iA, pA. rewrite I, CA. split; [auto|split; [exact FA|reflexivity]].
      * exists (pr_name pB), iB, pB. rewrite I, CB. split; [auto|split; [exact FB|reflexivity]].
    + intros (x & i & p & Hx & F & ->). apply I in Hx as [->| ->].
      * destruct (first_named_unique _ _ _ _ _ _ F FA) as [-> _]. rewrite CA. left. reflexivity.
      * destruct (first_named_unique _ _ _ _ _ _ F FB) as [-> _]. rewrite CB. right; left. reflexivity.
Qed.

(** isElastic of a loaded equation. *)
Lemma isElastic_loaded xin xout e same : load_core props xin xout = Ok (e, same) ->
  positive xin -> positive xout -> no_from xout ->
  isElastic (e_A e) (e_B e) (e_products e) = true <-> Permutation (expand_names xin) (expand_names xout).
Proof.
  intros L PI PO NF. pose proof (core_inv _ _ _ _ _ L) as (KI & KO & _ & _ & S).
  destruct (core_ok ok Hm props Hok xin xout KI KO PI (positive_nonneg _ PO) S)
    as (e' & same' & iA & pA & iB & pB & mi & mo & L' & EA & EB & FA & FB & _ & P & _ & _ & _ & Mi & Mo & _ & EP).
  rewrite L in L'. injection L' as <- <-. rewrite EA, EB, EP. unfold isElastic. cbn [t_species term_sp].
  rewrite <- (kset_eq xin xout PI PO KI KO).
  pose proof (inputs_keys xin iA pA iB pB PI FA FB P) as HI.
  pose proof (products_keys xout mo NF Mo) as HO.
  assert (ND : NoDup (map t_species (if (Z.of_nat iA =? Z.of_nat iB)%Z then [term_sn (Z.of_nat iA) 2]
                            else [term_sp (Z.of_nat iA); term_sp (Z.of_nat iB)]))).
  { destruct (Z.eqb_spec (Z.of_nat iA) (Z.of_nat iB)); cbn; repeat constructor; cbn; intuition congruence. }
  replace (if (Z.of_nat iA =? Z.of_nat iB)%Z then tset_of [term_sn (Z.of_nat iA) 2]
           else tset_of [term_sp (Z.of_nat iA); term_sp (Z.of_nat iB)])
    with (tset_of (if (Z.of_nat iA =? Z.of_nat iB)%Z then [term_sn (Z.of_nat iA) 2]
                            else [term_sp (Z.of_nat iA); term_sp (Z.of_nat iB)]))
    by (destruct (Z.of_nat iA =? Z.of_nat iB)%Z; reflexivity).
  rewrite tset_eq_keys; [|exact ND|exact (products_nodup xout mo Mo)].
  split; intros H k; specialize (H k); rewrite HI, HO in *; exact H.
Qed.

(** ** The default interaction model *)
Lemma sorted_unique (l : list (nat * prop N)) : forall l',
  List.Forall (keyed props) l -> List.Forall (keyed props) l' ->
  ascending (map snd l) -> ascending (map snd l') -> (forall k, In k l <-> In k l') -> l = l'.
Proof.
  unfold ascending. induction l as [|k l IH]; intros [|k' l'] F F' S S' H; [reflexivity| | |].
  - destruct (proj2 (H k')); now left.
  - destruct (proj1 (H k)); now left.
  - cbn in S, S'. inversion S as [|? ? S1 S2]; subst. inversion S' as [|? ? S1' S2']; subst.
    inversion F as [|? ? F1 F2]; subst. inversion F' as [|? ? F1' F2']; subst.
    assert (Hlt : forall (z : nat * prop N) (l : list (nat * prop N)), List.Forall (fun b => prop_ltb (snd z) b = true) (map snd l) -> forall y : nat * prop N, In y l -> prop_ltb (snd z) (snd y) = true).
    { intros z m HF y Hy. rewrite Forall_map, Forall_forall in HF. now apply HF. }
    assert (E : k = k').
    { destruct (proj1 (H k) (or_introl eq_refl)) as [E|E]; [easy|].
      destruct (proj2 (H k') (or_introl eq_refl)) as [E'|E']; [easy|].
      apply (Hlt k' l' S2') in E. apply (Hlt k l S2) in E'.
      rewrite (prop_asym ok Hm) in E; [discriminate| | |exact E']; apply (keyed_ok ok props Hok); assumption. }
    subst k'. f_equal. apply IH; try assumption. intros y. split; intros Hy.
    + destruct (proj1 (H y) (or_intror Hy)) as [Q|Q]; [|exact Q]. subst y. apply (Hlt k l S2) in Hy.
      rewrite (prop_irrefl ok Hm) in Hy; [discriminate|]. now apply (keyed_ok ok props Hok).
    + destruct (proj2 (H y) (or_intror Hy)) as [Q|Q]; [|exact Q]. subst y. apply (Hlt k l' S2') in Hy.
      rewrite (prop_irrefl ok Hm) in Hy; [discriminate|]. now apply (keyed_ok ok props Hok).
Qed.
Lemma map_canon xl m : term_map_of props xl m -> m = map (fun k => (k, info xl (pr_name (snd k)))) (map fst m).
Proof.
  intros M. assert (K := fun e => map_entries props xl m e M). clear M.
  induction m as [|e m IH]; [reflexivity|]. cbn. rewrite <- IH by (intros; apply K; now right).
  destruct (K e) as (i & p & -> & _); [now left|]. reflexivity.
Qed.
Lemma tmap_eqb_iff (a b : tmap N) : tmap_eqb a b = true <->
  map (fun e => (fst (fst e), snd e)) a = map (fun e => (fst (fst e), snd e)) b.
Proof.
  revert b; induction a as [|[k i] a IH]; intros [|[k' i'] b]; cbn; try (split; [easy|discriminate]); [tauto|].
  rewrite !andb_true_iff, IH, Nat.eqb_eq, Z.eqb_eq, listZ_eqb_eq. unfold liststr_eqb.
  destruct i as [n f o], i' as [n' f' o']; cbn [ti_n ti_from ti_ops]. destruct (list_eq_dec string_dec o o') as [Q|Q].
  - subst o'. split; [intros [[-> [[-> ->] _]] ->]; reflexivity|]. intros [= -> -> -> ->]. auto.
  - split; [intros [[_ [_ H]] _]; discriminate|]. intros [= -> -> -> Q' ->]. congruence.
Qed.
Lemma same_iff xin xout mi mo : term_map_of props xin mi -> term_map_of props xout mo ->
  tmap_eqb mi mo = true <-> sides_agree xin xout.
Proof.
  intros Mi Mo. rewrite tmap_eqb_iff.
  assert (KI := fun e => map_entries props xin mi e Mi). assert (KO := fun e => map_entries props xout mo e Mo).
  pose proof Mi as (Si & Bi & _). pose proof Mo as (So & Bo & _).
  assert (G : forall xl yl (m m' : tmap N), term_map_of props xl m -> term_map_of props yl m' ->
      map (fun e => (fst (fst e), snd e)) m = map (fun e => (fst (fst e), snd e)) m' ->
      forall x, In x (map x_P xl) -> In x (map x_P yl) /\ info xl x = info yl x).
  { clear. intros xl yl m m' M M' E x Hx. pose proof M as (_ & B & _). apply B in Hx.
    apply in_map_iff in Hx as (e & En & He).
    assert (Hin : In (fst (fst e), snd e) (map (fun e => (fst (fst e), snd e)) m')).
    { rewrite <- E. exact (in_map (fun e => (fst (fst e), snd e)) m e He). }
    apply in_map_iff in Hin as (e' & Ee & He').
    destruct (map_entries props _ _ e M He) as (i & p & -> & F & _).
    destruct (map_entries props _ _ e' M' He') as (j & q & -> & F' & Hq).
    cbn in *. injection Ee as -> Hi1 Hi2 Hi3. rewrite <- (first_same_index _ _ _ _ _ F F') in *. subst x.
    split; [exact Hq|]. unfold info. congruence. }
  split.
  - intros E. split.
    + intros x. split; intros Hx; [now apply (G xin xout mi mo)|now apply (G xout xin mo mi)].
    + intros x. assert (Q : info xin x = info xout x).
      { destruct (in_dec string_dec x (map x_P xin)) as [I|I]; [now apply (G xin xout mi mo)|].
        destruct (in_dec string_dec x (map x_P xout)) as [J|J]; [symmetry; now apply (G xout xin mo mi)|].
        now rewrite !info_absent. }
      unfold info in Q. injection Q as Q1 Q2 Q3. apply Nat2Z.inj in Q1. auto.
  - intros [HN HI]. rewrite (map_canon _ _ Mi), (map_canon _ _ Mo).
    assert (E : map fst mi = map fst mo).
    { apply sorted_unique.
      - apply Forall_forall. intros k Hk. apply in_map_iff in Hk as (e & <- & He).
        destruct (KI e He) as (i & p & -> & F & _). exact F.
      - apply Forall_forall. intros k Hk. apply in_map_iff in Hk as (e & <- & He).
        destruct (KO e He) as (i & p & -> & F & _). exact F.
      - rewrite map_map. exact Si.
      - rewrite map_map. exact So.
      - assert (G2 : forall xl yl (m m' : tmap N), term_map_of props xl m -> term_map_of props yl m' ->
           (forall x, In x (map x_P xl) -> In x (map x_P yl)) -> forall k, In k (map fst m) -> In k (map fst m')).
        { clear. intros xl yl m m' M M' H k Hk. apply in_map_iff in Hk as (e & <- & He).
          destruct (map_entries props _ _ e M He) as (i & p & -> & F & Hp). apply H in Hp.
          pose proof M' as (_ & B & _). apply B in Hp. apply in_map_iff in Hp as (e' & En & He').
          apply in_map_iff. exists e'. split; [|exact He'].
          destruct (map_entries props _ _ e' M' He') as (j & q & -> & F' & _). cbn in *. rewrite <- En in F.
          destruct (first_named_unique _ _ _ _ _ _ F F') as [-> ->]. reflexivity. }
        intros k. split; [apply (G2 xin xout mi mo)|apply (G2 xout xin mo mi)]; try assumption; apply HN. }
    rewrite E, !map_map. apply map_ext. intros e. cbn. f_equal.
    destruct (HI (pr_name (snd (fst e)))) as (A & B & C). unfold info. now rewrite A, B, C.
Qed.

Lemma same_loaded xin xout e same : load_core props xin xout = Ok (e, same) -> positive xin ->
  same = true <-> sides_agree xin xout.
Proof.
  intros L PI. pose proof (core_inv _ _ _ _ _ L) as (KI & KO & _ & NO & S).
  destruct (core_ok ok Hm props Hok xin xout KI KO PI NO S)
    as (e' & same' & iA & pA & iB & pB & mi & mo & L' & _ & _ & _ & _ & _ & _ & _ & _ & _ & Mi & Mo & Es & _).
  rewrite L in L'. injection L' as _ <-. rewrite Es. now apply same_iff.
Qed.
Lemma agree_plain xin xout : positive xin -> positive xout -> no_from xin -> no_from xout -> no_ops xin -> no_ops xout ->
  sides_agree xin xout <-> Permutation (expand_names xin) (expand_names xout).
Proof.
  intros PI PO FI FO OI OO. rewrite perm_counts. split.
  - intros [_ H] x. apply H.
  - intros H. split.
    + intros x. now rewrite !count_names, H by assumption.
    + intros x. rewrite !no_from_froms, !no_ops_ops, H by assumption. auto.
Qed.
End El.

(** ** Totality of loading the core *)
Section Total.
Context {N : Num} (ok : N -> Prop) (Hm : mass_order ok).
Variable props : list (prop N).
Hypothesis Hok : masses_ok ok props.

Lemma single_name xl x : nonneg xl -> (forall y, In y (map x_P xl) -> y = x) -> sum_n xl = Z.of_nat (count_name xl x).
Proof.
  intros HN H. rewrite sum_expand by exact HN. f_equal. unfold count_name.
  assert (G : forall l : list string, (forall y, In y l -> y = x) -> length l = count_occ string_dec l x).
  { induction l as [|a l IH]; intros Hl; [reflexivity|]. cbn. destruct string_dec as [E|E].
    - rewrite <- IH; [reflexivity|]. intros; apply Hl; now right.
    - destruct E. apply Hl. now left. }
  apply G. intros y Hy. apply H. now apply expand_In.
Qed.
Lemma inputs_total xl m : nonneg xl -> sum_n xl = 2%Z -> term_map_of props xl m ->
  exists i p j q, load_inputs props m = Ok (mkInput (term_sp (Z.of_nat i)) (term_sp (Z.of_nat j))) /\
    first_named props (pr_name p) i p /\ first_named props (pr_name q) j q.
Proof.
  intros HN HS M. destruct m as [|e m].
  { exfalso. destruct M as (_ & B & _). destruct xl as [|t xl]; [discriminate|].
    apply (B (x_P t)). now left. }
  destruct (map_entries props _ _ e M) as (i & p & -> & F & Hin); [now left|].
  cbn [load_inputs fst snd]. rewrite (indx_first _ _ _ _ F). cbn [info ti_n].
  destruct (Z.eqb_spec (Z.of_nat (count_name xl (pr_name p)) - 1) 0) as [C|C].
  - destruct m as [|e' m].
    + exfalso. rewrite (single_name xl (pr_name p)) in HS; [lia|exact HN|].
      intros y Hy. destruct M as (_ & B & _). apply B in Hy. cbn in Hy. destruct Hy as [->|[]]. reflexivity.
    + destruct (map_entries props _ _ e' M) as (i' & p' & -> & F' & Hin'); [now right; left|]. cbn [fst snd].
      rewrite (indx_first _ _ _ _ F'). exists i, p, i', p'. auto.
  - exists i, p, i, p. auto.
Qed.
Lemma core_total xin xout : List.Forall (known props) xin -> List.Forall (known props) xout ->
  nonneg xin -> nonneg xout -> sum_n xin = 2%Z -> exists r, load_core props xin xout = Ok r.
Proof.
  intros KI KO PI NO S.
  destruct (load_terms_ok ok Hm props Hok xin KI PI) as (mi & Ei & Mi).
  destruct (load_terms_ok ok Hm props Hok xout KO NO) as (mo & Eo & Mo).
  destruct (inputs_total xin mi PI S Mi) as (i & p & j & q & EI & FA & FB).
  destruct (products_ok props xout mo Mo) as (l & El & Fl & Ll).
  unfold load_core. rewrite Ei. cbn [obind]. rewrite Eo. cbn [obind fst snd]. rewrite S. cbn [Z.eqb Pos.eqb negb].
  rewrite EI. cbn [obind in_A in_B t_species term_sp].
  rewrite (db_get_first _ _ _ _ FA), (db_get_first _ _ _ _ FB). cbn [obind]. rewrite El. cbn [obind]. eauto.
Qed.
Lemma core_no_ub xin xout : load_core props xin xout <> UB /\ load_core props xin xout <> Diverge.
Proof.
  destruct (load_terms_throw props xin) as [[ri Ei]|[e Ei]];
    [|unfold load_core; rewrite Ei; split; discriminate].
  destruct (load_terms_throw props xout) as [[ro Eo]|[e Eo]];
    [|unfold load_core; rewrite Ei; cbn [obind]; rewrite Eo; split; discriminate].
  destruct (load_terms_inv _ _ _ Ei) as (A & B & C), (load_terms_inv _ _ _ Eo) as (A' & B' & C').
  destruct (Z.eq_dec (sum_n xin) 2) as [S|S].
  - destruct (core_total xin xout) as [r E]; try assumption. rewrite E. split; discriminate.
  - rewrite (core_not_two props xin xout); try assumption; [split; discriminate|]. exists ok. auto.
Qed.

Lemma load_equation_core reg x q : load_equation reg props x = Ok q ->
  exists same, load_core props (xi_in x) (xi_out x) = Ok (q_core q, same) /\
    exists load, r_im reg (model_label x same) = Some load /\ load props x (q_core q) (q_cs q) = Ok (q_model q) /\
    load_cs reg x (q_core q) = Ok (q_cs q).
Proof.
  unfold load_equation. intros H. apply obind_ok in H as ([e same] & E & H). apply obind_ok in H as (cs & Ec & H).
  destruct (r_im reg (model_label x same)) as [load|] eqn:Er; [|discriminate].
  apply obind_ok in H as (m & Em & H). injection H as <-. exists same. split; [exact E|]. exists load. auto.
Qed.
Lemma load_equation_fail reg x e : load_core props (xi_in x) (xi_out x) = Throw e -> load_equation reg props x = Throw e.
Proof. intros H. unfold load_equation. now rewrite H. Qed.

(** The number of products. *)
Lemma count_from_species l : forall s, List.Forall (fun t => (0 <= t_n t)%Z) l -> (0 <= s)%Z ->
  (s + Z.of_nat (length (expand_species l)) < 4294967296)%Z ->
  fold_left (fun s t => u32 (s + t_n t)) l s = (s + Z.of_nat (length (expand_species l)))%Z.
Proof.
  induction l as [|t l IH]; intros s HF Hs Hb; cbn; [lia|].
  inversion HF as [|a b H1 H2]; subst. unfold expand_species in *. cbn in *. rewrite app_length, repeat_length in *.
  unfold u32 at 2. rewrite Z.mod_small by lia. rewrite IH; [lia|exact H2|lia|lia].
Qed.
Lemma number_products xl l : List.Forall (product_of props xl) l ->
  Permutation (expand_species l) (map (findParticleIndx props) (expand_names xl)) ->
  (Z.of_nat (length (expand_names xl)) < 4294967296)%Z ->
  countComponents l = Z.of_nat (length (expand_names xl)).
Proof.
  intros HF P B. apply Permutation_length in P. rewrite map_length in P.
  unfold countComponents. rewrite count_from_species; [lia| |lia|lia].
  eapply Forall_impl; [|exact HF]. intros t (i & p & _ & _ & ->). cbn. lia.
Qed.
End Total.
