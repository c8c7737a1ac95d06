(** Proofs about the creation of missing elastic cross sections. *)
From Coq Require Import String Ascii List ZArith Bool Arith Lia Sorted Permutation.
From Verif Require Import Base Num ModelTerm ModelCollide ModelXsec ModelSet ModelEq ModelFilter ModelDB
  SpecTerm SpecEq SpecFilter SpecDB ProofTerm ProofInelastic ProofOrder ProofEq ProofEq2 ProofEq3
  ProofFilter ProofFilter3 ProofTop4 ProofDB.
From Coq Require Import List.
Import ListNotations.

Section P.
Context {N : Num}.
Notation P := (prop N).

Lemma find_push (s : sets N) i j q k : cell_find (cell_push s i j q) k =
  match cell_find s k with
  | Some l => Some (if key_eqb (cell_key i j) k then l ++ [q] else l)
  | None => None
  end.
Proof.
  induction s as [|[k' l] s IH]; [reflexivity|]. cbn [cell_push map fst snd].
  destruct (key_eqb (cell_key i j) k') eqn:E1; cbn [cell_find fst snd]; destruct (key_eqb k k') eqn:E2; try exact IH.
  - apply key_eqb_spec in E2 as ->. now rewrite E1.
  - apply key_eqb_spec in E2 as ->. now rewrite E1.
Qed.
Lemma get_push (s : sets N) i j q a b : cell_get (cell_push s i j q) a b =
  match cell_get s a b with
  | Ok l => Ok (if key_eqb (cell_key i j) (cell_key a b) then l ++ [q] else l)
  | o => o
  end.
Proof. unfold cell_get. rewrite find_push. destruct (cell_find s (cell_key a b)); reflexivity. Qed.
Lemma key_same i j a b : key_eqb (cell_key i j) (cell_key a b) = true <-> (a = i /\ b = j) \/ (a = j /\ b = i).
Proof. rewrite key_eqb_spec. unfold cell_key. split; [intros E; injection E; lia|]. intros [[-> ->]|[-> ->]]; f_equal; lia. Qed.
Lemma push_diag (s : sets N) i j q a : i <> j -> cell_get (cell_push s i j q) a a = cell_get s a a.
Proof.
  intros H. rewrite get_push. destruct (key_eqb (cell_key i j) (cell_key a a)) eqn:E.
  - apply key_same in E. lia.
  - destruct (cell_get s a a); reflexivity.
Qed.
Lemma push_other (s : sets N) i j q a b : ~ ((a = i /\ b = j) \/ (a = j /\ b = i)) ->
  cell_get (cell_push s i j q) a b = cell_get s a b.
Proof.
  intros H. rewrite get_push. destruct (key_eqb (cell_key i j) (cell_key a b)) eqn:E.
  - apply key_same in E. contradiction.
  - destruct (cell_get s a b); reflexivity.
Qed.
Lemma push_self (s : sets N) i j q a b l : (a = i /\ b = j) \/ (a = j /\ b = i) -> cell_get s a b = Ok l ->
  cell_get (cell_push s i j q) a b = Ok (l ++ [q]).
Proof. intros H E. rewrite get_push, E. now rewrite (proj2 (key_same i j a b) H). Qed.

Lemma find_first (l : list (equation N)) q : getElastic l = Some q <-> first_elastic l q.
Proof.
  unfold getElastic, first_elastic. split.
  - induction l as [|x l IH]; cbn; [discriminate|]. destruct (eq_isElastic x) eqn:E.
    + intros H. injection H as <-. exists [], l. split; [reflexivity|]. split; [assumption|intros u []].
    + intros H. destruct (IH H) as (l1 & l2 & -> & E2 & F). exists (x :: l1), l2. split; [reflexivity|].
      split; [assumption|]. intros u [<-|Iu]; auto.
  - intros (l1 & l2 & -> & E & F). induction l1 as [|x l1 IH]; cbn.
    + now rewrite E.
    + rewrite F by now left. apply IH. intros u Iu. apply F. now right.
Qed.
Lemma has_none (l : list (equation N)) : hasElastic l = false <-> forall q, In q l -> eq_isElastic q = false.
Proof.
  unfold hasElastic. split.
  - intros H q I. destruct (eq_isElastic q) eqn:E; [|reflexivity]. rewrite <- H. symmetry. apply existsb_exists. eauto.
  - intros H. destruct (existsb eq_isElastic l) eqn:E; [|reflexivity]. apply existsb_exists in E as (q & I & E).
    rewrite H in E by assumption. discriminate.
Qed.

Lemma missing_ne vmax dv (s : sets N) a : ~ missing vmax dv s a a.
Proof.
  intros (l & la & lb & qa & qb & H1 & H2 & _ & H3 & (l1 & l2 & -> & E & _) & _). rewrite H1 in H2. injection H2 as ->.
  rewrite H3 in E; [discriminate|]. apply in_or_app. right. now left.
Qed.
Lemma missing_sym vmax dv (s : sets N) a b : missing vmax dv s a b -> missing vmax dv s b a.
Proof.
  intros (l & la & lb & qa & qb & H1 & H2 & H3 & H4 & H5 & H6 & H7).
  exists l, lb, la, qb, qa. rewrite cell_sym. unfold both_easy in *. repeat split; auto. tauto.
Qed.


Section Create.
Variables (K_B : N) (fuel : nat) (allowed : bool).
Variable props : list P.
Variables (vmax dv : N).
Notation n := (length props).
Notation made := (made K_B fuel allowed vmax dv props).
Notation missing := (missing vmax dv).
Notation create := (create_pair K_B fuel allowed props vmax dv).

Lemma made_sym s a b q : made s a b q -> made s b a q.
Proof.
  intros (x & y & px & py & mu & ca & cb & la & lb & qa & qb & H1 & H2 & H3 & H4 & H5 & H6 & H7 & H8 & H9 & H10 & H11 & H12 & H13).
  exists x, y, px, py, mu, ca, cb, lb, la, qb, qa. repeat (split; [tauto|]). assumption.
Qed.
Lemma made_elastic s a b q : a <> b -> made s a b q -> eq_isElastic q = true.
Proof.
  intros Ne (x & y & px & py & mu & ca & cb & la & lb & qa & qb & H1 & _ & _ & _ & _ & H6 & _).
  unfold eq_isElastic. rewrite H6. unfold isElastic. cbn.
  unfold e_A, e_B; cbn.
  destruct (Z.eqb_spec (Z.of_nat x) (Z.of_nat y)) as [E|_]; [lia|]. now apply tlist_eqb_keys.
Qed.
Lemma made_diag s s' a b q : cell_get s a a = cell_get s' a a -> cell_get s b b = cell_get s' b b -> made s a b q -> made s' a b q.
Proof. unfold SpecDB.made. intros -> ->. auto. Qed.
Lemma missing_diag s s' a b : cell_get s a b = cell_get s' a b -> cell_get s a a = cell_get s' a a -> cell_get s b b = cell_get s' b b ->
  missing s a b -> missing s' a b.
Proof. unfold SpecDB.missing. intros -> -> ->. auto. Qed.

Lemma neq_refl t : term_neqb t t = false.
Proof.
  unfold term_neqb. rewrite !Z.eqb_refl. unfold listZ_eqb. destruct (list_eq_dec Z.eq_dec (t_from t) (t_from t)); [reflexivity|contradiction].
Qed.
Lemma db_get_nth i (p : P) : nth_error props i = Some p -> db_get props (Z.of_nat i) = Ok p.
Proof.
  intros H. unfold db_get. destruct (Z.ltb_spec (Z.of_nat i) 0); [lia|]. rewrite Nat2Z.id. now apply oget_ok.
Qed.

(** One pair. *)
Lemma create_cases (s : sets N) k i j : complete n s -> like_plain n s -> i < n -> j < n ->
  (~ missing s i j /\ create (s, k) (i, j) = Ok (s, k)) \/
  (missing s i j /\ ((exists q, made s i j q /\ create (s, k) (i, j) = Ok (cell_push s i j q, (k + 1)%Z)) \/
     ((forall r, create (s, k) (i, j) <> Ok r) /\ exists la lb qa qb,
        cell_get s i i = Ok la /\ cell_get s j j = Ok lb /\ first_elastic la qa /\ first_elastic lb qb /\ ~ both_easy qa qb))).
Proof.
  intros C L Hi Hj.
  destruct (C i i Hi Hi) as [li Ei]. destruct (C j j Hj Hj) as [lj Ej]. destruct (C i j Hi Hj) as [l El].
  unfold create_pair. rewrite Ei, Ej, El. cbn [obind].
  destruct (hasElastic l) eqn:Hl.
  { left. split; [|reflexivity]. intros (l' & la & lb & qa & qb & H1 & _ & _ & H4 & _).
    rewrite El in H1. injection H1 as <-. apply has_none in H4. congruence. }
  destruct (getElastic li) as [qi|] eqn:Gi.
  2: { left. split; [|reflexivity]. intros (l' & la & lb & qa & qb & _ & H2 & _ & _ & H5 & _).
       rewrite Ei in H2. injection H2 as <-. apply find_first in H5. congruence. }
  destruct (getElastic lj) as [qj|] eqn:Gj.
  2: { left. split; [|reflexivity]. intros (l' & la & lb & qa & qb & _ & _ & H3 & _ & _ & H6 & _).
       rewrite Ej in H3. injection H3 as <-. apply find_first in H6. congruence. }
  assert (Ne : i <> j).
  { intros ->. rewrite El in Ei. injection Ei as ->.
    apply find_first in Gi as (l1 & l2 & -> & E & _).
    rewrite (proj1 (has_none _) Hl) in E; [discriminate|]. apply in_or_app. right. now left. }
  rewrite (proj2 (Nat.eqb_neq i j) Ne).
  apply find_first in Gi as Fi. apply find_first in Gj as Fj.
  assert (Ii : In qi li /\ eq_isElastic qi = true).
  { destruct Fi as (l1 & l2 & -> & E & _). split; [|assumption]. apply in_or_app. right. now left. }
  assert (Ij : In qj lj /\ eq_isElastic qj = true).
  { destruct Fj as (l1 & l2 & -> & E & _). split; [|assumption]. apply in_or_app. right. now left. }
  destruct (L i li qi Hi Ei (proj1 Ii) (proj2 Ii)) as [Ai Bi].
  destruct (L j lj qj Hj Ej (proj1 Ij) (proj2 Ij)) as [Aj Bj].
  cbv zeta. rewrite Ai, Bi, Aj, Bj, !neq_refl. cbn [t_n term_sp t_species orb negb Z.eqb Pos.eqb].
  destruct (nth_error props i) as [pi|] eqn:Pi; [|apply nth_error_None in Pi; lia].
  destruct (nth_error props j) as [pj|] eqn:Pj; [|apply nth_error_None in Pj; lia].
  rewrite (db_get_nth i pi Pi), (db_get_nth j pj Pj). cbn [obind].
  assert (Z : exists x y px py, (if nleb (pr_mass pi) (pr_mass pj) then (term_sp (Z.of_nat i), term_sp (Z.of_nat j), pi, pj)
                else (term_sp (Z.of_nat j), term_sp (Z.of_nat i), pj, pi)) = (term_sp (Z.of_nat x), term_sp (Z.of_nat y), px, py) /\
     ((x = i /\ y = j) \/ (x = j /\ y = i)) /\ nth_error props x = Some px /\ nth_error props y = Some py /\
     (nleb (pr_mass px) (pr_mass py) = true \/ nleb (pr_mass py) (pr_mass px) = false)).
  { destruct (nleb (pr_mass pi) (pr_mass pj)) eqn:El2.
    - exists i, j, pi, pj. repeat split; auto.
    - exists j, i, pj, pi. repeat split; auto. }
  destruct Z as (x & y & px & py & Ez & Hxy & Px & Py & Hle). rewrite Ez. clear Ez.
  set (mu := ReducedMass (pr_mass px) (pr_mass py)).
  assert (M : both_easy qi qj \/ speeds_set vmax dv -> missing s i j).
  { intros H. exists l, li, lj, qi, qj. split; [assumption|]. split; [assumption|]. split; [assumption|].
    split; [now apply has_none|]. auto. }
  assert (MM : forall c, average_of K_B fuel allowed vmax dv (q_cs qi) (q_cs qj) mu c ->
     made s i j (mkEquation (mkEq (mkInput (term_sp (Z.of_nat x)) (term_sp (Z.of_nat y))) [term_sp (Z.of_nat x); term_sp (Z.of_nat y)] mu) c (MElastic mu))).
  { intros c Hc. exists x, y, px, py, mu, (q_cs qi), (q_cs qj), li, lj, qi, qj. cbn.
    repeat (split; [solve [auto]|]). assumption. }
  unfold average_cs.
  destruct (easy_label (xs_label (q_cs qi)) && easy_label (xs_label (q_cs qj))) eqn:Ee.
  - apply andb_true_iff in Ee as [Ee1 Ee2]. right. split; [apply M; left; now split|]. left. cbn [obind].
    eexists. split; [|reflexivity]. apply MM. left. auto.
  - assert (Nb : ~ both_easy qi qj) by (intros [X Y]; rewrite X, Y in Ee; discriminate).
    destruct (nltb n0 vmax && nltb n0 dv) eqn:Es.
    + apply andb_true_iff in Es as [Es1 Es2]. right. split; [apply M; right; now split|].
      destruct (avg_diameters K_B fuel allowed (q_cs qi) (q_cs qj) vmax dv mu) as [c| | |] eqn:Ec; cbn [obind].
      * left. eexists. split; [|reflexivity]. apply MM. right. split; [now split|assumption].
      * right. split; [discriminate|]. exists li, lj, qi, qj. auto.
      * right. split; [discriminate|]. exists li, lj, qi, qj. auto.
      * right. split; [discriminate|]. exists li, lj, qi, qj. auto.
    + cbn [obind]. left. split; [|reflexivity].
      intros (l' & la & lb & qa & qb & _ & H2 & H3 & _ & H5 & H6 & H7).
      rewrite Ei in H2. injection H2 as <-. rewrite Ej in H3. injection H3 as <-.
      apply find_first in H5. apply find_first in H6. rewrite Gi in H5. rewrite Gj in H6. injection H5 as <-. injection H6 as <-.
      destruct H7 as [H7|[H7 H8]]; [contradiction|]. rewrite H7, H8 in Es. discriminate.
Qed.

Lemma push_complete (s : sets N) i j q : complete n s -> complete n (cell_push s i j q).
Proof.
  intros C a b Ha Hb. destruct (C a b Ha Hb) as [l E]. rewrite get_push, E. eauto.
Qed.
Lemma push_like (s : sets N) i j q : i <> j -> like_plain n s -> like_plain n (cell_push s i j q).
Proof. intros Ne L a l u Ha E. rewrite push_diag in E by assumption. now apply (L a l u Ha). Qed.
Lemma push_missing (s : sets N) i j q a b : i <> j -> i < n -> j < n -> complete n s -> eq_isElastic q = true ->
  missing (cell_push s i j q) a b <-> missing s a b /\ ~ ((a = i /\ b = j) \/ (a = j /\ b = i)).
Proof.
  intros Ne Hi Hj C Eq. split.
  - intros M.
    assert (Nk : ~ ((a = i /\ b = j) \/ (a = j /\ b = i))).
    { intros K. destruct M as (l & la & lb & qa & qb & H1 & _ & _ & H4 & _).
      destruct (C a b) as [l0 E0]; [lia|lia|]. rewrite (push_self s i j q a b l0 K E0) in H1. injection H1 as <-.
      rewrite H4 in Eq; [discriminate|]. apply in_or_app. right. now left. }
    split; [|assumption]. revert M. apply missing_diag; [now apply push_other|now apply push_diag|now apply push_diag].
  - intros [M K]. revert M. apply missing_diag; symmetry; [now apply push_other|now apply push_diag|now apply push_diag].
Qed.

Definition visited (L : list (nat * nat)) a b := In (a, b) L \/ In (b, a) L.
Definition filled (s s' : sets N) (L : list (nat * nat)) (a b : nat) : Prop :=
  (missing s a b /\ visited L a b -> exists l q, cell_get s a b = Ok l /\ cell_get s' a b = Ok (l ++ [q]) /\ made s a b q) /\
  (~ (missing s a b /\ visited L a b) -> cell_get s' a b = cell_get s a b).

Lemma missing_dec (s : sets N) i j (k : Z) : complete n s -> like_plain n s -> i < n -> j < n -> missing s i j \/ ~ missing s i j.
Proof. intros C L Hi Hj. destruct (create_cases s k i j C L Hi Hj) as [[H _]|[H _]]; auto. Qed.

Lemma create_fold L : forall (s : sets N) k s' k', complete n s -> like_plain n s ->
  (forall a b, In (a, b) L -> a < n /\ b < n) ->
  ofold create (s, k) L = Ok (s', k') ->
  complete n s' /\ like_plain n s' /\
  (forall a b, filled s s' L a b) /\
  exists ms, NoDup ms /\ k' = (k + Z.of_nat (length ms))%Z /\
    forall a b, In (a, b) ms <-> a < b /\ missing s a b /\ visited L a b.
Proof.
  induction L as [|[i j] L IH]; intros s k s' k' C Lp HL H.
  - cbn in H. injection H as <- <-. split; [assumption|]. split; [assumption|]. split.
    + intros a b. split; [intros [_ [[]|[]]]|reflexivity].
    + exists []. split; [constructor|]. split; [cbn; lia|]. intros a b. split; [intros []|intros (_ & _ & [[]|[]])].
  - change (obind (create (s, k) (i, j)) (fun s1 => ofold create s1 L) = Ok (s', k')) in H.
    destruct (HL i j (or_introl eq_refl)) as [Hi Hj].
    assert (HL' : forall a b, In (a, b) L -> a < n /\ b < n) by (intros; apply HL; now right).
    destruct (create_cases s k i j C Lp Hi Hj) as [[Nm E]|[M [(q & Mq & E)|[E _]]]].
    + rewrite E in H. cbn [obind] in H.
      destruct (IH _ _ _ _ C Lp HL' H) as (C' & Lp' & F & ms & ND & Ek & Hms).
      assert (V : forall a b, missing s a b -> visited ((i, j) :: L) a b <-> visited L a b).
      { intros a b M. unfold visited. cbn. split; [|tauto]. intros [[X|X]|[X|X]]; auto; injection X as -> ->; exfalso; auto using missing_sym. }
      split; [assumption|]. split; [assumption|]. split.
      * intros a b. destruct (F a b) as [F1 F2]. split.
        -- intros [M Vi]. apply F1. split; [assumption|]. now apply V.
        -- intros Nv. apply F2. intros [M Vi]. apply Nv. split; [assumption|]. now apply V.
      * exists ms. split; [assumption|]. split; [assumption|]. intros a b. rewrite Hms. split; intros (X & M & Vi); repeat split; auto; now apply V.
    + rewrite E in H. cbn [obind] in H.
      assert (Ne : i <> j) by (intros ->; now apply missing_ne in M).
      assert (Eq : eq_isElastic q = true) by now apply (made_elastic s i j).
      destruct (IH _ _ _ _ (push_complete s i j q C) (push_like s i j q Ne Lp) HL' H) as (C' & Lp' & F & ms & ND & Ek & Hms).
      split; [assumption|]. split; [assumption|]. split.
      * intros a b. destruct (F a b) as [F1 F2].
        assert (Dec : ((a = i /\ b = j) \/ (a = j /\ b = i)) \/ ~ ((a = i /\ b = j) \/ (a = j /\ b = i))) by lia.
        destruct Dec as [K|K].
        -- assert (Nm : ~ missing (cell_push s i j q) a b).
           { intros X. apply push_missing in X; auto. tauto. }
           rewrite F2 in * by tauto.
           destruct (C a b) as [l El]; [lia|lia|].
           split.
           ++ intros _. exists l, q. split; [assumption|]. split; [rewrite F2 by tauto; now apply push_self|].
              destruct K as [[-> ->]|[-> ->]]; [assumption|now apply made_sym].
           ++ intros X. exfalso. apply X. split.
              ** destruct K as [[-> ->]|[-> ->]]; [assumption|now apply missing_sym].
              ** unfold visited. cbn. destruct K as [[-> ->]|[-> ->]]; auto.
        -- assert (Mi : missing (cell_push s i j q) a b <-> missing s a b).
           { rewrite push_missing by assumption. tauto. }
           assert (V : visited ((i, j) :: L) a b <-> visited L a b).
           { unfold visited. cbn. split; [|tauto]. intros [[X|X]|[X|X]]; auto; injection X as -> ->; exfalso; apply K; auto. }
           rewrite (push_other s i j q a b K) in F1, F2.
           split.
           ++ intros [M' V']. destruct F1 as (l & u & H1 & H2 & H3). { split; [now apply Mi|now apply V]. }
              exists l, u. split; [assumption|]. split; [assumption|].
              revert H3. apply made_diag; now apply push_diag.
           ++ intros X. apply F2. intros [M' V']. apply X. split; [now apply Mi|now apply V].
      * exists (cell_key i j :: ms). split.
        { constructor; [|assumption]. unfold cell_key. rewrite Hms. intros (X & M' & _). apply push_missing in M' as [_ M']; auto. lia. }
        split; [cbn [length]; lia|]. intros a b. cbn [In]. rewrite Hms. rewrite push_missing by assumption.
        unfold cell_key, visited. cbn [In]. split.
        -- intros [X|(X & [M' K] & Vi)].
           ++ injection X as <- <-.
              assert (Q : (i < j /\ Nat.min i j = i /\ Nat.max i j = j) \/ (j < i /\ Nat.min i j = j /\ Nat.max i j = i)) by lia.
              destruct Q as [(Q & -> & ->)|(Q & -> & ->)]; (split; [lia|]); split; auto. now apply missing_sym.
           ++ split; [assumption|]. split; [assumption|]. tauto.
        -- intros (X & M' & Vi).
           assert (Dec : ((a = i /\ b = j) \/ (a = j /\ b = i)) \/ ~ ((a = i /\ b = j) \/ (a = j /\ b = i))) by lia.
           destruct Dec as [K|K].
           ++ left. destruct K as [[-> ->]|[-> ->]]; f_equal; lia.
           ++ right. split; [assumption|]. split; [auto|].
              destruct Vi as [[Y|Y]|[Y|Y]]; auto; injection Y as -> ->; exfalso; apply K; auto.
    + exfalso. destruct (create (s, k) (i, j)) as [r| | |] eqn:Er; try discriminate. now apply (E r).
Qed.

Lemma create_fold_none L : forall (s : sets N) k, complete n s -> like_plain n s ->
  (forall a b, In (a, b) L -> a < n /\ b < n /\ ~ missing s a b) ->
  ofold create (s, k) L = Ok (s, k).
Proof.
  induction L as [|[i j] L IH]; intros s k C Lp HL; [reflexivity|].
  change (obind (create (s, k) (i, j)) (fun s1 => ofold create s1 L) = Ok (s, k)).
  destruct (HL i j (or_introl eq_refl)) as (Hi & Hj & Nm).
  destruct (create_cases s k i j C Lp Hi Hj) as [[_ E]|[M _]]; [|contradiction].
  rewrite E. cbn [obind]. apply IH; auto. intros a b Iab. apply HL. now right.
Qed.
Lemma create_fold_ok L : forall (s : sets N) k, complete n s -> like_plain n s ->
  (forall a b, In (a, b) L -> a < n /\ b < n) ->
  (forall a b la lb qa qb, In (a, b) L -> missing s a b -> cell_get s a a = Ok la -> cell_get s b b = Ok lb ->
     first_elastic la qa -> first_elastic lb qb -> both_easy qa qb) ->
  exists r, ofold create (s, k) L = Ok r.
Proof.
  induction L as [|[i j] L IH]; intros s k C Lp HL HE; [eexists; reflexivity|].
  change (exists r, obind (create (s, k) (i, j)) (fun s1 => ofold create s1 L) = Ok r).
  destruct (HL i j (or_introl eq_refl)) as [Hi Hj].
  assert (HL' : forall a b, In (a, b) L -> a < n /\ b < n) by (intros; apply HL; now right).
  destruct (create_cases s k i j C Lp Hi Hj) as [[_ E]|[M [(q & Mq & E)|[_ (la & lb & qa & qb & H1 & H2 & H3 & H4 & H5)]]]].
  - rewrite E. cbn [obind]. apply IH; auto. intros a b la lb qa qb Iab. apply HE. now right.
  - rewrite E. cbn [obind].
    assert (Ne : i <> j) by (intros ->; now apply missing_ne in M).
    apply IH; auto using push_complete, push_like.
    intros a b la lb qa qb Iab Mab Ea Eb. rewrite push_diag in Ea, Eb by assumption.
    apply (HE a b); [now right| |assumption|assumption].
    apply push_missing in Mab; auto; [tauto|]. now apply (made_elastic s i j).
  - exfalso. apply H5. apply (HE i j la lb); auto. now left.
Qed.
End Create.

Lemma requested_in i m a : In a (requested i m) <-> a < m /\ covers i a.
Proof.
  unfold requested, covers. destruct (Z.leb_spec 0 i).
  - destruct (Z.ltb_spec i (Z.of_nat m)).
    + cbn. split; [intros [<-|[]]; lia|]. intros [H1 [H2|H2]]; [lia|]. left. lia.
    + split; [intros []|lia].
  - rewrite in_seq. split; intros H1; [lia|lia].
Qed.
Lemma asked_visited i j m a b : a < m -> b < m -> visited (list_prod (requested i m) (requested j m)) a b <-> asked i j a b.
Proof. intros Ha Hb. unfold visited, asked. rewrite !in_prod_iff, !requested_in. tauto. Qed.

Lemma effective_speeds (dvmax ddv vmax dv : N) : speeds dvmax ddv vmax dv (fst (effective_v dvmax ddv vmax dv)) (snd (effective_v dvmax ddv vmax dv)).
Proof.
  unfold speeds, effective_v. destruct (nleb vmax n0) eqn:E1.
  - destruct (nltb n0 dvmax) eqn:E2; cbn [fst snd]; rewrite ?E2; repeat split; try discriminate; intros; try congruence.
    + rewrite H0. now rewrite H0.
    + rewrite H0. now rewrite H1.
    + rewrite H0. now rewrite H1.
  - destruct (nltb n0 vmax) eqn:E2; cbn [fst snd]; rewrite ?E2; repeat split; try discriminate; intros; try congruence.
    + rewrite H0. now rewrite H0.
    + rewrite H0. now rewrite H1.
    + rewrite H0. now rewrite H1.
Qed.
Lemma speeds_unique (dvmax ddv vmax dv v d v' d' : N) : speeds dvmax ddv vmax dv v d -> speeds dvmax ddv vmax dv v' d' -> v = v' /\ d = d'.
Proof.
  unfold speeds. intros (A1 & A2 & A3 & A4 & A5 & A6) (B1 & B2 & B3 & B4 & B5 & B6).
  assert (v = v'). { destruct (nleb vmax n0); [rewrite A2, B2|rewrite A1, B1]; reflexivity. } subst v'.
  split; [reflexivity|]. destruct (nltb n0 v).
  - destruct (nleb dv n0); [|rewrite A3, B3; reflexivity]. destruct (nleb ddv n0); [rewrite A5, B5|rewrite A4, B4]; reflexivity.
  - rewrite A6, B6; reflexivity.
Qed.

Section Top.
Variables (K_B : N) (fuel : nat) (allowed : bool).

Lemma createMissing_eq (dvmax ddv vmax dv v d : N) (props : list P) s i j : speeds dvmax ddv vmax dv v d ->
  createMissing K_B fuel allowed dvmax ddv props s i j vmax dv =
  ofold (create_pair K_B fuel allowed props v d) (s, 0%Z) (list_prod (requested i (length props)) (requested j (length props))).
Proof.
  intros S. unfold createMissing. pose proof (effective_speeds dvmax ddv vmax dv) as S'.
  destruct (effective_v dvmax ddv vmax dv) as [v' d']. cbn in S'. destruct (speeds_unique _ _ _ _ _ _ _ _ S S') as [-> ->]. reflexivity.
Qed.
Lemma prod_bounds i j m a b : In (a, b) (list_prod (requested i m) (requested j m)) -> a < m /\ b < m.
Proof. rewrite in_prod_iff, !requested_in. tauto. Qed.

Lemma create_spec (dvmax ddv vmax dv v d : N) (props : list P) s i j s' k :
  complete (length props) s -> like_plain (length props) s -> speeds dvmax ddv vmax dv v d ->
  createMissing K_B fuel allowed dvmax ddv props s i j vmax dv = Ok (s', k) ->
  (forall a b, a < length props -> b < length props ->
     (missing v d s a b /\ asked i j a b ->
        exists l q, cell_get s a b = Ok l /\ cell_get s' a b = Ok (l ++ [q]) /\ made K_B fuel allowed v d props s a b q) /\
     (~ (missing v d s a b /\ asked i j a b) -> cell_get s' a b = cell_get s a b)) /\
  (exists ms, NoDup ms /\ k = Z.of_nat (length ms) /\
     forall a b, In (a, b) ms <-> a < b < length props /\ missing v d s a b /\ asked i j a b) /\
  createMissing K_B fuel allowed dvmax ddv props s' i j vmax dv = Ok (s', 0%Z).
Proof.
  intros C L S H. rewrite (createMissing_eq _ _ _ _ v d) in H |- * by assumption.
  destruct (create_fold K_B fuel allowed props v d _ s 0%Z s' k C L (prod_bounds i j _) H) as (C' & L' & F & ms & ND & Ek & Hms).
  split; [|split].
  - intros a b Ha Hb. destruct (F a b) as [F1 F2]. rewrite asked_visited in F1, F2 by assumption. split; assumption.
  - exists ms. split; [assumption|]. split; [lia|]. intros a b. rewrite Hms. split.
    + intros (X & M & V). assert (B : a < length props /\ b < length props).
      { destruct V as [V|V]; apply prod_bounds in V; tauto. }
      split; [lia|]. split; [assumption|]. apply asked_visited in V; tauto.
    + intros (X & M & V). split; [lia|]. split; [assumption|]. apply asked_visited; [lia|lia|assumption].
  - apply create_fold_none; auto. intros a b Iab. destruct (prod_bounds _ _ _ _ _ Iab) as [Ha Hb].
    split; [assumption|]. split; [assumption|]. intros M'. destruct (F a b) as [F1 F2].
    assert (Dg : forall c, cell_get s' c c = cell_get s c c).
    { intros c. destruct (F c c) as [_ F3]. apply F3. intros [X _]. now apply missing_ne in X. }
    destruct (missing_dec K_B fuel allowed props v d s a b 0%Z C L Ha Hb) as [M|M].
    + destruct F1 as (l & q & E1 & E2 & Mq). { split; [assumption|]. now left. }
      destruct M' as (l' & la & lb & qa & qb & X1 & _ & _ & X4 & _). rewrite E2 in X1. injection X1 as <-.
      assert (Ne : a <> b) by (intros ->; now apply missing_ne in M).
      apply (made_elastic K_B fuel allowed props v d s a b q Ne) in Mq. rewrite X4 in Mq; [discriminate|]. apply in_or_app. right. now left.
    + apply M. revert M'. apply missing_diag; [apply F2; tauto|apply Dg|apply Dg].
Qed.
Lemma create_total (dvmax ddv vmax dv v d : N) (props : list P) s i j :
  complete (length props) s -> like_plain (length props) s -> speeds dvmax ddv vmax dv v d ->
  (forall a b la lb qa qb, missing v d s a b -> cell_get s a a = Ok la -> cell_get s b b = Ok lb ->
     first_elastic la qa -> first_elastic lb qb -> both_easy qa qb) ->
  exists r, createMissing K_B fuel allowed dvmax ddv props s i j vmax dv = Ok r.
Proof.
  intros C L S H. rewrite (createMissing_eq _ _ _ _ v d) by assumption.
  apply create_fold_ok; auto. { apply prod_bounds. } eauto.
Qed.
Lemma misspelt (dvmax ddv vmax dv : N) (props : list P) s i j : ~ In i (map (pr_name (N:=N)) props) ->
  createMissingNamed K_B fuel allowed dvmax ddv props s i j vmax dv =
    createMissing K_B fuel allowed dvmax ddv props s (-1) (findParticleIndx props j) vmax dv /\
  createMissingNamed K_B fuel allowed dvmax ddv props s j i vmax dv =
    createMissing K_B fuel allowed dvmax ddv props s (findParticleIndx props j) (-1) vmax dv.
Proof.
  intros H. unfold createMissingNamed. destruct (lookup_unknown props i H) as [-> _]. split; reflexivity.
Qed.
End Top.

(** The matrix of a freshly initialised database is complete, and its elastic like
    pairs are plain. *)
Lemma init_wf (ok : N -> Prop) reg d f (props r : list P) s : mass_order ok -> masses_ok ok props -> unique_names props ->
  set_ok (x_inter d) -> plain_names props (x_inter d) -> initBinary reg d f props = Ok (r, s) ->
  complete (length r) s /\ like_plain (length r) s.
Proof.
  intros Hm Ho U Hd Hn H. destruct (init_cells reg d f props r s H) as [-> K].
  split.
  - intros i j Hi Hj. destruct (K i j Hi Hj) as (xs & qs & E & _). eauto.
  - intros i l q Hi E I El. destruct (K i i Hi Hi) as (xs & qs & E' & Hx & Hl). rewrite E in E'. injection E' as <-.
    rewrite Nat.min_id, Nat.max_id in Hx.
    assert (exists x, In x xs /\ load_equation reg (sort_props props) x = Ok q) as (x & Ix & Lx).
    { clear - Hl I. induction Hl as [|x q' xs l HQ F IH]; [destruct I|]. destruct I as [->|I].
      - exists x. split; [now left|assumption].
      - destruct (IH I) as (y & Iy & Ey). exists y. split; [now right|assumption]. }
    assert (U' := sort_unique props U).
    assert (Hn' : plain_names (sort_props props) (x_inter d)).
    { destruct Hn as [Hn1 Hn2]. split; [|assumption]. intros p Ip. apply Hn1.
      eapply Permutation_in; [apply Permutation_sym, sort_perm|assumption]. }
    destruct (pair_selected d f (sort_props props) i i xs Hd U' Hn' Hx) as (m & Sm & _ & Hm' & R).
    destruct (filter_total (x_inter d) Hd f m Sm) as (r & Er & _ & Sub). { intros y Iy. apply Hm' in Iy. tauto. }
    rewrite R in Er. injection Er as <-. apply Sub, Hm' in Ix as [_ (_ & (pA & pB & HA & HB & W1 & _) & _)].
    rewrite HA in HB. injection HB as <-. destruct (W1 eq_refl) as (t & Et & E1 & E2).
    assert (Pos : positive (xi_in x)).
    { rewrite Et. constructor; [|constructor]. unfold xt_n. rewrite E2. lia. }
    destruct (equation_loaded ok Hm (sort_props props) (Permutation_Forall (sort_perm props) Ho) reg x q Lx Pos)
      as (iA & qA & iB & qB & EA & EB & FA & FB & _ & Pm & _).
    assert (Ex : expand_names (xi_in x) = [pr_name pA; pr_name pA]).
    { rewrite Et. unfold expand_names. cbn. unfold xt_n. rewrite E2, E1. reflexivity. }
    rewrite Ex in Pm.
    assert (NA : pr_name qA = pr_name pA).
    { assert (X : In (pr_name qA) [pr_name pA; pr_name pA]) by (eapply Permutation_in; [exact Pm|now left]). destruct X as [X|[X|[]]]; auto. }
    assert (NB : pr_name qB = pr_name pA).
    { assert (X : In (pr_name qB) [pr_name pA; pr_name pA]) by (eapply Permutation_in; [exact Pm|right; now left]). destruct X as [X|[X|[]]]; auto. }
    pose proof (lookup_added (sort_props props) i pA U' HA) as Fi.
    rewrite NA in FA. rewrite NB in FB.
    destruct (first_named_unique _ _ _ _ _ _ FA Fi) as [-> _]. destruct (first_named_unique _ _ _ _ _ _ FB Fi) as [-> _].
    auto.
Qed.
End P.
