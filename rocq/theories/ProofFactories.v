(** setParticleFactories picks a minimal-score admissible assignment. *)
From Coq Require Import List ZArith Bool Lia.
From Verif Require Import Base Num ModelTerm ModelCollide ModelFactories SpecFactories ProofInelastic.
Import ListNotations.

Section Fac.
Context {N : Num}.
Variable inf : N.
Variables a b : massCharge N.
Notation rr := [ofZ (-1); ofZ 1; centre inf mc_mass a b; centre inf mc_charge a b].

Lemma in_summary_two :
  in_summary inf [a; b] = (centre inf mc_mass a b, centre inf mc_charge a b, rr).
Proof. reflexivity. Qed.

Definition place_of (z : Z) : place :=
  if (z =? 0)%Z then AtFirst else if (z =? 1)%Z then AtSecond else if (z =? 2)%Z then AtCM else AtCQ.
Lemma place_of_index p : place_of (place_index p) = p.
Proof. destruct p; reflexivity. Qed.
Lemma index_place_of z : (0 <= z < 4)%Z -> place_index (place_of z) = z.
Proof. intros. assert (z = 0 \/ z = 1 \/ z = 2 \/ z = 3)%Z as [-> | [-> | [-> | ->]]] by lia; reflexivity. Qed.
Lemma place_index_range p : (0 <= place_index p < 4)%Z.
Proof. destruct p; cbn; lia. Qed.

Fixpoint srcs_of (j : Z) (outs : list (massCharge N)) : list Z :=
  match outs with
  | [] => []
  | o :: l => cand_src rr (4 ^ Z.of_nat (length l)) o j :: srcs_of j l
  end.

Lemma pow_pos n : (0 < 4 ^ Z.of_nat n)%Z.
Proof. apply Z.pow_pos_nonneg; lia. Qed.
Lemma pow_S n : (4 ^ Z.of_nat (S n) = 4 * 4 ^ Z.of_nat n)%Z.
Proof. rewrite Nat2Z.inj_succ, Z.pow_succ_r by lia. reflexivity. Qed.

Lemma srcs_shift outs : forall M j,
  srcs_of (M * 4 ^ Z.of_nat (length outs) + j) outs = srcs_of j outs.
Proof.
  induction outs as [|o l IH]; intros M j; [reflexivity|].
  cbn [srcs_of length]. rewrite pow_S. pose proof (pow_pos (length l)) as Hp.
  f_equal.
  - unfold cand_src. destruct (0 <=? mc_from o)%Z; [reflexivity|].
    replace (M * (4 * 4 ^ Z.of_nat (length l)) + j)%Z with (j + (M * 4) * 4 ^ Z.of_nat (length l))%Z by ring.
    rewrite Z.div_add by lia. cbn [length]. change (Z.of_nat 4) with 4%Z.
    rewrite Z.mod_add by lia. reflexivity.
  - replace (M * (4 * 4 ^ Z.of_nat (length l)) + j)%Z with ((M * 4) * 4 ^ Z.of_nat (length l) + j)%Z by ring.
    apply IH.
Qed.

Lemma enumerate outs ps : admissible outs ps ->
  exists j, (0 <= j < 4 ^ Z.of_nat (length outs))%Z /\ srcs_of j outs = map place_index ps.
Proof.
  induction 1 as [|o p outs ps Hop H (j & Hj & E)].
  - exists 0%Z. split; [|reflexivity]. cbn. lia.
  - exists (place_index p * 4 ^ Z.of_nat (length outs) + j)%Z.
    pose proof (place_index_range p). pose proof (pow_pos (length outs)).
    split.
    + cbn [length]. rewrite pow_S. nia.
    + cbn [srcs_of map]. rewrite srcs_shift, E. f_equal.
      unfold cand_src. destruct (Z.leb_spec 0 (mc_from o)).
      * symmetry; auto.
      * rewrite Z.add_comm, Z.div_add, (Z.div_small j) by lia.
        cbn [length]. change (Z.of_nat 4) with 4%Z. rewrite Z.add_0_l, Z.mod_small by lia. reflexivity.
Qed.

(** When is an entry defined? *)
Lemma mc_fold_total o i l k s :
  (exists y, nth_error [a; b] i = Some y) ->
  exists k' s', ofold (fun '(k, s) x =>
        if neqb (mc_mass o) (mc_mass x) then
          do y <- oget [a; b] i;
          Ok ((k + 1)%Z, if neqb (mc_charge y) (mc_charge x) then k else s)
        else Ok ((k + 1)%Z, s)) (k, s) l = Ok (k', s').
Proof.
  intros [y Hy]. unfold oget. rewrite Hy. cbn [obind].
  revert k s; induction l as [|x l IH]; intros k s; cbn [ofold obind]; [eauto|].
  destruct (neqb (mc_mass o) (mc_mass x)); cbn [obind]; apply IH.
Qed.

(** The reactant picked for products placed at CM/CQ is 0 or 1. *)
Lemma match_mass_range o : match_mass o [a; b] = 0%Z \/ match_mass o [a; b] = 1%Z.
Proof. unfold match_mass; cbn. repeat destruct (neqb _ _); auto. Qed.
Lemma match_species_range o s : (s = 0 \/ s = 1)%Z ->
  (match_species o [a; b] s = 0 \/ match_species o [a; b] s = 1)%Z.
Proof. unfold match_species; cbn. intros. repeat destruct (_ =? _)%Z; auto. Qed.
Lemma match_mc_range i o s s' : (s = 0 \/ s = 1)%Z ->
  match_mass_charge i o [a; b] s = Ok s' -> (s' = 0 \/ s' = 1)%Z.
Proof.
  unfold match_mass_charge; cbn. intros Hs.
  destruct (neqb (mc_mass o) (mc_mass a)), (neqb (mc_mass o) (mc_mass b)), (oget [a; b] i) as [y| | |]; cbn;
    try discriminate; repeat destruct (neqb _ _); cbn; intros [= <-]; auto.
Qed.

Definition hits (o : massCharge N) : bool :=
  neqb (mc_mass o) (mc_mass a) || neqb (mc_mass o) (mc_mass b).

Lemma match_mc_case i o s :
  (exists s', match_mass_charge i o [a; b] s = Ok s') /\ ((i < 2)%nat \/ hits o = false) \/
  match_mass_charge i o [a; b] s = UB /\ (2 <= i)%nat /\ hits o = true.
Proof.
  assert (Hn : forall n, nth_error [a; b] (S (S n)) = None) by (intros n; destruct n; reflexivity).
  unfold match_mass_charge, hits, oget. cbn [ofold].
  destruct i as [|[|i]].
  - left. split; [|left; lia]. cbn [nth_error obind].
    destruct (neqb (mc_mass o) (mc_mass a)); cbn [obind];
      destruct (neqb (mc_mass o) (mc_mass b)); cbn [obind]; eauto.
  - left. split; [|left; lia]. cbn [nth_error obind].
    destruct (neqb (mc_mass o) (mc_mass a)); cbn [obind];
      destruct (neqb (mc_mass o) (mc_mass b)); cbn [obind]; eauto.
  - rewrite Hn.
    destruct (neqb (mc_mass o) (mc_mass a)); cbn [obind orb];
      [right; repeat split; lia|].
    destruct (neqb (mc_mass o) (mc_mass b)); cbn [obind orb];
      [right; repeat split; lia|].
    left. eauto.
Qed.

Lemma nth_rr z : (0 <= z < 4)%Z -> oget rr (Z.to_nat z) = Ok (place_pos inf a b (place_of z)).
Proof. intros. assert (z = 0 \/ z = 1 \/ z = 2 \/ z = 3)%Z as [-> | [-> | [-> | ->]]] by lia; reflexivity. Qed.
Lemma nth_rr_out z : (4 <= z)%Z -> oget rr (Z.to_nat z) = UB.
Proof.
  intros. unfold oget. destruct (nth_error rr (Z.to_nat z)) eqn:E; [|reflexivity].
  exfalso. assert (nth_error rr (Z.to_nat z) <> None) by congruence.
  apply nth_error_Some in H0. cbn in H0. lia.
Qed.

Definition src_at (outs_after : nat) (o : massCharge N) (j : Z) : Z :=
  cand_src rr (4 ^ Z.of_nat outs_after) o j.

Lemma cand_src_range p o j : (mc_from o < 4)%Z -> (0 <= cand_src rr p o j < 4)%Z.
Proof.
  intros. unfold cand_src. destruct (Z.leb_spec 0 (mc_from o)); [lia|].
  cbn [length]. change (Z.of_nat 4) with 4%Z. apply Z.mod_pos_bound; lia.
Qed.

(** The entry either realises its place or is UB. *)
Lemma entry_case i p o j :
  let src := cand_src rr p o j in
  (exists f, cand_entry [a; b] rr i p o j = Ok (place_pos inf a b (place_of src), f) /\
     (0 <= src < 4)%Z /\ realises o (place_of src) f /\
     ((src < 2)%Z \/ (i < 2)%nat \/ hits o = false)) \/
  cand_entry [a; b] rr i p o j = UB /\
     ((4 <= src)%Z \/ (2 <= src)%Z /\ (2 <= i)%nat /\ hits o = true).
Proof.
  intros src. unfold cand_entry. fold src.
  assert (Hs0 : (0 <= src)%Z).
  { unfold src, cand_src. destruct (Z.leb_spec 0 (mc_from o)); [lia|]. apply Z.mod_pos_bound. cbn; lia. }
  destruct (Z_lt_le_dec src 4) as [H4|H4].
  2:{ right. rewrite nth_rr_out by assumption. auto. }
  rewrite nth_rr by lia. cbn [obind length]. change (Z.of_nat 2) with 2%Z.
  destruct (Z.leb_spec 2 src) as [H2|H2].
  - destruct (match_mc_case i o (match_mass o [a; b])) as [[(s' & E) Hc]|(E & Hi & Hh)].
    + left. pose proof (match_mc_range _ _ _ _ (match_mass_range o) E) as Hr.
      rewrite E. cbn [obind]. eexists. split; [reflexivity|]. split; [lia|]. split; [|auto].
      pose proof (match_species_range o s' Hr) as Hr'.
      assert (src = 2 \/ src = 3)%Z as [-> | ->] by lia; cbn; unfold realises; cbn; auto.
    + right. rewrite E. cbn [obind]. split; [reflexivity|]. right. auto.
  - left. eexists. split; [reflexivity|]. split; [lia|]. split; [|lia].
    assert (src = 0 \/ src = 1)%Z as [-> | ->] by lia; unfold realises; cbn; auto.
Qed.

Definition mom (w : massCharge N -> N) (s : N) (outs : list (massCharge N)) (xs : list N) : N :=
  fold_left (fun s p => nadd s (nmul (w (fst p)) (snd p))) (combine outs xs) s.

Lemma cand_loop_ok outs : forall i j fm fq fs r,
  cand_loop [a; b] rr 4 i outs j fm fq fs = Ok r ->
  let ps := map place_of (srcs_of j outs) in
  let xs := map (place_pos inf a b) ps in
  admissible outs ps /\
  exists fs', r = (mom mc_mass fm outs xs, mom mc_charge fq outs xs, fs ++ fs') /\
    Forall2 (fun op f => realises (fst op) (snd op) f) (combine outs ps) fs'.
Proof.
  induction outs as [|o l IH]; intros i j fm fq fs r H.
  - cbn in *. injection H as <-. split; [constructor|]. exists []. rewrite app_nil_r. split; [reflexivity|constructor].
  - cbn [cand_loop] in H.
    destruct (entry_case i (4 ^ Z.of_nat (length l)) o j) as [(f & E & Hr & Hf & _)|[E _]];
      cbv zeta in *; rewrite E in H; [|discriminate].
    cbn [obind] in H. apply IH in H. cbv zeta in H. destruct H as [Ha (fs' & -> & HF)].
    cbn [srcs_of map combine fst snd].
    split.
    + constructor; [|assumption]. intros Hfrom. rewrite index_place_of by assumption.
      unfold cand_src. destruct (Z.leb_spec 0 (mc_from o)); [reflexivity|lia].
    + exists (f :: fs'). split; [|constructor; assumption].
      rewrite <- app_assoc. reflexivity.
Qed.

Definition entry_bad (i : nat) (o : massCharge N) : Prop :=
  (4 <= mc_from o)%Z \/ ((2 <= i)%nat /\ (mc_from o < 0 \/ 2 <= mc_from o)%Z /\ hits o = true).

Lemma cand_loop_cases outs : forall i j fm fq fs,
  (exists r, cand_loop [a; b] rr 4 i outs j fm fq fs = Ok r) \/
  (cand_loop [a; b] rr 4 i outs j fm fq fs = UB /\
   exists k o, nth_error outs k = Some o /\ entry_bad (i + k) o).
Proof.
  induction outs as [|o l IH]; intros i j fm fq fs; cbn [cand_loop]; [left; eauto|].
  destruct (entry_case i (4 ^ Z.of_nat (length l)) o j) as [(f & E & Hr & Hf & _)|[E Hbad]];
    cbv zeta in *; rewrite E; cbn [obind].
  - destruct (IH (S i) j (nadd fm (nmul (mc_mass o) (place_pos inf a b (place_of (cand_src rr (4 ^ Z.of_nat (length l)) o j)))))
       (nadd fq (nmul (mc_charge o) (place_pos inf a b (place_of (cand_src rr (4 ^ Z.of_nat (length l)) o j))))) (fs ++ [f]))
      as [Hok|[Hub (k & o' & Hn & Hb)]]; [left; assumption|right].
    split; [assumption|]. exists (S k), o'. split; [assumption|]. rewrite <- plus_n_Sm. assumption.
  - right. split; [reflexivity|]. exists 0%nat, o. split; [reflexivity|]. rewrite Nat.add_0_r.
    unfold entry_bad.
    destruct (Z_lt_le_dec (mc_from o) 4) as [H4|]; [|auto].
    pose proof (cand_src_range (4 ^ Z.of_nat (length l)) o j H4).
    destruct Hbad as [?|(H2 & Hi & Hh)]; [lia|]. right. split; [assumption|]. split; [|assumption].
    unfold cand_src in H2. destruct (Z.leb_spec 0 (mc_from o)); lia.
Qed.

Lemma cand_loop_bad outs : forall i k o,
  nth_error outs k = Some o -> entry_bad (i + k) o ->
  exists j, (0 <= j < 4 ^ Z.of_nat (length outs))%Z /\
    forall M fm fq fs, cand_loop [a; b] rr 4 i outs (M * 4 ^ Z.of_nat (length outs) + j) fm fq fs = UB.
Proof.
  induction outs as [|x l IH]; intros i k o Hn Hb; [destruct k; discriminate|].
  pose proof (pow_pos (length l)) as Hp.
  destruct k as [|k]; cbn in Hn.
  - injection Hn as ->. rewrite Nat.add_0_r in Hb.
    exists (2 * 4 ^ Z.of_nat (length l))%Z. split; [cbn [length]; rewrite pow_S; nia|].
    intros M fm fq fs. cbn [cand_loop].
    set (j := (M * 4 ^ Z.of_nat (length (o :: l)) + 2 * 4 ^ Z.of_nat (length l))%Z).
    destruct (entry_case i (4 ^ Z.of_nat (length l)) o j) as [(f & E & Hr & Hf & Hg)|[E _]]; cbv zeta in *.
    + exfalso. unfold cand_src in Hr, Hg.
      replace (j / 4 ^ Z.of_nat (length l))%Z with (2 + M * 4)%Z in Hr, Hg.
      2:{ unfold j. cbn [length]. rewrite pow_S.
          replace (M * (4 * 4 ^ Z.of_nat (length l)) + 2 * 4 ^ Z.of_nat (length l))%Z
            with ((2 + M * 4) * 4 ^ Z.of_nat (length l))%Z by ring.
          rewrite Z.div_mul by lia. reflexivity. }
      cbn [length] in Hr, Hg. change (Z.of_nat 4) with 4%Z in Hr, Hg.
      rewrite Z.mod_add in Hr, Hg by lia. change (2 mod 4)%Z with 2%Z in *.
      destruct Hb as [Hb|(Hi & Hfr & Hh)]; destruct (Z.leb_spec 0 (mc_from o)); try lia;
        (destruct Hg as [?|[?|Hg]]; [lia|lia|congruence]).
    + rewrite E. reflexivity.
  - rewrite <- plus_n_Sm in Hb. change (S (i + k)) with (S i + k)%nat in Hb.
    destruct (IH (S i) k o Hn Hb) as (j & Hj & Hub).
    exists j. split; [cbn [length]; rewrite pow_S; nia|].
    intros M fm fq fs. cbn [cand_loop].
    destruct (cand_entry [a; b] rr i (4 ^ Z.of_nat (length l)) x (M * 4 ^ Z.of_nat (length (x :: l)) + j)) as [[y f]| | |] eqn:E;
      cbn [obind].
    + cbn [length]. rewrite pow_S.
      replace (M * (4 * 4 ^ Z.of_nat (length l)) + j)%Z with ((M * 4) * 4 ^ Z.of_nat (length l) + j)%Z by ring.
      apply Hub.
    + exfalso. destruct (entry_case i (4 ^ Z.of_nat (length l)) x (M * 4 ^ Z.of_nat (length (x :: l)) + j)) as [(f & E' & _)|[E' _]];
        rewrite E in E'; discriminate.
    + reflexivity.
    + exfalso. destruct (entry_case i (4 ^ Z.of_nat (length l)) x (M * 4 ^ Z.of_nat (length (x :: l)) + j)) as [(f & E' & _)|[E' _]];
        rewrite E in E'; discriminate.
Qed.

(** ** The score map *)
Hypothesis lt_irrefl : forall x : N, nltb x x = false.
Hypothesis lt_trans : forall x y z : N, nltb x y = true -> nltb y z = true -> nltb x z = true.

Lemma score_insert_head (c : N * list factory) m :
  exists h t, score_insert c m = h :: t /\ (h = c \/ exists t', m = h :: t') /\
  nltb (fst c) (fst h) = false /\
  (forall h' t', m = h' :: t' -> h = h' \/ (h = c /\ nltb (fst c) (fst h') = true)).
Proof.
  destruct m as [|x m]; cbn.
  - exists c, []. split; [reflexivity|]. split; [auto|]. split; [apply lt_irrefl|discriminate].
  - destruct (nltb (fst c) (fst x)) eqn:E1.
    + exists c, (x :: m). split; [reflexivity|]. split; [auto|]. split; [apply lt_irrefl|].
      intros h' t' [= <- <-]. auto.
    + destruct (nltb (fst x) (fst c)).
      * exists x, (score_insert c m). split; [reflexivity|]. split; [right; eauto|]. split; [assumption|].
        intros h' t' [= <- <-]. auto.
      * exists x, m. split; [reflexivity|]. split; [right; eauto|]. split; [assumption|].
        intros h' t' [= <- <-]. auto.
Qed.

Lemma score_fold_head : forall (ss : list (N * list factory)) h t seen,
  (forall c, In c seen -> nltb (fst c) (fst h) = false) -> In h seen ->
  exists h' t', fold_left (fun m c => score_insert c m) ss (h :: t) = h' :: t' /\
    In h' (seen ++ ss) /\ forall c, In c (seen ++ ss) -> nltb (fst c) (fst h') = false.
Proof.
  induction ss as [|c ss IH]; intros h t seen Hs Hin.
  - exists h, t. rewrite app_nil_r. auto.
  - cbn [fold_left].
    destruct (score_insert_head c (h :: t)) as (h1 & t1 & -> & _ & Hc & Hh).
    specialize (Hh h t eq_refl).
    destruct (IH h1 t1 (seen ++ [c])) as (h' & t' & E & Hin' & Hmin).
    + intros x Hx. apply in_app_iff in Hx as [Hx|[<-|[]]]; [|assumption].
      destruct Hh as [->|[-> Hlt]]; [auto|].
      destruct (nltb (fst x) (fst c)) eqn:E; [|reflexivity].
      pose proof (lt_trans _ _ _ E Hlt) as Hl. rewrite (Hs x Hx) in Hl. discriminate.
    + apply in_app_iff. destruct Hh as [->|[-> _]]; cbn; auto.
    + exists h', t'. rewrite <- app_assoc in *. cbn [app] in *. auto.
Qed.

Lemma score_fold (ss : list (N * list factory)) b0 t0 : fold_left (fun m c => score_insert c m) ss [] = b0 :: t0 ->
  In b0 ss /\ forall c, In c ss -> nltb (fst c) (fst b0) = false.
Proof.
  destruct ss as [|c ss]; cbn [fold_left]; [discriminate|].
  cbn [score_insert]. intros H.
  destruct (score_fold_head ss c [] [c]) as (h' & t' & E & Hin & Hm).
  - intros x [<-|[]]. apply lt_irrefl.
  - left; reflexivity.
  - rewrite E in H. injection H as <- <-. auto.
Qed.

Lemma score_fold_nonempty (ss : list (N * list factory)) : ss <> [] -> fold_left (fun m c => score_insert c m) ss [] <> [].
Proof.
  destruct ss as [|c ss]; [congruence|]. intros _. cbn [fold_left score_insert].
  destruct (score_fold_head ss c [] [c]) as (h' & t' & E & _).
  - intros x [<-|[]]. apply lt_irrefl.
  - left; reflexivity.
  - congruence.
Qed.

Lemma cand_score_ok outs j c s fs :
  cand_loop [a; b] rr 4 0 outs j n0 n0 [] = Ok c ->
  cand_score inf (centre inf mc_mass a b) (centre inf mc_charge a b)
     (total mc_mass outs) (total mc_charge outs) c = Ok (s, fs) ->
  let ps := map place_of (srcs_of j outs) in
  admissible outs ps /\ s = score inf a b outs ps /\
  Forall2 (fun op f => realises (fst op) (snd op) f) (combine outs ps) fs.
Proof.
  intros Hc Hs ps. apply cand_loop_ok in Hc. cbv zeta in Hc. fold ps in Hc.
  destruct Hc as [Ha (fs' & -> & HF)]. split; [assumption|].
  unfold cand_score in Hs. cbn [app] in Hs.
  change (mom mc_mass n0 outs (map (place_pos inf a b) ps)) with (moment mc_mass outs (map (place_pos inf a b) ps)) in Hs.
  change (mom mc_charge n0 outs (map (place_pos inf a b) ps)) with (moment mc_charge outs (map (place_pos inf a b) ps)) in Hs.
  unfold score.
  destruct (neqb (total mc_mass outs) n0), (neqb (centre inf mc_mass a b) inf); cbn [obind] in Hs; try discriminate;
  destruct (neqb (total mc_charge outs) n0), (neqb (centre inf mc_charge a b) inf); cbn [obind] in Hs; try discriminate;
  injection Hs as <- <-; auto.
Qed.

Theorem factories_spec outs s fs :
  setParticleFactories_score inf [a; b] outs = Ok (s, fs) ->
  exists ps, admissible outs ps /\ s = score inf a b outs ps /\
    Forall2 (fun op f => realises (fst op) (snd op) f) (combine outs ps) fs /\
    forall ps', admissible outs ps' -> nltb (score inf a b outs ps') s = false.
Proof.
  unfold setParticleFactories_score. rewrite in_summary_two.
  change (2 + Z.of_nat (length [a; b]))%Z with 4%Z.
  destruct (2147483647 <? _)%Z; [discriminate|].
  intros H. oinv H. oinv E0.
  fold (total mc_mass outs) in E1. fold (total mc_charge outs) in E1.
  apply omap_ok in E. apply omap_ok in E1.
  destruct (fold_left _ a1 []) as [|b0 t0] eqn:EF; [discriminate|]. injection E2 as ->.
  apply score_fold in EF as [Hin Hmin].
  (* every scored element comes from a candidate number *)
  assert (Hall : forall sc, In sc a1 -> exists j, 
      admissible outs (map place_of (srcs_of j outs)) /\
      fst sc = score inf a b outs (map place_of (srcs_of j outs)) /\
      Forall2 (fun op f => realises (fst op) (snd op) f) (combine outs (map place_of (srcs_of j outs))) (snd sc)).
  { intros sc Hsc. apply In_nth_error in Hsc as [n Hn].
    assert (exists c, nth_error a0 n = Some c /\ cand_score inf (centre inf mc_mass a b) (centre inf mc_charge a b)
       (total mc_mass outs) (total mc_charge outs) c = Ok sc) as (c & Hc & Hcs).
    { clear -E1 Hn. revert n Hn; induction E1; intros [|n] Hn; cbn in *; try discriminate.
      - injection Hn as <-. eauto. - eauto. }
    assert (exists j, cand_loop [a; b] rr 4 0 outs j n0 n0 [] = Ok c) as (j & Hj).
    { clear -E Hc. revert n Hc; induction E; intros [|n] Hc; cbn in *; try discriminate.
      - injection Hc as <-. eauto. - eauto. }
    destruct sc as [s' fs']. exists j. exact (cand_score_ok _ _ _ _ _ Hj Hcs). }
  destruct (Hall _ Hin) as (j & Ha & Hs & HF). cbn in Hs, HF.
  exists (map place_of (srcs_of j outs)). split; [assumption|]. split; [assumption|]. split; [assumption|].
  intros ps' Hps'. destruct (enumerate outs ps' Hps') as (j' & Hj' & E').
  assert (exists c sc, cand_loop [a; b] rr 4 0 outs j' n0 n0 [] = Ok c /\
     cand_score inf (centre inf mc_mass a b) (centre inf mc_charge a b)
       (total mc_mass outs) (total mc_charge outs) c = Ok sc /\ In sc a1) as (c & sc & Hc & Hsc & Hi).
  { assert (Hin' : In (Z.to_nat j') (seq 0 (Z.to_nat (4 ^ Z.of_nat (length outs))))) by (apply in_seq; lia).
    clear -E E1 Hin' Hj'. revert a1 E1. induction E as [|x y l l' Hxy Hl IH]; intros a1 E1; [destruct Hin'|].
    inversion E1; subst. destruct Hin' as [->|Hin'].
    - rewrite Z2Nat.id in Hxy by lia. eauto 6 using in_eq.
    - destruct (IH Hin' _ H3) as (c & sc & ? & ? & ?). exists c, sc. auto using in_cons. }
  destruct sc as [s' fs']. destruct (cand_score_ok _ _ _ _ _ Hc Hsc) as (_ & Es & _).
  rewrite E' in Es.
  assert (map place_of (map place_index ps') = ps') as Em.
  { rewrite map_map. rewrite <- (map_id ps') at 2. apply map_ext. apply place_of_index. }
  rewrite Em in Es. rewrite <- Es. apply (Hmin _ Hi).
Qed.

Lemma omap_ub {A B} (f : A -> outcome B) l :
  (forall x, In x l -> (exists y, f x = Ok y) \/ f x = UB) ->
  (exists x, In x l /\ f x = UB) -> omap f l = UB.
Proof.
  induction l as [|x l IH]; intros Hall (x0 & Hin & Hx); [destruct Hin|].
  cbn. destruct (Hall x (or_introl eq_refl)) as [(y & E)|E]; rewrite E; cbn; [|reflexivity].
  destruct Hin as [->|Hin]; [congruence|].
  rewrite IH; [reflexivity| |eauto]. intros; apply Hall; right; assumption.
Qed.
Lemma omap_total {A B} (f : A -> outcome B) l :
  (forall x, In x l -> exists y, f x = Ok y) -> exists ys, omap f l = Ok ys.
Proof.
  induction l as [|x l IH]; intros Hall; cbn; [eauto|].
  destruct (Hall x (or_introl eq_refl)) as (y & ->). cbn.
  destruct IH as (ys & ->); [intros; apply Hall; right; assumption|]. cbn. eauto.
Qed.

Lemma ub_or_total {A B} (f : A -> outcome B) l :
  (forall x, In x l -> (exists y, f x = Ok y) \/ f x = UB) ->
  (exists x, In x l /\ f x = UB) \/ (forall x, In x l -> exists y, f x = Ok y).
Proof.
  induction l as [|x l IH]; intros Hall; [right; intros ? []|].
  destruct (Hall x (or_introl eq_refl)) as [Hy|Hx].
  - destruct IH as [(x0 & Hin & E)|Hr]; [intros; apply Hall; right; assumption| |].
    + left; exists x0; split; [right|]; assumption.
    + right. intros z [<-|Hz]; auto.
  - left; exists x; split; [left; reflexivity|assumption].
Qed.

Lemma cand_score_cases xcm xcq mt qt c :
  (exists s, cand_score inf xcm xcq mt qt c = Ok s) \/ cand_score inf xcm xcq mt qt c = Throw ExnRuntime.
Proof.
  destruct c as [[fm fq] fs]. unfold cand_score.
  destruct (neqb mt n0), (neqb xcm inf); cbn [obind]; auto;
  destruct (neqb qt n0), (neqb xcq inf); cbn [obind]; eauto.
Qed.

Theorem factories_ub outs : (length outs <= 15)%nat ->
  setParticleFactories inf [a; b] outs = UB <->
  exists i o, nth_error outs i = Some o /\ entry_bad i o.
Proof.
  intros Hlen. unfold setParticleFactories, setParticleFactories_score. rewrite in_summary_two.
  change (2 + Z.of_nat (length [a; b]))%Z with 4%Z.
  assert (Hc : (4 ^ Z.of_nat (length outs) <= 4 ^ 15)%Z) by (apply Z.pow_le_mono_r; lia).
  change (4 ^ 15)%Z with 1073741824%Z in Hc.
  destruct (Z.ltb_spec 2147483647 (4 ^ Z.of_nat (length outs))); [lia|].
  pose proof (pow_pos (length outs)) as Hp.
  set (f := fun j => cand_loop [a; b] rr 4 0 outs (Z.of_nat j) n0 n0 []).
  set (js := seq 0 (Z.to_nat (4 ^ Z.of_nat (length outs)))).
  assert (Hf : forall x, In x js -> (exists y, f x = Ok y) \/ f x = UB).
  { intros x _. destruct (cand_loop_cases outs 0 (Z.of_nat x) n0 n0 []) as [?|[? _]]; auto. }
  split.
  - intros HU.
    destruct (omap f js) as [cs|e| |] eqn:E; cbn [obind] in HU.
    + (* no UB in candidates: score phase cannot be UB *)
      exfalso.
      match type of HU with context [omap ?g cs] => set (g0 := g) in * end.
      assert (Hcs : cs <> []).
      { apply omap_ok in E. intros ->. inversion E. unfold js in *. 
        destruct (Z.to_nat (4 ^ Z.of_nat (length outs))) eqn:En; [lia|discriminate]. }
      assert ((exists ss, omap g0 cs = Ok ss /\ ss <> []) \/ omap g0 cs = Throw ExnRuntime) as [(ss & E2 & Hne)|E2].
      { clear -Hcs. assert ((exists ss, omap g0 cs = Ok ss /\ length ss = length cs) \/ omap g0 cs = Throw ExnRuntime).
        { clear Hcs. induction cs as [|c cs IH]; cbn; [left; eauto|].
          destruct (cand_score_cases (centre inf mc_mass a b) (centre inf mc_charge a b)
             (fold_left (fun s o => nadd s (mc_mass o)) outs n0) (fold_left (fun s o => nadd s (mc_charge o)) outs n0) c) as [(s & Es)|Es];
          unfold g0 at 1 3; rewrite Es; cbn; [|right; reflexivity].
          destruct IH as [(ss & -> & Hl)| -> ]; cbn; [left|right; reflexivity].
          eexists; split; [reflexivity|]. cbn; lia. }
        destruct H as [(ss & E & Hl)|]; [left|right; assumption].
        exists ss. split; [assumption|]. intros ->. destruct cs; [congruence|discriminate]. }
      * rewrite E2 in HU. cbn [obind] in HU.
        pose proof (score_fold_nonempty ss Hne) as Hnn.
        destruct (fold_left _ ss []) as [|[s0 f0] t0]; [congruence|]. cbn [obind] in HU. discriminate.
      * rewrite E2 in HU. discriminate.
    + discriminate.
    + (* UB in some candidate *)
      destruct (ub_or_total f js Hf) as [Hx|Hx]; [destruct Hx as (x & _ & Hx)|].
      * unfold f in Hx. destruct (cand_loop_cases outs 0 (Z.of_nat x) n0 n0 []) as [(? & Hy)|[_ (k & o & Hn & Hb)]]; [congruence|].
        exists k, o. cbn in Hb. auto.
      * exfalso. destruct (omap_total f js Hx) as (ys & Ey). congruence.
    + discriminate.
  - intros (k & o & Hn & Hb).
    destruct (cand_loop_bad outs 0 k o Hn Hb) as (j & Hj & Hub).
    rewrite (omap_ub f js Hf); [reflexivity|].
    exists (Z.to_nat j). split; [apply in_seq; lia|].
    unfold f. rewrite Z2Nat.id by lia. specialize (Hub 0%Z n0 n0 []). rewrite Z.mul_0_l, Z.add_0_l in Hub. assumption.
Qed.

(** Without the length bound: 16 or more products overflow the candidate count. *)
Theorem factories_ub_all outs :
  setParticleFactories inf [a; b] outs = UB <->
  (16 <= length outs)%nat \/ exists i o, nth_error outs i = Some o /\ entry_bad i o.
Proof.
  destruct (Nat.le_gt_cases (length outs) 15) as [H|H].
  - rewrite factories_ub by assumption. split; [auto|intros [?|?]; [lia|assumption]].
  - split; [intros _; left; lia|intros _].
    unfold setParticleFactories, setParticleFactories_score. rewrite in_summary_two.
    change (2 + Z.of_nat (length [a; b]))%Z with 4%Z.
    assert (Hc : (4 ^ 16 <= 4 ^ Z.of_nat (length outs))%Z) by (apply Z.pow_le_mono_r; lia).
    change (4 ^ 16)%Z with 4294967296%Z in Hc.
    destruct (Z.ltb_spec 2147483647 (4 ^ Z.of_nat (length outs))); [reflexivity|lia].
Qed.


(** Apart from undefined behaviour the choice fails exactly when the total mass (charge) of
    the products vanishes without that of the reactants doing so, or the reverse. *)
Definition matched (outs : list (massCharge N)) : bool :=
  (Bool.eqb (total mc_mass outs =? n0)%num (centre inf mc_mass a b =? inf)%num &&
   Bool.eqb (total mc_charge outs =? n0)%num (centre inf mc_charge a b =? inf)%num)%bool.
Theorem factories_rejected outs : setParticleFactories inf [a; b] outs <> UB ->
  (matched outs = true -> exists fs, setParticleFactories inf [a; b] outs = Ok fs) /\
  (matched outs = false -> setParticleFactories inf [a; b] outs = Throw ExnRuntime).
Proof.
  unfold setParticleFactories, setParticleFactories_score. rewrite in_summary_two.
  change (2 + Z.of_nat (length [a; b]))%Z with 4%Z.
  destruct (2147483647 <? 4 ^ Z.of_nat (length outs))%Z; [cbn [obind]; congruence|].
  pose proof (pow_pos (length outs)) as Hp.
  set (f := fun j => cand_loop [a; b] rr 4 0 outs (Z.of_nat j) n0 n0 []).
  set (js := seq 0 (Z.to_nat (4 ^ Z.of_nat (length outs)))).
  destruct (ub_or_total f js) as [(x & Hx & Hu)|Hx].
  { intros x _. destruct (cand_loop_cases outs 0 (Z.of_nat x) n0 n0 []) as [?|[? _]]; auto. }
  { rewrite (omap_ub f js); [cbn [obind]; congruence| |exists x; auto].
    intros y _. destruct (cand_loop_cases outs 0 (Z.of_nat y) n0 n0 []) as [?|[? _]]; auto. }
  destruct (omap_total f js Hx) as (cs & E). rewrite E. cbn [obind].
  assert (Hcs : cs <> []).
  { apply omap_ok in E. intros ->. inversion E. unfold js in *. destruct (Z.to_nat (4 ^ Z.of_nat (length outs))) eqn:En; [lia|discriminate]. }
  fold (total mc_mass outs) (total mc_charge outs).
  set (g0 := cand_score inf (centre inf mc_mass a b) (centre inf mc_charge a b) (total mc_mass outs) (total mc_charge outs)).
  assert (Hg : forall c, if matched outs then exists s, g0 c = Ok s else g0 c = Throw ExnRuntime).
  { intros [[fm fq] fs]. unfold g0, cand_score, matched.
    destruct (neqb (total mc_mass outs) n0), (neqb (centre inf mc_mass a b) inf); cbn [obind Bool.eqb andb]; auto;
    destruct (neqb (total mc_charge outs) n0), (neqb (centre inf mc_charge a b) inf); cbn [obind Bool.eqb andb]; eauto. }
  intros _. destruct (matched outs); (split; [intros Hm|intros Hm]; try discriminate Hm; clear Hm).
  - destruct (omap_total g0 cs) as (ss & E2); [intros c _; apply Hg|]. rewrite E2. cbn [obind].
    assert (Hne : ss <> []). { intros ->. apply omap_ok in E2. inversion E2. congruence. }
    pose proof (score_fold_nonempty ss Hne) as Hnn.
    destruct (fold_left _ ss []) as [|[s0 f0] t0]; [congruence|]. cbn [obind]. eauto.
  - destruct cs as [|c cs]; [congruence|]. cbn [omap]. rewrite (Hg c). reflexivity.
Qed.
End Fac.
