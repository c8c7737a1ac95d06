(** Proofs about examples/simtest: sorting and the cell. *)
From Coq Require Import String ZArith Bool Arith Lia Permutation List.
From Verif Require Import Base Num ModelTerm ModelCollide ModelXsec ModelSet ModelEq ModelFilter ModelDB ModelMisc ModelSim SpecSet SpecSim ProofInelastic.
From Coq Require Import List.
Import ListNotations.

Section Sim.
Context {N : Num}.
Implicit Types (ps g : list (particle N)) (gs : list (list (particle N))).

Lemma ranges_length gs : forall a, length (ranges_of a gs) = length gs.
Proof. induction gs as [|g gs IH]; intros a; [reflexivity|]. cbn. now rewrite IH. Qed.
(** The ranges of groups in the concatenation. *)
Lemma ranges_nth gs : forall a A g, nth_error gs A = Some g -> exists pre,
  nth_error (ranges_of a gs) A = Some (a + length pre, a + length pre + length g)%nat /\
  exists post, concat gs = pre ++ g ++ post /\ pre = concat (firstn A gs).
Proof.
  induction gs as [|g0 gs IH]; intros a A g H; [destruct A; discriminate|]. destruct A as [|A].
  - injection H as ->. exists []. split; [cbn; do 2 f_equal; lia|]. exists (concat gs). split; reflexivity.
  - destruct (IH (a + length g0)%nat A g H) as (pre & E & post & Ec & Ep). exists (g0 ++ pre). split.
    + cbn [ranges_of nth_error]. rewrite E, app_length. do 2 f_equal; lia.
    + exists post. cbn [concat firstn]. rewrite Ec, Ep. split; [now rewrite !app_assoc|reflexivity].
Qed.
Lemma filter_split (f h : particle N -> bool) ps : (forall p, In p ps -> f p = true -> h p = false) ->
  Permutation (filter f ps ++ filter h ps) (filter (fun p => f p || h p) ps).
Proof.
  induction ps as [|p ps IH]; intros H; [constructor|]. cbn [filter].
  assert (IH' := IH (fun q Hq => H q (or_intror Hq))). specialize (H p (or_introl eq_refl)). destruct (f p) eqn:Ef.
  - rewrite (H eq_refl). cbn. now constructor.
  - destruct (h p); [|exact IH']. cbn. rewrite <- IH'. symmetry. apply Permutation_middle.
Qed.
Lemma groups_perm ps : forall n, Permutation (concat (groups_of n ps)) (filter (fun p => (0 <=? p_species p)%Z && (p_species p <? Z.of_nat n)%Z) ps).
Proof.
  induction n as [|n IH].
  - cbn. induction ps as [|p ps IHp]; [constructor|]. cbn [filter]. destruct (_ && _) eqn:E; [|exact IHp].
    apply andb_true_iff in E as [E1 E2]. apply Z.leb_le in E1. apply Z.ltb_lt in E2. lia.
  - unfold groups_of in *. rewrite seq_S, map_app, concat_app, IH. cbn [map concat]. rewrite app_nil_r. cbn [Nat.add].
    rewrite filter_split.
    + erewrite filter_ext; [apply Permutation_refl|]. intros p. cbv beta.
      destruct (Z.leb_spec 0 (p_species p)), (Z.ltb_spec (p_species p) (Z.of_nat n)), (Z.eqb_spec (p_species p) (Z.of_nat n)), (Z.ltb_spec (p_species p) (Z.of_nat (S n))); cbn; try reflexivity; lia.
    + intros p _ E. apply andb_true_iff in E as [_ E]. apply Z.ltb_lt in E. apply Z.eqb_neq. lia.
Qed.
Lemma filter_all {A} (f : A -> bool) l : forallb f l = true -> filter f l = l.
Proof. induction l as [|x l IH]; [reflexivity|]. cbn. intros H. apply andb_true_iff in H as [-> H]. now rewrite IH. Qed.

Lemma sort_defined n ps : (exists m, sortBySpecies n ps = Ok m) <-> (0 < n)%nat /\ forall p, In p ps -> (0 <= p_species p < Z.of_nat n)%Z.
Proof.
  unfold sortBySpecies. destruct (_ && _) eqn:E.
  - apply andb_true_iff in E as [E1 E2]. apply Nat.ltb_lt in E1. split; [|eauto]. intros _. split; [exact E1|].
    intros p Hp. rewrite forallb_forall in E2. specialize (E2 p Hp). apply andb_true_iff in E2 as [H1 H2]. apply Z.leb_le in H1. apply Z.ltb_lt in H2. lia.
  - split; [intros [m H]; discriminate|]. intros [L H]. exfalso.
    assert (X : (Nat.ltb 0 n && forallb (fun p : particle N => (0 <=? p_species p)%Z && (p_species p <? Z.of_nat n)%Z) ps) = true); [|congruence].
    apply andb_true_iff. split; [now apply Nat.ltb_lt|]. apply forallb_forall. intros p Hp. specialize (H p Hp).
    apply andb_true_iff. split; [apply Z.leb_le|apply Z.ltb_lt]; lia.
Qed.
Lemma sort_not n ps : sortBySpecies n ps = UB \/ exists m, sortBySpecies n ps = Ok m.
Proof. unfold sortBySpecies. destruct (_ && _); eauto. Qed.
Lemma sort_sorted n ps mem rs : sortBySpecies n ps = Ok (mem, rs) ->
  Permutation mem ps /\ length rs = n /\
  forall A, (A < n)%nat -> exists a b, nth_error rs A = Some (a, b) /\ (a <= b <= length mem)%nat /\
    forall i p, nth_error mem i = Some p -> ((a <= i < b)%nat <-> p_species p = Z.of_nat A).
Proof.
  unfold sortBySpecies. destruct (_ && _) eqn:E; [|discriminate]. intros H. injection H as <- <-. apply andb_true_iff in E as [_ E].
  assert (LG : length (groups_of n ps) = n) by (unfold groups_of; now rewrite map_length, seq_length).
  split; [|split].
  - rewrite groups_perm. rewrite (filter_all _ _ E). apply Permutation_refl.
  - now rewrite ranges_length.
  - intros A L.
    assert (G : nth_error (groups_of n ps) A = Some (filter (fun p => Z.eqb (p_species p) (Z.of_nat A)) ps)).
    { unfold groups_of. rewrite nth_error_map, (nth_error_nth' _ 0%nat) by (rewrite seq_length; exact L). now rewrite seq_nth. }
    destruct (ranges_nth _ 0 A _ G) as (pre & Er & post & Ec & Ep). eexists _, _. split; [exact Er|].
    rewrite Ec. cbn [Nat.add]. split; [rewrite !app_length; lia|]. set (g := filter _ ps) in *.
    assert (Pg : forall p, In p g -> p_species p = Z.of_nat A) by (intros p Hp; apply filter_In in Hp as [_ Hp]; now apply Z.eqb_eq).
    assert (Po : forall p gs, In p (concat gs) -> (forall i h, nth_error gs i = Some h -> exists j, j <> A /\ forall q, In q h -> p_species q = Z.of_nat j) -> p_species p <> Z.of_nat A).
    { intros p gs Hp Hgs. apply in_concat in Hp as (h & Hh & Hp). apply In_nth_error in Hh as (i & Hi). destruct (Hgs i h Hi) as (j & Nj & Hj). rewrite (Hj p Hp). lia. }
    assert (Gn : forall i h, nth_error (groups_of n ps) i = Some h -> forall q, In q h -> p_species q = Z.of_nat i).
    { intros i h Hi q Hq. unfold groups_of in Hi. rewrite nth_error_map in Hi. destruct (nth_error (seq 0 n) i) as [j|] eqn:Ej; [|discriminate]. cbn in Hi. injection Hi as <-.
      assert (Li : (i < n)%nat) by (rewrite <- (seq_length n 0); apply nth_error_Some; congruence).
      rewrite (nth_error_nth' _ 0%nat) in Ej by (now rewrite seq_length). rewrite seq_nth in Ej by exact Li. injection Ej as <-. apply filter_In in Hq as [_ Hq]. now apply Z.eqb_eq. }
    assert (Ppre : forall p, In p pre -> p_species p <> Z.of_nat A).
    { rewrite Ep. intros p Hp. apply (Po p (firstn A (groups_of n ps)) Hp). intros i h Hi.
      assert (Li : (i < A)%nat). { assert (i < length (firstn A (groups_of n ps)))%nat by (apply nth_error_Some; congruence). rewrite firstn_length in H. lia. }
      exists i. split; [lia|]. apply (Gn i h). rewrite <- Hi. rewrite <- (firstn_skipn A (groups_of n ps)) at 1. rewrite nth_error_app1; [reflexivity|]. rewrite firstn_length. lia. }
    assert (Ppost : forall p, In p post -> p_species p <> Z.of_nat A).
    { intros p Hp. assert (Es : post = concat (skipn (S A) (groups_of n ps))).
      { assert (X : pre ++ g ++ post = pre ++ g ++ concat (skipn (S A) (groups_of n ps))).
        { rewrite <- Ec. rewrite <- (firstn_skipn A (groups_of n ps)) at 1. rewrite concat_app, <- Ep. f_equal.
          assert (Sk : skipn A (groups_of n ps) = g :: skipn (S A) (groups_of n ps)).
          { clearbody g. clear -G. revert A G. generalize (groups_of n ps) as gs. induction gs as [|x gs IH]; intros A G; [destruct A; discriminate|]. destruct A as [|A]; [cbn in G; injection G as <-; reflexivity|]. cbn [skipn]. now apply IH. }
          rewrite Sk. reflexivity. }
        apply app_inv_head in X. now apply app_inv_head in X. }
      rewrite Es in Hp. apply (Po p _ Hp). intros i h Hi. exists (S A + i)%nat. split; [lia|]. apply (Gn (S A + i)%nat h).
      rewrite <- Hi. clear. generalize (S A) as m. generalize (groups_of n ps) as gs. induction gs as [|x gs IH]; intros m; [destruct m, i; reflexivity|]. destruct m; [reflexivity|]. cbn [skipn Nat.add nth_error]. apply IH. }
    intros i p Hp. destruct (Nat.lt_ge_cases i (length pre)) as [L1|L1].
    + rewrite nth_error_app1 in Hp by exact L1. apply nth_error_In in Hp. split; [lia|]. intros X. exfalso. exact (Ppre p Hp X).
    + rewrite nth_error_app2 in Hp by exact L1. destruct (Nat.lt_ge_cases (i - length pre) (length g)) as [L2|L2].
      * rewrite nth_error_app1 in Hp by exact L2. apply nth_error_In in Hp. split; [intros _; now apply Pg|lia].
      * rewrite nth_error_app2 in Hp by exact L2. apply nth_error_In in Hp. split; [lia|]. intros X. exfalso. exact (Ppost p Hp X).
Qed.

(** What the sorted cell gives. *)
Lemma sort_cell n ps mem rs : sortBySpecies n ps = Ok (mem, rs) -> (Z.of_nat (length ps) < 2 ^ 31)%Z ->
  bounded (2 ^ 31) rs /\ disjoint rs /\ (forall A r, nth_error rs A = Some r -> (snd r <= length mem)%nat) /\
  (forall A r, nth_error rs A = Some r -> rsize r = 0%nat <-> ~ occurs ps A) /\
  (forall A r i, nth_error rs A = Some r -> in_range i r -> exists p, nth_error mem i = Some p /\ p_species p = Z.of_nat A).
Proof.
  intros H Hb. apply sort_sorted in H as (P & L & S). pose proof (Permutation_length P) as PL.
  assert (R : forall A r, nth_error rs A = Some r -> (fst r <= snd r <= length mem)%nat /\
    forall i p, nth_error mem i = Some p -> ((fst r <= i < snd r)%nat <-> p_species p = Z.of_nat A)).
  { intros A r HA. assert (LA : (A < n)%nat) by (rewrite <- L; apply nth_error_Some; congruence). destruct (S A LA) as (a & b & E & HS). rewrite HA in E. injection E as ->. exact HS. }
  assert (T : forall A r i, nth_error rs A = Some r -> in_range i r -> exists p, nth_error mem i = Some p /\ p_species p = Z.of_nat A).
  { intros A r i HA Hi. destruct (R A r HA) as [L1 HS]. unfold in_range in Hi. destruct (nth_error mem i) as [p|] eqn:E; [|apply nth_error_None in E; lia].
    exists p. split; [reflexivity|]. apply (HS i p E). exact Hi. }
  split; [|split; [|split; [|split; [|exact T]]]].
  - apply List.Forall_forall. intros r Hr. apply In_nth_error in Hr as (A & HA). destruct (R A r HA) as [L1 _]. unfold rsize. lia.
  - intros A B ra rb i NAB HA HB Ha Hi. destruct (T A ra i HA Ha) as (p & E & Ep). destruct (T B rb i HB Hi) as (q & E' & Eq). rewrite E in E'. injection E' as <-. lia.
  - intros A r HA. destruct (R A r HA) as [L1 _]. lia.
  - intros A r HA. destruct (R A r HA) as [L1 HS]. unfold rsize. split.
    + intros Z0 (p & Hp & Ep). apply (Permutation_in p (Permutation_sym P)) in Hp. apply In_nth_error in Hp as (i & Hi). apply (HS i p Hi) in Ep. lia.
    + intros NO. destruct (Nat.eq_dec (snd r - fst r) 0) as [|NZ]; [assumption|]. exfalso. apply NO.
      destruct (T A r (fst r) HA) as (p & Ep & Es); [unfold in_range; lia|]. exists p. split; [|exact Es]. eapply Permutation_in; [exact P|]. eapply nth_error_In; exact Ep.
Qed.

(** Creation. *)
Lemma created_from n species position velocity l : forall ps0 ps,
  ofold (fun (ps : list (particle N)) i => do p <- randomParticle n species position velocity i; Ok (ps ++ [p])) ps0 l = Ok ps ->
  exists new, ps = ps0 ++ new /\ List.Forall2 (fun i p => randomParticle n species position velocity i = Ok p) l new.
Proof.
  induction l as [|i l IH]; intros ps0 ps H; cbn [ofold] in H.
  - injection H as <-. exists []. split; [now rewrite app_nil_r|constructor].
  - apply obind_ok in H as (ps1 & E & H). apply obind_ok in E as (p & Ep & E). injection E as <-. destruct (IH _ _ H) as (new & -> & F).
    exists (p :: new). split; [now rewrite <- app_assoc|]. now constructor.
Qed.
Lemma created_spec n count species position velocity ps : createRandomParticles (N:=N) n count species position velocity = Ok ps ->
  length ps = count /\ forall p, In p ps -> (0 <= p_species p < Z.of_nat n)%Z /\ p_weight p = n1.
Proof.
  intros H. apply created_from in H as (new & -> & F). cbn [app]. split.
  - rewrite <- (seq_length count 0). clear -F. induction F; [reflexivity|]. cbn. now f_equal.
  - intros p Hp. apply In_nth_error in Hp as (j & Hj).
    assert (exists i, randomParticle n species position velocity i = Ok p) as (i & E).
    { clear -F Hj. revert j Hj. induction F as [|i q l new Hq F IH]; intros j Hj; [destruct j; discriminate|]. destruct j as [|j]; [cbn in Hj; injection Hj as <-; eauto|]. exact (IH j Hj). }
    unfold randomParticle in E. apply obind_ok in E as (sp & _ & E). destruct (_ && _) eqn:B; [|discriminate]. injection E as <-.
    apply andb_true_iff in B as [B1 B2]. apply Z.leb_le in B1. apply Z.ltb_lt in B2. cbn. split; [lia|reflexivity].
Qed.
Lemma created_total n count species position velocity : (forall i, (i < count)%nat -> exists sp, to_int (species i) = Ok sp /\ (0 <= sp < Z.of_nat n)%Z) ->
  exists ps, createRandomParticles (N:=N) n count species position velocity = Ok ps.
Proof.
  intros H. unfold createRandomParticles. assert (G : forall l ps0, (forall i, In i l -> (i < count)%nat) ->
    exists ps, ofold (fun (ps : list (particle N)) i => do p <- randomParticle n species position velocity i; Ok (ps ++ [p])) ps0 l = Ok ps).
  { induction l as [|i l IH]; intros ps0 Hl; [cbn; eauto|]. cbn [ofold]. unfold randomParticle at 1.
    destruct (H i (Hl i (or_introl eq_refl))) as (sp & E & B). rewrite E. cbn [obind].
    assert (X : ((0 <=? sp)%Z && (sp <? Z.of_nat n)%Z) = true) by (apply andb_true_iff; split; [apply Z.leb_le|apply Z.ltb_lt]; lia). rewrite X. cbn [obind].
    apply IH. intros j Hj. apply Hl. now right. }
  apply G. intros i Hi. apply in_seq in Hi. lia.
Qed.
End Sim.
