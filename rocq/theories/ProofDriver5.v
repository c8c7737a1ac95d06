(** Runs have no undefined behaviour unless a needed range is empty (C41). *)
From Coq Require Import Reals Lra Lia ZArith Bool List Permutation.
From Flocq Require Import Core.Core IEEE754.BinarySingleNaN.
From Verif Require Import Base Num ModelTerm ModelCollide ModelXsec ModelSet SpecPhys SpecXsec SpecSet
  ProofCollide ProofF64 ProofInelastic ProofSet ProofFloat ProofSelect ProofDriver ProofDriver2 ProofDriver3 ProofDriver4.
From Coq Require Import List.
Import ListNotations.

Lemma obind_ub {A B} (x : outcome A) (f : A -> outcome B) : x <> UB -> (forall a, x = Ok a -> f a <> UB) -> obind x f <> UB.
Proof. destruct x; cbn; intros H1 H2; try congruence. apply H2. reflexivity. Qed.
Lemma omap_ub {A B} (f : A -> outcome B) l : (forall x, In x l -> f x <> UB) -> omap f l <> UB.
Proof.
  induction l as [|x l IH]; intros H; cbn [omap]; [discriminate|].
  apply obind_ub; [apply H; left; reflexivity|]. intros y _. apply obind_ub; [apply IH; intros; apply H; right; assumption|]. discriminate.
Qed.
Lemma oget_ub {A} (l : list A) n : (n < length l)%nat -> oget l n <> UB.
Proof. unfold oget. intros H. destruct (nth_error l n) eqn:E; [discriminate|]. apply nth_error_None in E. lia. Qed.

Section AnyNum.
Context {N : Num}.
Variable K : N.

Lemma set_safe inplace rhs max (pA pB : particle N) l g k : List.Forall (safe_eq K inplace) rhs -> set_interact K inplace rhs max pA pB l g k <> UB.
Proof.
  intros H. unfold set_interact. apply obind_ub.
  - unfold calculateOutPath. apply obind_ub.
    + apply omap_ub. intros e He. rewrite Forall_forall in H. apply (H e He).
    + intros cs _. destruct (_ <? _)%num; discriminate.
  - intros [path k1] Ep. unfold calculateOutPath in Ep. apply obind_ok in Ep as (cs & Ec & Ep).
    assert (Hl : length cs = length rhs) by (symmetry; eapply F2_length, omap_ok; exact Ec).
    destruct (_ <? _)%num; [injection Ep as <- <-; discriminate|]. injection Ep as <- <-.
    destruct (pick_valid cs (g_exc g (k + 1) * cs_total cs)%num n0 0%Z) as [->|(n & c & Hn & ->)]; cbn [fst]; [discriminate|].
    replace (0 <=? 0 + Z.of_nat n)%Z with true by (symmetry; apply Z.leb_le; lia). rewrite Z.add_0_l, Nat2Z.id.
    assert (n < length cs)%nat by (apply nth_error_Some; rewrite Hn; discriminate).
    apply obind_ub; [apply oget_ub; lia|]. intros e Ee. apply oget_ok in Ee. rewrite Forall_forall in H. destruct (H e (nth_error_In _ _ Ee)) as [_ Hm].
    destruct (_ <? _)%Z; (apply obind_ub; [apply Hm|intros [[[? ?] ?] ?] _; discriminate]).
Qed.

Lemma pick_other_safe pA (r : range) (g : rng N) : (forall k, exists i, rand_pos r g k = Ok i /\ in_range i r) -> forall fuel k, pick_other fuel pA r g k <> UB.
Proof.
  intros Hp. induction fuel as [|fuel IH]; intros k; cbn [pick_other]; [discriminate|]. destruct (Hp k) as (i & -> & _). cbn [obind].
  destruct (Nat.eqb pA i); [apply IH|discriminate].
Qed.

Lemma retval_safe A B i j (s : dstate N) ra rb :
  nth_error (s_ranges s) A = Some ra -> nth_error (s_ranges s) B = Some rb ->
  in_range i ra -> in_range j rb -> i <> j -> (A = B \/ ~ in_range j ra) ->
  (snd ra <= length (s_mem s))%nat -> (snd rb <= length (s_mem s))%nat ->
  retval_inplace A B (i, j) s <> UB.
Proof.
  intros EA EB Hi Hj Hij Hd LA LB. unfold retval_inplace, in_range in *.
  assert (La : (A < length (s_ranges s))%nat) by (apply nth_error_Some; unfold range in *; congruence).
  assert (Lb : (B < length (s_ranges s))%nat) by (apply nth_error_Some; unfold range in *; congruence).
  apply obind_ub; [apply oget_ub; assumption|]. intros ra' E. apply oget_ok in E. rewrite EA in E. injection E as <-.
  destruct ra as [ba ea], rb as [bb eb]. cbn [fst snd] in *. destruct (Nat.eqb_spec j (ea - 1)).
  - destruct (Nat.eqb_spec A B) as [->|Hne]; [|exfalso; destruct Hd as [Hd|Hd]; [contradiction|lia]].
    apply obind_ub; [apply oget_ub; lia|]. intros p _. apply obind_ub; [apply oget_ub; assumption|]. discriminate.
  - apply obind_ub; [apply oget_ub; lia|]. intros p _. apply obind_ub; [apply oget_ub; rewrite upd_length; assumption|].
    intros rb' E. apply oget_ok in E. apply obind_ub; [|discriminate]. apply oget_ub. rewrite upd_length.
    rewrite upd_nth in E. destruct (_ && _)%bool; [injection E as <-; cbn [snd]; lia|]. unfold range in *. rewrite EB in E. injection E as <-. cbn [snd]. lia.
Qed.

Lemma retval_length A B pr (s s' : dstate N) : retval_inplace A B pr s = Ok s' -> length (s_mem s') = length (s_mem s).
Proof.
  unfold retval_inplace. intros H. apply obind_ok in H as (x & _ & H). destruct (Nat.eqb _ _); [destruct (Nat.eqb A B); [|discriminate]|];
    repeat (apply obind_ok in H as (? & _ & H)); injection H as <-; cbn [s_mem]; rewrite ?upd_length; reflexivity.
Qed.
Lemma one_test_length inplace sfuel rhs msv A B g (s s' : dstate N) : one_test K inplace sfuel rhs msv A B g s = Ok s' -> length (s_mem s') = length (s_mem s).
Proof.
  unfold one_test. intros H. do 2 (apply obind_ok in H as (? & _ & H)). apply obind_ok in H as ([[i j] k] & _ & H).
  do 2 (apply obind_ok in H as (? & _ & H)). apply obind_ok in H as ([[[[path a] b] l] k'] & _ & H).
  destruct (_ || _)%bool; [injection H as <-|apply retval_length in H; rewrite H]; cbn [s_mem]; rewrite !upd_length; reflexivity.
Qed.

Section Run.
Variables (inplace : bool) (g : rng N) (bnd : Z) (rs0 : list range) (er0 : list nat) (res0 : list (particle N)) (len : nat).
Hypothesis Hpos : pos_ok g bnd.
Hypothesis Htot : pos_total g bnd.
Hypothesis Hb : bounded bnd rs0.
Hypothesis Hd : inplace = true -> disjoint rs0.
Hypothesis Hmem : forall A r, nth_error rs0 A = Some r -> (snd r <= len)%nat.

Lemma one_test_safe sfuel rhs msv A B s : List.Forall (safe_eq K inplace) rhs -> reach rs0 er0 res0 s -> length (s_mem s) = len ->
  enough A B (s_ranges s) -> one_test K inplace sfuel rhs msv A B g s <> UB.
Proof.
  intros Hs [Hsh _ _] Hl Hen. destruct (enough_nth _ _ _ Hen) as (ra & rb & EA & EB).
  destruct (enough_sizes bnd _ _ _ _ _ Hen EA EB (bounded_shrinks bnd _ _ Hsh Hb)) as [SA SB].
  destruct (shrinks_nth _ _ _ _ Hsh EA) as (ra0 & EA0 & A1 & A2). destruct (shrinks_nth _ _ _ _ Hsh EB) as (rb0 & EB0 & B1 & B2).
  pose proof (Hmem _ _ EA0). pose proof (Hmem _ _ EB0).
  unfold one_test. unfold oget at 1 2. rewrite EA, EB. cbn [obind]. apply obind_ub.
  { unfold selectRandomPair. destruct (Htot ra (s_pos s) SA) as (i & -> & _). cbn [obind]. apply obind_ub; [apply pick_other_safe; intros k; apply Htot; assumption|].
    intros [? ?] _. discriminate. }
  intros [[i j] k] Es. destruct (select_pos _ _ _ _ _ _ _ _ _ Hpos SA SB Es) as (Hi & Hj & Hij). unfold in_range in Hi, Hj.
  apply obind_ub; [apply oget_ub; lia|]. intros pA _. apply obind_ub; [apply oget_ub; lia|]. intros pB _.
  apply obind_ub; [apply set_safe; assumption|]. intros [[[[path a] b] l] k'] _. cbv beta zeta.
  destruct (_ || _)%bool eqn:Eb; [discriminate|].
  assert (Hin : inplace = true) by (destruct inplace; [reflexivity|discriminate]).
  apply retval_safe with ra rb; cbn [s_ranges s_mem]; try assumption; rewrite ?upd_length; try lia.
  destruct (Nat.eq_dec A B) as [Q|Q]; [left; assumption|right]. intros Hc. apply (disjoint_shrinks _ _ Hsh (Hd Hin) A B ra rb j Q EA EB Hc). assumption.
Qed.

Lemma loop_safe rhs msv A B sfuel : List.Forall (safe_eq K inplace) rhs -> List.Forall (fun e => appends (q_model e)) rhs ->
  (A < length rs0)%nat -> (B < length rs0)%nat ->
  forall fuel x s, reach rs0 er0 res0 s -> length (s_mem s) = len ->
  test_loop K fuel inplace sfuel rhs msv A B x g s <> UB /\
  forall s', test_loop K fuel inplace sfuel rhs msv A B x g s = Ok s' -> reach rs0 er0 res0 s' /\ length (s_mem s') = len.
Proof.
  intros Hs Happ LA LB. induction fuel as [|fuel IH]; intros x s Hr Hl; cbn [test_loop]; [split; [discriminate|intros ? [=]]|].
  destruct (n1 <? x)%num; [|split; [discriminate|intros ? [= <-]; auto]].
  assert (Hn : forall C, (C < length rs0)%nat -> exists r, nth_error (s_ranges s) C = Some r).
  { intros C HC. destruct (nth_error (s_ranges s) C) eqn:E; [eauto|]. apply nth_error_None in E. pose proof (F2_length _ _ _ (r_shrinks _ _ _ _ Hr)) as HL. unfold range in *. lia. }
  destruct (Hn A LA) as (ra & EA). destruct (Hn B LB) as (rb & EB). unfold oget. rewrite EA, EB. cbn [obind].
  destruct (_ || _)%bool eqn:Ec; [split; [discriminate|intros ? [= <-]; auto]|]. apply (enough_cond A B _ _ _ EA EB) in Ec.
  pose proof (one_test_safe sfuel rhs msv A B s Hs Hr Hl Ec) as Hns.
  destruct (one_test K inplace sfuel rhs msv A B g s) as [s1|e| |] eqn:E1; cbn [obind]; [|split; [discriminate|intros ? [=]]|congruence|split; [discriminate|intros ? [=]]].
  apply IH; [|rewrite (one_test_length _ _ _ _ _ _ _ _ _ E1); assumption].
  eapply one_test_reach; eassumption.
Qed.

Lemma second_safe fuel db (l : list (ctdata N)) :
  List.Forall (fun ct => (ct_A ct < length rs0)%nat /\ (ct_B ct < length rs0)%nat /\
    List.Forall (safe_eq K inplace) (db (ct_A ct) (ct_B ct)) /\ List.Forall (fun e => appends (q_model e)) (db (ct_A ct) (ct_B ct))) l ->
  forall s, reach rs0 er0 res0 s -> length (s_mem s) = len -> second_pass K fuel inplace db g l s <> UB.
Proof.
  unfold second_pass. induction 1 as [|ct l (LA & LB & Hs & Ha) H IH]; intros s Hr Hl; cbn [ofold]; [discriminate|].
  destruct (loop_safe (db (ct_A ct) (ct_B ct)) (ct_msv ct) (ct_A ct) (ct_B ct) fuel Hs Ha LA LB fuel (ct_tests ct) s Hr Hl) as [H1 H2].
  apply obind_ub; [assumption|]. intros s1 E1. destruct (H2 s1 E1) as [Hr1 Hl1]. apply IH; assumption.
Qed.
End Run.

Lemma driver_ub fuel inplace dt (c : cell N) nprops db res er g k bnd :
  pos_total g bnd -> bounded bnd (c_ranges c) -> (inplace = true -> disjoint (c_ranges c)) ->
  (forall A r, nth_error (c_ranges c) A = Some r -> (snd r <= length (c_mem c))%nat) ->
  (forall A B, List.Forall (fun e => safe_eq K inplace e /\ appends (q_model e)) (db A B) /\
     (db A B <> [] -> exists m, findMaxSigmaVProduct K (db A B) (c_maxv c A B) = Ok m)) ->
  (driver K fuel inplace dt c nprops db res er g k = UB <-> empty_needed db (Nat.min (length (c_ranges c)) nprops) (c_ranges c)).
Proof.
  intros Htot Hb Hd Hmem Hdb. set (n := Nat.min (length (c_ranges c)) nprops).
  assert (Hpos : pos_ok g bnd). { intros r k0 i Hs E. destruct (Htot r k0 Hs) as (i' & E' & Hi). rewrite E in E'. injection E' as <-. assumption. }
  assert (Hl : forall C, (C < n)%nat -> exists r, nth_error (c_ranges c) C = Some r).
  { intros C HC. destruct (nth_error (c_ranges c) C) eqn:E; [eauto|]. apply nth_error_None in E. lia. }
  destruct (first_pass_empty K db dt c g (species_pairs n) k) as [H1 H2].
  - intros A B Hin. apply species_pairs_in in Hin. split; [apply Hl; lia|]. split; [apply Hl; lia|]. apply Hdb.
  - assumption.
  - assert (Hdec : empty_needed db n (c_ranges c) \/ forall A B r, In (A, B) (species_pairs n) -> db A B <> [] ->
       (nth_error (c_ranges c) A = Some r \/ nth_error (c_ranges c) B = Some r) -> (0 < rsize r)%nat).
    { assert (Hps : forall ps, (forall A B, In (A, B) ps -> (A <= B < n)%nat) -> empty_needed db n (c_ranges c) \/ forall A B r, In (A, B) ps -> db A B <> [] ->
         (nth_error (c_ranges c) A = Some r \/ nth_error (c_ranges c) B = Some r) -> (0 < rsize r)%nat); [|apply Hps; intros A B; apply species_pairs_in].
      induction ps as [|[A B] ps IH]; intros Hin; [right; intros ? ? ? []|].
      destruct IH as [IH|IH]; [intros; apply Hin; right; assumption|left; assumption|].
      assert (HAB : (A <= B < n)%nat) by (apply Hin; left; reflexivity). destruct (Hl A ltac:(lia)) as (ra & EA). destruct (Hl B ltac:(lia)) as (rb & EB).
      destruct (db A B) as [|e es] eqn:Edb.
      { right. intros A' B' r [E|E] Hne; [injection E as <- <-; congruence|]. apply IH; assumption. }
      destruct (Nat.eq_dec (rsize ra) 0) as [Za|Za]; [left; exists A, B, ra; rewrite Edb; split; [lia|]; split; [discriminate|]; auto|].
      destruct (Nat.eq_dec (rsize rb) 0) as [Zb|Zb]; [left; exists A, B, rb; rewrite Edb; split; [lia|]; split; [discriminate|]; auto|].
      right. intros A' B' r [E|E] Hne Hr; [|eapply IH; eassumption]. injection E as <- <-.
      destruct Hr as [Hr|Hr]; [rewrite EA in Hr|rewrite EB in Hr]; injection Hr as <-; lia. }
    split.
    + intros HU. destruct Hdec as [Hdec|Hdec]; [assumption|]. exfalso. destruct (H2 Hdec) as (l & k' & E). unfold driver in HU. cbv zeta in HU. fold n in HU. rewrite E in HU. cbn [obind] in HU.
      revert HU. apply (second_safe inplace g bnd (c_ranges c) er res (length (c_mem c)) Hpos Htot Hb Hd Hmem).
      * destruct (first_pass_ok K db dt c g _ _ _ _ E) as [Hm _]. apply Forall_forall. intros ct Hin.
        assert (Hp : In (ct_A ct, ct_B ct) (species_pairs n)).
        { assert (In (ct_A ct, ct_B ct) (filter (has_eqs db) (species_pairs n))) by (rewrite <- Hm; apply in_map_iff; exists ct; auto). apply filter_In in H. apply H. }
        apply species_pairs_in in Hp. destruct (Hdb (ct_A ct) (ct_B ct)) as [Hf _]. split; [lia|]. split; [lia|].
        split; eapply Forall_impl; try exact Hf; intros e [? ?]; assumption.
      * apply reach_init.
      * reflexivity.
    + intros (A & B & r & HAB & Hne & Hr & Hz). unfold driver. cbv zeta. fold n. rewrite H1; [reflexivity|]. exists A, B, r. split; [apply species_pairs_in; assumption|auto].
Qed.
End AnyNum.
