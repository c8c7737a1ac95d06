(** Invariants of driver runs and the number of tests (C38, C39, C41, C42, C44). *)
From Coq Require Import Reals Lra Lia ZArith Bool List Permutation.
From Flocq Require Import Core.Core IEEE754.BinarySingleNaN.
From Verif Require Import Base Num ModelTerm ModelCollide ModelXsec ModelSet SpecPhys SpecXsec SpecSet
  ProofCollide ProofF64 ProofInelastic ProofSet ProofFloat ProofSelect ProofDriver.
From Coq Require Import List.
Import ListNotations.

Section AnyNum.
Context {N : Num}.
Variable K : N.

(** ** Particles out of place, products *)
Lemma collide_last_two_app (f : particle N -> particle N -> particle N * particle N) l p q :
  collide_last_two f (l ++ [p] ++ [q]) = Ok (l ++ [fst (f p q); snd (f p q)]).
Proof.
  assert (L : length (l ++ [p] ++ [q]) = (length l + 2)%nat) by (rewrite app_length; reflexivity).
  assert (U : forall n x (m : list (particle N)), upd (length l + n) x (l ++ m) = l ++ upd n x m).
  { intros n x m. induction l as [|y l' IH]; cbn; [reflexivity|]. f_equal. apply IH. rewrite app_length. reflexivity. }
  unfold collide_last_two. rewrite L. cbv zeta.
  replace (length l + 2 - 2)%nat with (length l + 0)%nat by lia. replace (length l + 2 - 1)%nat with (length l + 1)%nat by lia.
  assert (G0 : nth_error (l ++ [p] ++ [q]) (length l + 0) = Some p) by (rewrite nth_error_app2 by lia; replace (length l + 0 - length l)%nat with 0%nat by lia; reflexivity).
  assert (G1 : nth_error (l ++ [p] ++ [q]) (length l + 1) = Some q) by (rewrite nth_error_app2 by lia; replace (length l + 1 - length l)%nat with 1%nat by lia; reflexivity).
  unfold oget. rewrite G0. cbn [obind]. rewrite G1. cbn [obind]. destruct (f p q) as [a b]. cbn [fst snd]. rewrite !U. reflexivity.
Qed.

Lemma model_appends inplace (m : imodel N) p q l g k a b l' k' : appends m ->
  model_interact inplace m p q l g k = Ok (a, b, l', k') ->
  (exists new, l' = l ++ new) /\ (inplace = false -> a = p /\ b = q).
Proof.
  intros Ha H. destruct m as [mu|mu al|m|m| |f]; cbn [model_interact] in H.
  - destruct inplace.
    + destruct (elastic_collide _ _ _ _ _). injection H as <- <- <- <-. split; [exists []; rewrite app_nil_r; reflexivity|discriminate].
    + rewrite collide_last_two_app in H. cbn [obind] in H. injection H as <- <- <- <-. eauto.
  - destruct inplace.
    + destruct (vss_collide _ _ _ _ _ _). injection H as <- <- <- <-. split; [exists []; rewrite app_nil_r; reflexivity|discriminate].
    + rewrite collide_last_two_app in H. cbn [obind] in H. injection H as <- <- <- <-. eauto.
  - apply obind_ok in H as ([l1 k1] & E & H). injection H as <- <- <- <-. split; [|auto].
    unfold interact22 in E. cbv zeta in E. destruct (vel22 _ _ _ _ _).
    repeat (apply obind_ok in E as (? & _ & E)). injection E as <- <-. eauto.
  - apply obind_ok in H as ([l1 k1] & E & H). injection H as <- <- <- <-. split; [|auto].
    unfold interact23 in E. cbv zeta in E. destruct (vel23 _ _ _ _ _ _ _ _) as [[? ?] ?].
    repeat (apply obind_ok in E as (? & _ & E)). injection E as <- <-. eauto.
  - discriminate.
  - apply obind_ok in H as ([[[a1 b1] l1] k1] & E & H). injection H as <- <- <- <-. split; [eapply Ha; eassumption|].
    intros ->. auto.
Qed.
Lemma set_appends inplace rhs max (pA pB : particle N) l g k path a b l' k' : Forall (fun e => appends (q_model e)) rhs ->
  set_interact K inplace rhs max pA pB l g k = Ok (path, a, b, l', k') ->
  (exists new, l' = l ++ new) /\ (inplace = false -> a = pA /\ b = pB).
Proof.
  intros Ha H. apply set_interact_order in H as (k1 & _ & [(_ & -> & -> & -> & _)|(e & _ & He & Hm)]).
  - split; [exists []; rewrite app_nil_r; reflexivity|auto].
  - apply nth_error_In in He. rewrite Forall_forall in Ha. specialize (Ha e He).
    destruct Hm as [[_ Hm]|[_ Hm]]; apply model_appends in Hm as [Hn Hu]; auto.
    split; [assumption|]. intros Q. destruct (Hu Q). auto.
Qed.
(** Out of place the reactants are never changed, whatever the models do. *)
Lemma set_outofplace rhs max (pA pB : particle N) l g k path a b l' k' :
  set_interact K false rhs max pA pB l g k = Ok (path, a, b, l', k') -> a = pA /\ b = pB.
Proof.
  intros H. apply set_interact_order in H as (k1 & _ & [(_ & -> & -> & -> & _)|(e & _ & He & Hm)]); [auto|].
  assert (G : forall (m : imodel N) p q l g k a b l' k', model_interact false m p q l g k = Ok (a, b, l', k') -> a = p /\ b = q).
  { clear. intros m p q l g k a b l' k' H. destruct m as [mu|mu al|m|m| |f]; cbn [model_interact] in H; try discriminate;
      apply obind_ok in H as (x & _ & H); repeat (destruct x as [x ?]); injection H as <- <- _ _; auto. }
  destruct Hm as [[_ Hm]|[_ Hm]]; apply G in Hm as [-> ->]; auto.
Qed.

(** ** Sequences of tests *)
Section Tests.
Variables (inplace : bool) (sfuel : nat) (g : rng N) (bnd : Z).
Hypothesis Hpos : pos_ok g bnd.

Inductive tests (rhs : list (equation N)) (msv : N) (A B : nat) : nat -> dstate N -> dstate N -> Prop :=
| tests_0 s : tests rhs msv A B 0 s s
| tests_S n s s1 s2 : enough A B (s_ranges s) -> one_test K inplace sfuel rhs msv A B g s = Ok s1 ->
    tests rhs msv A B n s1 s2 -> tests rhs msv A B (S n) s s2.

Lemma enough_cond A B rs ra rb : nth_error rs A = Some ra -> nth_error rs B = Some rb ->
  ((Nat.eqb A B && Nat.ltb (rsize ra) 2) || (Nat.eqb (rsize ra) 0 || Nat.eqb (rsize rb) 0))%bool = false <-> enough A B rs.
Proof.
  intros EA EB. unfold enough. split.
  - intros H. exists ra, rb. split; [assumption|]. split; [assumption|].
    apply orb_false_elim in H as [H1 H2]. apply orb_false_elim in H2 as [H2 H3]. apply Nat.eqb_neq in H2, H3.
    destruct (Nat.eqb A B); cbn [andb] in H1; [apply Nat.ltb_ge in H1; assumption|lia].
  - intros (ra' & rb' & EA' & EB' & H). rewrite EA in EA'. rewrite EB in EB'. injection EA' as <-. injection EB' as <-.
    destruct (Nat.eqb_spec A B) as [Q|Q]; cbn [andb orb].
    + subst. rewrite EA in EB. injection EB as <-. apply orb_false_intro; [apply Nat.ltb_ge; assumption|].
      apply orb_false_intro; apply Nat.eqb_neq; lia.
    + apply orb_false_intro; apply Nat.eqb_neq; lia.
Qed.

Fixpoint dec (x : N) (i : nat) : N := match i with O => x | S i => (dec x i - n1)%num end.
Lemma dec_S x i : dec (x - n1)%num i = dec x (S i).
Proof. induction i as [|i IH]; [reflexivity|]. cbn [dec] in *. rewrite IH. reflexivity. Qed.

Lemma loop_tests fuel rhs msv A B : forall x s s', test_loop K fuel inplace sfuel rhs msv A B x g s = Ok s' ->
  exists n, tests rhs msv A B n s s' /\ (forall i, (i < n)%nat -> (n1 <? dec x i)%num = true) /\
    ((n1 <? dec x n)%num = false \/ ~ enough A B (s_ranges s')).
Proof.
  induction fuel as [|fuel IH]; intros x s s' H; cbn [test_loop] in H; [discriminate|].
  destruct (n1 <? x)%num eqn:E.
  - apply obind_ok in H as (ra & EA & H). apply obind_ok in H as (rb & EB & H). apply oget_ok in EA, EB.
    destruct (_ || _)%bool eqn:Ec in H.
    + injection H as <-. exists 0%nat. split; [constructor|]. split; [lia|]. right. rewrite <- (enough_cond A B _ _ _ EA EB). congruence.
    + apply obind_ok in H as (s1 & E1 & H). apply IH in H as (n & Ht & Hi & Hend). exists (S n). split; [|split].
      * econstructor; [apply (enough_cond A B _ _ _ EA EB); exact Ec|exact E1|exact Ht].
      * intros [|i] Hlt; [exact E|]. rewrite <- dec_S. apply Hi. lia.
      * rewrite <- dec_S. exact Hend.
  - injection H as <-. exists 0%nat. split; [constructor|]. split; [lia|]. left. exact E.
Qed.

(** The loop count does not depend on the fuel once it suffices. *)
Lemma loop_fuel rhs msv A B : forall n x s fuel fuel', (n1 <? dec x n)%num = false -> (n < fuel)%nat -> (n < fuel')%nat ->
  test_loop K fuel inplace sfuel rhs msv A B x g s = test_loop K fuel' inplace sfuel rhs msv A B x g s.
Proof.
  induction n as [|n IH]; intros x s [|fuel] [|fuel'] Hn Hf Hf'; try lia; cbn [test_loop].
  - cbn in Hn. rewrite Hn. reflexivity.
  - destruct (n1 <? x)%num; [|reflexivity]. destruct (oget (s_ranges s) A); [cbn [obind]|reflexivity..]. destruct (oget (s_ranges s) B); [cbn [obind]|reflexivity..].
    destruct (_ || _)%bool; [reflexivity|]. destruct (one_test _ _ _ _ _ _ _ _ _) as [s1| | |]; [cbn [obind]|reflexivity..].
    apply IH; [rewrite dec_S; exact Hn|lia|lia].
Qed.

Lemma bounded_shrinks rs0 rs : shrinks rs0 rs -> bounded bnd rs0 -> bounded bnd rs.
Proof.
  intros H. induction H as [|x y a b Hxy H IH]; intros Hb; [constructor|]. apply Forall_cons_iff in Hb as [H1 H2].
  constructor; [|apply IH; assumption]. unfold rsize in *. lia.
Qed.
Lemma disjoint_shrinks rs0 rs : shrinks rs0 rs -> disjoint rs0 -> disjoint rs.
Proof.
  intros H Hd A B ra rb p Hne EA EB Ha Hb. destruct (shrinks_nth _ _ _ _ H EA) as (ra0 & EA0 & ? & ?).
  destruct (shrinks_nth _ _ _ _ H EB) as (rb0 & EB0 & ? & ?). unfold in_range in *. eapply (Hd A B ra0 rb0 p); eauto; unfold in_range; lia.
Qed.

(** What is known about a state reached from ranges [rs0] and queue [er0]. *)
Record reach (rs0 : list range) (er0 : list nat) (res0 : list (particle N)) (s : dstate N) : Prop := {
  r_shrinks : shrinks rs0 (s_ranges s);
  r_queue : exists q, s_erase s = er0 ++ q /\ Permutation q (freed rs0 (s_ranges s));
  r_res : exists new, s_res s = res0 ++ new
}.

Lemma enough_sizes A B rs ra rb : enough A B rs -> nth_error rs A = Some ra -> nth_error rs B = Some rb -> bounded bnd rs ->
  (0 < Z.of_nat (rsize ra) < bnd)%Z /\ (0 < Z.of_nat (rsize rb) < bnd)%Z.
Proof.
  intros (ra' & rb' & EA' & EB' & H) EA EB Hb. rewrite EA in EA'. rewrite EB in EB'. injection EA' as <-. injection EB' as <-.
  unfold bounded in Hb. rewrite Forall_forall in Hb. pose proof (Hb _ (nth_error_In _ _ EA)). pose proof (Hb _ (nth_error_In _ _ EB)). cbn in *.
  destruct (Nat.eqb_spec A B); [subst; rewrite EA in EB; injection EB as <-|]; lia.
Qed.
Lemma enough_nth A B rs : enough A B rs -> exists ra rb, nth_error rs A = Some ra /\ nth_error rs B = Some rb.
Proof. intros (ra & rb & EA & EB & _). eauto. Qed.

Lemma one_test_reach rhs msv A B rs0 er0 res0 s s' : bounded bnd rs0 -> (inplace = true -> disjoint rs0) ->
  Forall (fun e => appends (q_model e)) rhs ->
  reach rs0 er0 res0 s -> enough A B (s_ranges s) -> one_test K inplace sfuel rhs msv A B g s = Ok s' ->
  reach rs0 er0 res0 s' /\ shrinks (s_ranges s) (s_ranges s') /\
  (inplace = false -> s_mem s' = s_mem s /\ s_ranges s' = s_ranges s /\ s_erase s' = s_erase s) /\
  exists i j path ra rb, s_log s' = s_log s ++ [(A, B, (i, j), path)] /\
    nth_error rs0 A = Some ra /\ nth_error rs0 B = Some rb /\ in_range i ra /\ in_range j rb /\ i <> j /\
    (path = (-1)%Z \/ (0 <= path < Z.of_nat (length rhs))%Z).
Proof.
  intros Hb Hd Happ [Hsh (q & Hq & Hperm) (new & Hnew)] Hen H.
  destruct (enough_nth _ _ _ Hen) as (ra & rb & EA & EB).
  destruct (enough_sizes _ _ _ _ _ Hen EA EB (bounded_shrinks _ _ Hsh Hb)) as [SA SB].
  destruct (one_test_ok K inplace sfuel rhs msv A B g s s' bnd ra rb Hpos H EA EB SA SB) as (i & j & path & pA & pB & a & b & k & k' & Hi & Hj & Hij & EpA & EpB & Hpath & Hset & Hlog & Hcase).
  destruct (set_appends _ _ _ _ _ _ _ _ _ _ _ _ _ Happ Hset) as [(new' & Hnew') Hsame].
  destruct (shrinks_nth _ _ _ _ Hsh EA) as (ra0 & EA0 & A1 & A2). destruct (shrinks_nth _ _ _ _ Hsh EB) as (rb0 & EB0 & B1 & B2).
  assert (Hlogs : exists i j path ra rb, s_log s' = s_log s ++ [(A, B, (i, j), path)] /\
    nth_error rs0 A = Some ra /\ nth_error rs0 B = Some rb /\ in_range i ra /\ in_range j rb /\ i <> j /\
    (path = (-1)%Z \/ (0 <= path < Z.of_nat (length rhs))%Z)).
  { exists i, j, (fst path), ra0, rb0. unfold in_range in *. repeat (split; [first [assumption|lia]|]). assumption. }
  assert (Hres : exists new, s_res s' = res0 ++ new).
  { exists (new ++ new'). rewrite Hnew', Hnew, app_assoc. reflexivity. }
  destruct Hcase as [(_ & Em & Er & Ee)|(Hin & _ & _ & s0 & Em & Er & Ee & Hret)].
  - split; [|split; [|split]]; [| | |assumption].
    + split; [rewrite Er; assumption|rewrite Ee, Er; eauto|assumption].
    + rewrite Er. apply shrinks_refl.
    + intros Q. destruct (Hsame Q) as [-> ->]. split; [|auto]. rewrite Em, (upd_same i) by assumption. apply upd_same. assumption.
  - specialize (Hd Hin). pose proof (disjoint_shrinks _ _ Hsh Hd) as Hd'.
    assert (Hdj : A = B \/ ~ in_range j ra).
    { destruct (Nat.eq_dec A B) as [Q|Q]; [left; assumption|right]. intros Hc. eapply (Hd' A B ra rb j); eauto. }
    rewrite <- Er in EA, EB.
    destruct (retval_cases A B i j s0 s' ra rb EA EB Hi Hj Hij Hdj Hret) as (e1 & e2 & p & q0 & rs1 & Ee1 & -> & (rb1 & Erb1 & Efb & Eeb) & Er' & Eer & _ & _ & _).
    rewrite Er in *. rewrite Ee in Eer.
    assert (S1 : shrinks (s_ranges s) (upd A (fst ra, e1) (s_ranges s))).
    { apply (shrinks_upd _ _ _ (snd ra)); [rewrite <- surjective_pairing; exact EA|unfold in_range in *; lia]. }
    assert (B2' : (fst rb1 <= e2)%nat).
    { unfold in_range, range in *. destruct (Nat.eq_dec A B) as [QQ|QQ].
      - subst B. rewrite EA in EB. injection EB as <-. rewrite upd_hit in Erb1 by (apply nth_error_Some; congruence).
        injection Erb1 as <-. cbn [fst snd] in *. lia.
      - rewrite upd_nth in Erb1. destruct (Nat.eqb_spec A B); [contradiction|]. cbn [andb] in Erb1. rewrite EB in Erb1. injection Erb1 as <-. lia. }
    assert (S2 : shrinks (upd A (fst ra, e1) (s_ranges s)) (s_ranges s')).
    { rewrite Er'. rewrite <- Efb. apply (shrinks_upd _ _ _ (snd rb1)); [rewrite <- surjective_pairing; exact Erb1|lia]. }
    assert (S3 : shrinks rs0 (s_ranges s')) by (eapply shrinks_trans; [exact Hsh|eapply shrinks_trans; eassumption]).
    split; [|split; [|split]]; [| |congruence|assumption].
    + split; [assumption| |assumption]. exists (q ++ [e1; e2]). split; [rewrite Eer, Hq, <- app_assoc; reflexivity|].
      rewrite Er', <- Efb. rewrite <- (freed_upd rs0 (upd A (fst ra, e1) (s_ranges s)) B (fst rb1) e2); [|exact (shrinks_trans _ _ _ Hsh S1)|rewrite <- Eeb, <- surjective_pairing; exact Erb1].
      rewrite <- (freed_upd rs0 (s_ranges s) A (fst ra) e1); [|assumption|rewrite <- Ee1, <- surjective_pairing; exact EA].
      rewrite Hperm. rewrite Permutation_app_comm. cbn [app]. apply perm_swap.
    + eapply shrinks_trans; eassumption.
Qed.

Lemma tests_reach rhs msv A B n rs0 er0 res0 s s' : bounded bnd rs0 -> (inplace = true -> disjoint rs0) ->
  Forall (fun e => appends (q_model e)) rhs -> tests rhs msv A B n s s' ->
  reach rs0 er0 res0 s ->
  reach rs0 er0 res0 s' /\ shrinks (s_ranges s) (s_ranges s') /\
  (inplace = false -> s_mem s' = s_mem s /\ s_ranges s' = s_ranges s /\ s_erase s' = s_erase s) /\
  exists log, s_log s' = s_log s ++ log /\ length log = n /\ Forall (entry_ok rs0 rhs A B) log.
Proof.
  intros Hb Hd Happ Ht. induction Ht as [s|n s s1 s2 Hen H1 Ht IH]; intros Hr.
  - split; [assumption|]. split; [apply shrinks_refl|]. split; [auto|]. exists []. rewrite app_nil_r. auto.
  - destruct (one_test_reach rhs msv A B rs0 er0 res0 s s1 Hb Hd Happ Hr Hen H1) as (Hr1 & Hs1 & Hf1 & i & j & path & ra & rb & Hl1 & Hrest).
    destruct (IH Hr1) as (Hr2 & Hs2 & Hf2 & log & Hl2 & Hlen & HF).
    split; [assumption|]. split; [eapply shrinks_trans; eassumption|]. split.
    + intros Q. destruct (Hf1 Q) as (E1 & E2 & E3). destruct (Hf2 Q) as (E4 & E5 & E6). rewrite <- E1, <- E2, <- E3. auto.
    + exists ((A, B, (i, j), path) :: log). rewrite Hl2, Hl1, <- app_assoc. split; [reflexivity|]. split; [cbn; congruence|].
      constructor; [|assumption]. unfold entry_ok. exists i, j, path, ra, rb. split; [reflexivity|assumption].
Qed.

Lemma enough_mono A B rs rs' : shrinks rs rs' -> enough A B rs' -> enough A B rs.
Proof.
  intros Hs (ra & rb & EA & EB & H). destruct (shrinks_nth _ _ _ _ Hs EA) as (ra0 & EA0 & ? & ?).
  destruct (shrinks_nth _ _ _ _ Hs EB) as (rb0 & EB0 & ? & ?). exists ra0, rb0. split; [assumption|]. split; [assumption|].
  unfold rsize in *. destruct (Nat.eqb A B); lia.
Qed.
End Tests.

(** ** Whole runs *)
Lemma ofold_app {S E} (f : S -> E -> outcome S) l1 l2 s s' : ofold f s (l1 ++ l2) = Ok s' <->
  exists s1, ofold f s l1 = Ok s1 /\ ofold f s1 l2 = Ok s'.
Proof.
  revert s; induction l1 as [|x l1 IH]; intros s; cbn [ofold app].
  - split; [intros; exists s; auto|intros (s1 & H & H2); congruence].
  - destruct (f s x); cbn [obind]; [apply IH|split; [discriminate|intros (? & ? & _); discriminate]..].
Qed.


Lemma first_pass_ok db dt (c : cell N) g : forall ps k l k', first_pass K db dt c g k ps = Ok (l, k') ->
  map (fun ct => (ct_A ct, ct_B ct)) l = filter (has_eqs db) ps /\
  forall l1 A B l2, ps = l1 ++ (A, B) :: l2 -> db A B <> [] ->
    exists ct la lb ra rb pa pb, l = la ++ ct :: lb /\ length la = length (filter (has_eqs db) l1) /\
      ct_A ct = A /\ ct_B ct = B /\
      nth_error (c_ranges c) A = Some ra /\ nth_error (c_ranges c) B = Some rb /\
      (fst ra < snd ra)%nat /\ (fst rb < snd rb)%nat /\
      nth_error (c_mem c) (fst ra) = Some pa /\ nth_error (c_mem c) (fst rb) = Some pb /\
      findMaxSigmaVProduct K (db A B) (c_maxv c A B) = Ok (ct_msv ct) /\
      ct_tests ct = promote (estimate (Nat.eqb A B) (p_weight pa) (p_weight pb) (rsize ra) (rsize rb) dt (ct_msv ct) (c_volume c))
                            (g_rand g (k + length (filter (has_eqs db) l1))).
Proof.
  induction ps as [|[A B] ps IH]; intros k l k' H; cbn [first_pass] in H.
  - injection H as <- <-. split; [reflexivity|]. intros [|x l1] A B l2 E; discriminate.
  - apply obind_ok in H as (ra & EA & H). apply obind_ok in H as (rb & EB & H). apply oget_ok in EA, EB.
    destruct (db A B) as [|e es] eqn:Edb.
    + assert (Hh : has_eqs db (A, B) = false) by (unfold has_eqs; cbn [fst snd]; rewrite Edb; reflexivity).
      apply IH in H as [H1 H2]. split.
      * cbn [filter]. rewrite Hh. exact H1.
      * intros [|x l1] A' B' l2 E Hne; cbn [app] in E; [injection E as <- <- <-; congruence|]. injection E as <- E.
        destruct (H2 l1 A' B' l2 E Hne) as (ct & la & lb & R). cbn [filter]. rewrite Hh. exists ct, la, lb. exact R.
    + assert (Hh : has_eqs db (A, B) = true) by (unfold has_eqs; cbn [fst snd]; rewrite Edb; reflexivity).
      apply obind_ok in H as (msv & Em & H). apply obind_ok in H as (wA & EwA & H). apply obind_ok in H as (wB & EwB & H).
      cbv zeta in H. apply obind_ok in H as ([l0 k0] & E0 & H). injection H as <- <-. apply IH in E0 as [H1 H2].
      assert (HwA : exists pa, (fst ra < snd ra)%nat /\ nth_error (c_mem c) (fst ra) = Some pa /\ wA = p_weight pa).
      { unfold first_weight in EwA. destruct (Nat.ltb_spec (fst ra) (snd ra)); [|discriminate]. apply obind_ok in EwA as (pa & Ep & EwA). injection EwA as <-. apply oget_ok in Ep. eauto. }
      assert (HwB : exists pb, (fst rb < snd rb)%nat /\ nth_error (c_mem c) (fst rb) = Some pb /\ wB = p_weight pb).
      { unfold first_weight in EwB. destruct (Nat.ltb_spec (fst rb) (snd rb)); [|discriminate]. apply obind_ok in EwB as (pb & Ep & EwB). injection EwB as <-. apply oget_ok in Ep. eauto. }
      destruct HwA as (pa & LA & Epa & ->). destruct HwB as (pb & LB & Epb & ->). split.
      * cbn [map filter ct_A ct_B]. rewrite Hh. f_equal. exact H1.
      * intros [|x l1] A' B' l2 E Hne; cbn [app] in E.
        -- injection E as <- <- <-. eexists _, [], l0, ra, rb, pa, pb. cbn [app filter length ct_A ct_B ct_msv ct_tests]. rewrite Edb, Nat.add_0_r.
           repeat (split; [first [reflexivity|eassumption]|]). reflexivity.
        -- injection E as <- E. destruct (H2 l1 A' B' l2 E Hne) as (ct & la & lb & ra' & rb' & pa' & pb' & El & Elen & R). subst l0.
           cbn [filter]. rewrite Hh. cbn [length].
           eexists ct, (_ :: la), lb, ra', rb', pa', pb'. cbn [app length]. split; [reflexivity|]. split; [congruence|].
           replace (k + S (length (filter (has_eqs db) l1)))%nat with (k + 1 + length (filter (has_eqs db) l1))%nat by lia. exact R.
Qed.

Lemma species_pairs_in n A B : In (A, B) (species_pairs n) <-> (A <= B < n)%nat.
Proof.
  unfold species_pairs. rewrite in_flat_map. split.
  - intros (a & Ha & H). apply in_map_iff in H as (b & E & Hb). injection E as -> ->. apply in_seq in Ha, Hb. lia.
  - intros H. exists A. split; [apply in_seq; lia|]. apply in_map_iff. exists B. split; [reflexivity|]. apply in_seq. lia.
Qed.
Lemma nodup_app {E} (l m : list E) : NoDup l -> NoDup m -> (forall x, In x l -> ~ In x m) -> NoDup (l ++ m).
Proof.
  intros Hl Hm Hd. induction Hl as [|x l Hx Hl IH]; cbn [app]; [assumption|]. constructor.
  - rewrite in_app_iff. intros [H|H]; [contradiction|]. apply (Hd x); [left; reflexivity|assumption].
  - apply IH. intros y Hy. apply Hd. right. assumption.
Qed.
Lemma species_pairs_nodup n : NoDup (species_pairs n).
Proof.
  unfold species_pairs. generalize (seq_NoDup n 0). generalize (seq 0 n). intros l. induction 1 as [|a l Ha Hl IH]; cbn [flat_map]; [constructor|].
  apply nodup_app; [| assumption|].
  - apply FinFun.Injective_map_NoDup; [intros x y E; congruence|apply seq_NoDup].
  - intros [x y] H1 H2. apply in_map_iff in H1 as (b & E & _). injection E as <- <-.
    apply in_flat_map in H2 as (a' & Ha' & H2). apply in_map_iff in H2 as (b' & E & _). congruence.
Qed.

Section Runs.
Variables (fuel : nat) (inplace : bool) (db : nat -> nat -> list (equation N)) (g : rng N) (bnd : Z) (rs0 : list range) (er0 : list nat) (res0 : list (particle N)).
Hypothesis Hpos : pos_ok g bnd.
Hypothesis Hb : bounded bnd rs0.
Hypothesis Hd : inplace = true -> disjoint rs0.
Hypothesis Happ : forall A B, Forall (fun e => appends (q_model e)) (db A B).

Lemma second_pass_reach (l : list (ctdata N)) : forall s s', second_pass K fuel inplace db g l s = Ok s' -> reach rs0 er0 res0 s ->
  reach rs0 er0 res0 s' /\ shrinks (s_ranges s) (s_ranges s') /\
  (inplace = false -> s_mem s' = s_mem s /\ s_ranges s' = s_ranges s /\ s_erase s' = s_erase s) /\
  exists log, s_log s' = s_log s ++ log /\
    Forall (fun e => exists ct, In ct l /\ entry_ok rs0 (db (ct_A ct) (ct_B ct)) (ct_A ct) (ct_B ct) e) log.
Proof.
  unfold second_pass. induction l as [|ct l IH]; intros s s' H Hr; cbn [ofold] in H.
  - injection H as <-. split; [assumption|]. split; [apply shrinks_refl|]. split; [auto|]. exists []. rewrite app_nil_r. auto.
  - apply obind_ok in H as (s1 & H1 & H). apply loop_tests in H1 as (n & Ht & _).
    destruct (tests_reach inplace fuel g bnd Hpos _ _ _ _ _ _ _ _ _ _ Hb Hd (Happ _ _) Ht Hr) as (Hr1 & Hs1 & Hf1 & log1 & Hl1 & _ & HF1).
    destruct (IH _ _ H Hr1) as (Hr2 & Hs2 & Hf2 & log2 & Hl2 & HF2).
    split; [assumption|]. split; [eapply shrinks_trans; eassumption|]. split.
    + intros Q. destruct (Hf1 Q) as (E1 & E2 & E3). destruct (Hf2 Q) as (E4 & E5 & E6). rewrite <- E1, <- E2, <- E3. auto.
    + exists (log1 ++ log2). rewrite Hl2, Hl1, app_assoc. split; [reflexivity|]. apply Forall_app. split.
      * eapply Forall_impl; [|exact HF1]. intros e He. exists ct. split; [left; reflexivity|assumption].
      * eapply Forall_impl; [|exact HF2]. intros e (c & Hc & He). exists c. split; [right; assumption|assumption].
Qed.

Lemma tested_app A B (s s' : dstate N) log : s_log s' = s_log s ++ log ->
  tested A B s' = (tested A B s + length (filter (fun e => Nat.eqb (fst (fst (fst e))) A && Nat.eqb (snd (fst (fst e))) B)%bool log))%nat.
Proof. intros H. unfold tested. rewrite H, filter_app, app_length. reflexivity. Qed.
Lemma entries_same (rhs : list (equation N)) A B log : Forall (entry_ok rs0 rhs A B) log ->
  length (filter (fun e => Nat.eqb (fst (fst (fst e))) A && Nat.eqb (snd (fst (fst e))) B)%bool log) = length log.
Proof.
  intros H. rewrite filter_all; [reflexivity|]. intros e He. rewrite Forall_forall in H. destruct (H e He) as (i & j & path & ra & rb & -> & _).
  cbn. rewrite !Nat.eqb_refl. reflexivity.
Qed.
Lemma filter_none {E} (f : E -> bool) l : (forall x, In x l -> f x = false) -> filter f l = [].
Proof. induction l as [|x l IH]; intros H; cbn; [reflexivity|]. rewrite (H x) by (left; reflexivity). apply IH. intros; apply H; right; assumption. Qed.

Lemma second_pass_count (la : list (ctdata N)) ct lb s s' :
  NoDup (map (fun ct => (ct_A ct, ct_B ct)) (la ++ ct :: lb)) ->
  second_pass K fuel inplace db g (la ++ ct :: lb) s = Ok s' -> reach rs0 er0 res0 s -> s_log s = [] ->
  enough (ct_A ct) (ct_B ct) (s_ranges s') ->
  (forall i, (i < tested (ct_A ct) (ct_B ct) s')%nat -> (n1 <? dec (ct_tests ct) i)%num = true) /\
  (n1 <? dec (ct_tests ct) (tested (ct_A ct) (ct_B ct) s'))%num = false.
Proof.
  intros Hnd H Hr Hlog Hen. unfold second_pass in H. apply ofold_app in H as (s1 & H1 & H). cbn [ofold] in H.
  apply obind_ok in H as (s2 & H2 & H3).
  destruct (second_pass_reach la s s1 H1 Hr) as (Hr1 & _ & _ & log1 & Hl1 & HF1).
  apply loop_tests in H2 as (n & Ht & Hi & Hend).
  destruct (tests_reach inplace fuel g bnd Hpos _ _ _ _ _ _ _ _ _ _ Hb Hd (Happ _ _) Ht Hr1) as (Hr2 & _ & _ & log2 & Hl2 & Hn & HF2).
  destruct (second_pass_reach lb s2 s' H3 Hr2) as (_ & Hs3 & _ & log3 & Hl3 & HF3).
  assert (Hzero : forall (l0 : list (ctdata N)) log, (forall c, In c l0 -> (ct_A c, ct_B c) <> (ct_A ct, ct_B ct)) ->
     Forall (fun e => exists ct, In ct l0 /\ entry_ok rs0 (db (ct_A ct) (ct_B ct)) (ct_A ct) (ct_B ct) e) log ->
     filter (fun e => Nat.eqb (fst (fst (fst e))) (ct_A ct) && Nat.eqb (snd (fst (fst e))) (ct_B ct))%bool log = []).
  { intros l0 log Hl0 HF. apply filter_none. intros e He. rewrite Forall_forall in HF. destruct (HF e He) as (c & Hc & i & j & path & ra & rb & -> & _).
    cbn [fst snd]. destruct (Nat.eqb_spec (ct_A c) (ct_A ct)) as [Q1|]; [|reflexivity]. destruct (Nat.eqb_spec (ct_B c) (ct_B ct)) as [Q2|]; [|reflexivity].
    exfalso. apply (Hl0 c Hc). congruence. }
  assert (Hne : forall c, In c la \/ In c lb -> (ct_A c, ct_B c) <> (ct_A ct, ct_B ct)).
  { intros c Hc E. rewrite map_app in Hnd. cbn [map] in Hnd. apply NoDup_remove_2 in Hnd. apply Hnd. rewrite <- E. apply in_app_iff.
    destruct Hc as [Hc|Hc]; [left|right]; apply in_map_iff; exists c; auto. }
  assert (Ecount : tested (ct_A ct) (ct_B ct) s' = n).
  { rewrite (tested_app _ _ _ _ _ Hl3), (tested_app _ _ _ _ _ Hl2), (tested_app _ _ _ _ _ Hl1). unfold tested at 1. rewrite Hlog.
    rewrite (Hzero la log1), (Hzero lb log3) by (assumption || (intros; apply Hne; auto)).
    rewrite (entries_same _ _ _ _ HF2). cbn. lia. }
  rewrite Ecount. split; [assumption|]. destruct Hend as [Hend|Hend]; [assumption|]. exfalso. apply Hend. eapply enough_mono; eassumption.
Qed.
End Runs.

Lemma freed_same rs : freed rs rs = [].
Proof. unfold freed. induction rs as [|r rs IH]; cbn [combine flat_map]; [reflexivity|]. cbn [fst snd]. rewrite Nat.sub_diag. exact IH. Qed.
Lemma reach_init mem rs er res k log : reach rs er res (mkState (N:=N) mem rs res er k log).
Proof.
  split; cbn [s_ranges s_erase s_res]; [apply shrinks_refl| |exists []; rewrite app_nil_r; reflexivity].
  exists []. rewrite app_nil_r, freed_same. auto.
Qed.

Lemma driver_ok fuel inplace dt (c : cell N) nprops db res er g k s bnd :
  pos_ok g bnd -> bounded bnd (c_ranges c) -> (inplace = true -> disjoint (c_ranges c)) ->
  (forall A B, Forall (fun e => appends (q_model e)) (db A B)) ->
  driver K fuel inplace dt c nprops db res er g k = Ok s ->
  let n := Nat.min (length (c_ranges c)) nprops in
  reach (c_ranges c) er res s /\
  (inplace = false -> s_mem s = c_mem c /\ s_ranges s = c_ranges c /\ s_erase s = er) /\
  Forall (fun e => exists A B, (A <= B < n)%nat /\ db A B <> [] /\ entry_ok (c_ranges c) (db A B) A B e) (s_log s) /\
  forall l1 A B l2, species_pairs n = l1 ++ (A, B) :: l2 -> db A B <> [] -> enough A B (s_ranges s) ->
    exists ra rb pa pb msv, nth_error (c_ranges c) A = Some ra /\ nth_error (c_ranges c) B = Some rb /\
      nth_error (c_mem c) (fst ra) = Some pa /\ nth_error (c_mem c) (fst rb) = Some pb /\
      findMaxSigmaVProduct K (db A B) (c_maxv c A B) = Ok msv /\
      let x := promote (estimate (Nat.eqb A B) (p_weight pa) (p_weight pb) (rsize ra) (rsize rb) dt msv (c_volume c))
                       (g_rand g (k + length (filter (has_eqs db) l1))) in
      (forall i, (i < tested A B s)%nat -> (n1 <? dec x i)%num = true) /\ (n1 <? dec x (tested A B s))%num = false.
Proof.
  intros Hpos Hb Hd Happ H n. unfold driver in H. cbv zeta in H. fold n in H.
  apply obind_ok in H as ([l k1] & E1 & H). apply first_pass_ok in E1 as [Hm Hct].
  pose proof (reach_init (c_mem c) (c_ranges c) er res k1 []) as Hr0.
  destruct (second_pass_reach fuel inplace db g bnd _ er res Hpos Hb Hd Happ l _ _ H Hr0) as (Hr & _ & Hf & log & Hl & HF).
  cbn [s_log s_mem s_ranges s_erase app] in *. split; [assumption|]. split; [assumption|]. split.
  - rewrite Hl. eapply Forall_impl; [|exact HF]. intros e (ct & Hin & He). exists (ct_A ct), (ct_B ct).
    assert (Hp : In (ct_A ct, ct_B ct) (filter (has_eqs db) (species_pairs n))).
    { rewrite <- Hm. apply in_map_iff. exists ct. auto. }
    apply filter_In in Hp as [Hp Hq]. apply species_pairs_in in Hp. split; [assumption|]. split; [|assumption].
    unfold has_eqs in Hq. cbn [fst snd] in Hq. destruct (db (ct_A ct) (ct_B ct)); [discriminate|discriminate].
  - intros l1 A B l2 Esp Hne Hen. destruct (Hct l1 A B l2 Esp Hne) as (ct & la & lb & ra & rb & pa & pb & El & _ & EcA & EcB & EA & EB & _ & _ & Epa & Epb & Emsv & Ex).
    exists ra, rb, pa, pb, (ct_msv ct). do 5 (split; [assumption|]). cbv zeta. rewrite <- Ex. subst A B l.
    eapply (second_pass_count fuel inplace db g bnd (c_ranges c) er res); try eassumption; [|reflexivity].
    rewrite Hm. apply NoDup_filter. apply species_pairs_nodup.
Qed.

(** ** C41 *)
Lemma first_pass_empty db dt (c : cell N) g : forall ps k,
  (forall A B, In (A, B) ps -> (exists ra, nth_error (c_ranges c) A = Some ra) /\ (exists rb, nth_error (c_ranges c) B = Some rb) /\
     (db A B <> [] -> exists m, findMaxSigmaVProduct K (db A B) (c_maxv c A B) = Ok m)) ->
  (forall A r, nth_error (c_ranges c) A = Some r -> (snd r <= length (c_mem c))%nat) ->
  ((exists A B r, In (A, B) ps /\ db A B <> [] /\ (nth_error (c_ranges c) A = Some r \/ nth_error (c_ranges c) B = Some r) /\ rsize r = 0%nat) ->
    first_pass K db dt c g k ps = UB) /\
  ((forall A B r, In (A, B) ps -> db A B <> [] -> (nth_error (c_ranges c) A = Some r \/ nth_error (c_ranges c) B = Some r) -> (0 < rsize r)%nat) ->
    exists l k', first_pass K db dt c g k ps = Ok (l, k')).
Proof.
  intros ps k Hps Hmem. revert k. induction ps as [|[A B] ps IH]; intros k.
  - split; [intros (A & B & r & [] & _)|]. intros _. cbn. eauto.
  - assert (Hps' : forall A B, In (A, B) ps -> (exists ra, nth_error (c_ranges c) A = Some ra) /\ (exists rb, nth_error (c_ranges c) B = Some rb) /\
     (db A B <> [] -> exists m, findMaxSigmaVProduct K (db A B) (c_maxv c A B) = Ok m)) by (intros; apply Hps; right; assumption).
    specialize (IH Hps'). destruct (Hps A B (or_introl eq_refl)) as ((ra & EA) & (rb & EB) & Hm).
    cbn [first_pass]. unfold oget. rewrite EA, EB. cbn [obind].
    destruct (db A B) as [|e es] eqn:Edb.
    + destruct (IH k) as [I1 I2]. split.
      * intros (A' & B' & r & [Hin|Hin] & R); [injection Hin as <- <-; destruct R as [R _]; congruence|]. apply I1. eauto 6.
      * intros H. apply I2. intros A' B' r Hin. apply H. right. assumption.
    + destruct Hm as (m & Em); [discriminate|]. rewrite Em. cbn [obind].
      assert (W : forall r C, nth_error (c_ranges c) C = Some r ->
        (rsize r = 0%nat -> first_weight (c_mem c) r = UB) /\ ((0 < rsize r)%nat -> exists w, first_weight (c_mem c) r = Ok w)).
      { intros r C Er. unfold first_weight, rsize. specialize (Hmem _ _ Er). destruct (Nat.ltb_spec (fst r) (snd r)); split; intros; try lia; try reflexivity.
        unfold oget. destruct (nth_error (c_mem c) (fst r)) eqn:Q; [cbn; eauto|]. apply nth_error_None in Q. lia. }
      destruct (W _ _ EA) as [WA1 WA2]. destruct (W _ _ EB) as [WB1 WB2]. split.
      * intros H. destruct (Nat.eq_dec (rsize ra) 0) as [Z|NZ]; [rewrite WA1 by assumption; reflexivity|].
        destruct WA2 as (wA & ->); [lia|]. cbn [obind]. destruct (Nat.eq_dec (rsize rb) 0) as [Z'|NZ']; [rewrite WB1 by assumption; reflexivity|].
        destruct WB2 as (wB & ->); [lia|]. cbn [obind]. rewrite (proj1 (IH (k + 1)%nat)); [reflexivity|].
        destruct H as (A' & B' & r & [Hin|Hin] & R); [|eauto 6]. injection Hin as <- <-. exfalso.
        destruct R as (_ & [Er|Er] & Z); [rewrite EA in Er|rewrite EB in Er]; injection Er as <-; contradiction.
      * intros H. assert (Hne : db A B <> []) by congruence.
        destruct WA2 as (wA & ->); [eapply (H A B); [left; reflexivity|exact Hne|left; exact EA]|]. cbn [obind].
        destruct WB2 as (wB & ->); [eapply (H A B); [left; reflexivity|exact Hne|right; exact EB]|]. cbn [obind].
        destruct (proj2 (IH (k + 1)%nat)) as (l & k' & ->); [intros A' B' r Hin; apply H; right; assumption|]. cbn [obind]. eauto.
Qed.
End AnyNum.
