(** The collision driver (C38-C44). *)
From Coq Require Import Reals Lra Lia ZArith Bool List Permutation.
From Flocq Require Import Core.Core IEEE754.BinarySingleNaN.
From Verif Require Import Base Num ModelTerm ModelCollide ModelXsec ModelSet SpecPhys SpecXsec SpecSet
  ProofCollide ProofF64 ProofInelastic ProofSet ProofFloat ProofSelect.
From Coq Require Import List.
Import ListNotations.

Lemma upd_length {A} n (x : A) l : length (upd n x l) = length l.
Proof. revert n; induction l as [|y l IH]; intros [|n]; cbn; auto. Qed.
Lemma upd_nth {A} n (x : A) l m : nth_error (upd n x l) m =
  if (Nat.eqb n m && Nat.ltb n (length l))%bool then Some x else nth_error l m.
Proof.
  revert n m; induction l as [|y l IH]; intros [|n] [|m]; cbn [upd nth_error length]; try reflexivity.
  - rewrite andb_comm. reflexivity.
  - rewrite IH. reflexivity.
Qed.
Lemma upd_hit {A} n (x : A) l : (n < length l)%nat -> nth_error (upd n x l) n = Some x.
Proof. intros H. rewrite upd_nth, Nat.eqb_refl. apply Nat.ltb_lt in H. rewrite H. reflexivity. Qed.
Lemma upd_same {A} n (x : A) l : nth_error l n = Some x -> upd n x l = l.
Proof. revert n; induction l as [|y l IH]; intros [|n]; cbn; intros H; try discriminate; [congruence|]. rewrite IH; auto. Qed.
Lemma upd_upd {A} n (x y : A) l : upd n x (upd n y l) = upd n x l.
Proof. revert n; induction l as [|z l IH]; intros [|n]; cbn; auto. rewrite IH; reflexivity. Qed.
Lemma oget_ok {A} (l : list A) n x : oget l n = Ok x <-> nth_error l n = Some x.
Proof. unfold oget. destruct (nth_error l n); split; congruence. Qed.

Lemma F2_length {A B} (P : A -> B -> Prop) l m : Forall2 P l m -> length l = length m.
Proof. induction 1; cbn; congruence. Qed.

Section AnyNum.
Context {N : Num}.
Variable K : N.

(** ** One test *)
Lemma select_pos fuel (a b : range) (g : rng N) bnd k i j k' : pos_ok g bnd ->
  (0 < Z.of_nat (rsize a) < bnd)%Z -> (0 < Z.of_nat (rsize b) < bnd)%Z ->
  selectRandomPair fuel a b g k = Ok (i, j, k') -> in_range i a /\ in_range j b /\ i <> j.
Proof.
  intros Hp Ha Hb H. unfold selectRandomPair in H.
  apply obind_ok in H as (x & E & H). apply obind_ok in H as ([y k1] & E1 & H). injection H as <- <- <-.
  split; [eapply Hp; eauto|]. revert E1. generalize (k + 1)%nat as n. induction fuel as [|fuel IH]; intros n E1; cbn [pick_other] in E1; [discriminate|].
  apply obind_ok in E1 as (z & Ez & E1). destruct (Nat.eqb_spec x z).
  - eapply IH; eauto.
  - injection E1 as <- <-. split; [eapply Hp; eauto|assumption].
Qed.

Lemma set_interact_path inplace rhs max (pA pB : particle N) l g k path a b l' k' :
  set_interact K inplace rhs max pA pB l g k = Ok (path, a, b, l', k') ->
  fst path = (-1)%Z \/ (0 <= fst path < Z.of_nat (length rhs))%Z.
Proof.
  intros H. apply set_interact_order in H as (k1 & Hc & Hcase). destruct path as [j c].
  apply outpath_valid in Hc as (cs & Hcs & Hc). unfold channel_cs in Hcs. apply omap_ok in Hcs. apply F2_length in Hcs.
  cbn [fst]. destruct Hc as [(_ & -> & _)|(_ & _ & Hp)]; [left; reflexivity|].
  destruct (pick_valid cs (g_exc g (k + 1) * cs_total cs)%num n0 0%Z) as [P|(i & d & Hi & P)]; rewrite P in Hp; injection Hp as <- <-; [left; reflexivity|].
  right. assert (i < length cs)%nat by (apply nth_error_Some; rewrite Hi; discriminate). lia.
Qed.

Lemma one_test_ok inplace sfuel rhs msv A B (g : rng N) s s' bnd ra rb : pos_ok g bnd ->
  one_test K inplace sfuel rhs msv A B g s = Ok s' ->
  nth_error (s_ranges s) A = Some ra -> nth_error (s_ranges s) B = Some rb ->
  (0 < Z.of_nat (rsize ra) < bnd)%Z -> (0 < Z.of_nat (rsize rb) < bnd)%Z ->
  exists i j path pA pB a b k k', in_range i ra /\ in_range j rb /\ i <> j /\
    nth_error (s_mem s) i = Some pA /\ nth_error (s_mem s) j = Some pB /\
    (fst path = (-1)%Z \/ (0 <= fst path < Z.of_nat (length rhs))%Z) /\
    set_interact K inplace rhs msv pA pB (s_res s) g k = Ok (path, a, b, s_res s', k') /\
    s_log s' = s_log s ++ [(A, B, (i, j), fst path)] /\
    ((inplace = false \/ (fst path < 0)%Z \/ (length (s_res s') <= length (s_res s))%nat) /\
       s_mem s' = upd j b (upd i a (s_mem s)) /\ s_ranges s' = s_ranges s /\ s_erase s' = s_erase s \/
     inplace = true /\ (0 <= fst path)%Z /\ (length (s_res s) < length (s_res s'))%nat /\
       exists s0, s_mem s0 = upd j b (upd i a (s_mem s)) /\ s_ranges s0 = s_ranges s /\ s_erase s0 = s_erase s /\
         retval_inplace A B (i, j) s0 = Ok s').
Proof.
  intros Hp H EA EB HA HB. unfold one_test in H.
  apply obind_ok in H as (ra' & E & H). apply oget_ok in E. rewrite EA in E. injection E as <-.
  apply obind_ok in H as (rb' & E & H). apply oget_ok in E. rewrite EB in E. injection E as <-.
  apply obind_ok in H as ([[i j] k] & Es & H).
  apply obind_ok in H as (pA & EpA & H). apply oget_ok in EpA. apply obind_ok in H as (pB & EpB & H). apply oget_ok in EpB.
  apply obind_ok in H as ([[[[path a] b] l] k'] & Ei & H).
  destruct (select_pos _ _ _ _ _ _ _ _ _ Hp HA HB Es) as (Ri & Rj & Hij).
  pose proof (set_interact_path _ _ _ _ _ _ _ _ _ _ _ _ _ Ei) as Hpath.
  destruct (negb inplace || (fst path <? 0)%Z || Nat.leb (length l) (length (s_res s)))%bool eqn:Eb.
  - injection H as <-. cbn [s_mem s_ranges s_res s_erase s_log]. exists i, j, path, pA, pB, a, b, k, k'.
    do 8 (split; [first [assumption|reflexivity]|]). left. split; [|auto].
    apply orb_prop in Eb as [Eb|Eb]; [apply orb_prop in Eb as [Eb|Eb]|].
    + left. destruct inplace; [discriminate|reflexivity].
    + right; left. apply Z.ltb_lt. assumption.
    + right; right. apply Nat.leb_le. assumption.
  - apply orb_false_elim in Eb as [Eb E3]. apply orb_false_elim in Eb as [E1 E2].
    assert (Hl : s_log s' = s_log s ++ [(A, B, (i, j), fst path)] /\ s_res s' = l).
    { clear -H. unfold retval_inplace in H. cbn [s_mem s_ranges s_res s_erase s_log s_pos] in H.
      apply obind_ok in H as (x & _ & H). destruct (Nat.eqb _ _); [destruct (Nat.eqb A B); [|discriminate]|];
        repeat (apply obind_ok in H as (? & _ & H)); injection H as <-; auto. }
    destruct Hl as [Hl Hr]. rewrite Hr. exists i, j, path, pA, pB, a, b, k, k'.
    do 8 (split; [first [assumption|reflexivity]|]). right.
    split; [destruct inplace; [reflexivity|discriminate]|]. split; [apply Z.ltb_ge; assumption|]. split; [apply Nat.leb_gt; assumption|].
    eexists. split; [|split; [|split; [|exact H]]]; reflexivity.
Qed.

(** ** In-place removal *)
Definition shrinks (rs0 rs : list range) : Prop :=
  Forall2 (fun r0 r => fst r = fst r0 /\ snd r <= snd r0 /\ (snd r = snd r0 \/ fst r0 <= snd r))%nat rs0 rs.
Lemma shrinks_refl rs : shrinks rs rs.
Proof. induction rs; constructor; auto. Qed.
Lemma shrinks_trans a b c : shrinks a b -> shrinks b c -> shrinks a c.
Proof.
  intros H. revert c. induction H as [|x y a b Hxy H IH]; intros c Hc; inversion Hc; subst; constructor; [lia|]. apply IH; assumption.
Qed.
Lemma shrinks_upd rs A b e e' : nth_error rs A = Some (b, e) -> (b <= e' <= e)%nat -> shrinks rs (upd A (b, e') rs).
Proof.
  revert A; induction rs as [|r rs IH]; intros [|A] H He; cbn in *; try discriminate.
  - injection H as ->. constructor; [cbn; lia|apply shrinks_refl].
  - constructor; [auto|]. apply IH; assumption.
Qed.
Lemma shrinks_nth rs0 rs A r : shrinks rs0 rs -> nth_error rs A = Some r ->
  exists r0, nth_error rs0 A = Some r0 /\ fst r = fst r0 /\ (snd r <= snd r0)%nat.
Proof.
  intros H. revert A. induction H as [|x y a b Hxy H IH]; intros [|A] E; cbn in *; try discriminate.
  - injection E as ->. exists x. split; [reflexivity|]. lia.
  - auto.
Qed.
Lemma shrinks_nth' rs0 rs A r0 : shrinks rs0 rs -> nth_error rs0 A = Some r0 ->
  exists r, nth_error rs A = Some r /\ fst r = fst r0 /\ (snd r <= snd r0)%nat.
Proof.
  intros H. revert A. induction H as [|x y a b Hxy H IH]; intros [|A] E; cbn in *; try discriminate.
  - injection E as ->. exists y. split; [reflexivity|]. lia.
  - auto.
Qed.

Definition freed (rs0 rs : list range) : list nat :=
  flat_map (fun p => seq (snd (snd p)) (snd (fst p) - snd (snd p))) (combine rs0 rs).

Lemma freed_upd rs0 rs A b e : shrinks rs0 rs -> nth_error rs A = Some (b, S e) ->
  Permutation (e :: freed rs0 rs) (freed rs0 (upd A (b, e) rs)).
Proof.
  intros H. revert A. unfold freed. induction H as [|x y rs0 rs Hxy H IH]; intros [|A] E; cbn [nth_error] in E; try discriminate; cbn [upd combine flat_map].
  - injection E as ->. cbn [fst snd] in *. replace (snd x - e)%nat with (S (snd x - S e)) by lia. reflexivity.
  - cbn [nth_error] in *. rewrite <- (IH A E). apply Permutation_middle.
Qed.

(** What [retval_inplace] does, case by case. *)
Lemma retval_cases A B i j (s s' : dstate N) ra rb :
  nth_error (s_ranges s) A = Some ra -> nth_error (s_ranges s) B = Some rb ->
  in_range i ra -> in_range j rb -> i <> j -> (A = B \/ ~ in_range j ra) ->
  retval_inplace A B (i, j) s = Ok s' ->
  exists e1 e2 p q rs1,
    snd ra = S e1 /\ rs1 = upd A (fst ra, e1) (s_ranges s) /\
    (exists rb1, nth_error rs1 B = Some rb1 /\ fst rb1 = fst rb /\ snd rb1 = S e2) /\
    s_ranges s' = upd B (fst rb, e2) rs1 /\ s_erase s' = s_erase s ++ [e1; e2] /\
    s_res s' = s_res s /\ s_log s' = s_log s /\
    ((A = B /\ j = e1 /\ nth_error (s_mem s) e2 = Some p /\ s_mem s' = upd i p (s_mem s)) \/
     (j <> e1 /\ nth_error (s_mem s) e1 = Some p /\ nth_error (upd i p (s_mem s)) e2 = Some q /\
      s_mem s' = upd j q (upd i p (s_mem s)))).
Proof.
  intros EA EB Hi Hj Hij Hd H. unfold retval_inplace in H. unfold in_range, range in *.
  apply obind_ok in H as (ra' & E & H). apply oget_ok in E. rewrite EA in E. injection E as <-. cbn [fst snd] in H.
  destruct ra as [ba ea]. destruct rb as [bb eb]. cbn [fst snd] in *.
  destruct ea as [|e1]; [lia|]. replace (S e1 - 1)%nat with e1 in H by lia.
  assert (LA : (A < length (s_ranges s))%nat) by (apply nth_error_Some; unfold range in *; congruence).
  destruct (Nat.eqb_spec j e1) as [Q|Q].
  - destruct (Nat.eqb_spec A B) as [QQ|QQ]; [subst B|discriminate]. rewrite EA in EB. injection EB as <- <-.
    apply obind_ok in H as (p & Ep & H). apply oget_ok in Ep. apply obind_ok in H as (rb' & E & H). apply oget_ok in E. rewrite EA in E. injection E as <-.
    injection H as <-. cbn [s_mem s_ranges s_res s_erase s_log fst snd].
    assert (exists e2, e1 = S e2) as [e2 ->] by (exists (e1 - 1)%nat; lia). replace (S e2 - 1)%nat with e2 in * by lia.
    exists (S e2), e2, p, p, (upd A (ba, S e2) (s_ranges s)). split; [reflexivity|]. split; [reflexivity|]. split.
    + exists (ba, S e2). split; [apply upd_hit; assumption|split; reflexivity].
    + rewrite upd_upd, <- app_assoc. do 4 (split; [reflexivity|]). left. auto.
  - apply obind_ok in H as (p & Ep & H). apply oget_ok in Ep. apply obind_ok in H as (rb' & E & H). apply oget_ok in E.
    apply obind_ok in H as (q & Eq & H). apply oget_ok in Eq. injection H as <-. cbn [s_mem s_ranges s_res s_erase s_log fst snd].
    assert (exists e2, rb' = (bb, S e2)) as [e2 ->].
    { destruct (Nat.eqb_spec A B) as [QQ|QQ].
      - subst B. rewrite upd_hit in E by assumption. injection E as <-. rewrite EA in EB. injection EB as -> <-.
        exists (e1 - 1)%nat. f_equal. lia.
      - rewrite upd_nth in E. destruct (Nat.eqb_spec A B); [contradiction|]. cbn [andb] in E. rewrite EB in E. injection E as <-. exists (eb - 1)%nat. f_equal. lia. }
    cbn [fst snd] in *. replace (S e2 - 1)%nat with e2 in * by lia.
    exists e1, e2, p, q, (upd A (ba, e1) (s_ranges s)). split; [reflexivity|]. split; [reflexivity|]. split; [eauto|].
    rewrite <- app_assoc. do 4 (split; [reflexivity|]). right. auto.
Qed.

(** Removing position i by overwriting it with the last element. *)
Lemma others_ext (mem mem' : list (particle N)) r xs :
  (forall p, in_range p r -> ~ In p xs -> nth_error mem' p = nth_error mem p) -> others mem' r xs = others mem r xs.
Proof.
  intros H. unfold others. apply map_ext_in. intros p Hp. apply filter_In in Hp as [Hp Hx]. apply in_seq in Hp.
  apply H; [unfold in_range, rsize in *; lia|]. intros Hin. apply negb_true_iff in Hx.
  assert (existsb (Nat.eqb p) xs = true) by (apply existsb_exists; exists p; split; [assumption|apply Nat.eqb_refl]). congruence.
Qed.
Lemma filter_all {A} (f : A -> bool) l : (forall x, In x l -> f x = true) -> filter f l = l.
Proof. induction l as [|x l IH]; intros H; cbn; [reflexivity|]. rewrite (H x) by (left; reflexivity). f_equal. apply IH. intros; apply H; right; assumption. Qed.

Lemma filter_one (b n i : nat) f : (b <= i < b + n)%nat -> (forall p, f p = false -> p = i) -> f i = false ->
  filter f (seq b n) = seq b (i - b) ++ seq (S i) (b + n - S i).
Proof.
  intros Hi Hf Hfi. replace n with ((i - b) + (1 + (b + n - S i)))%nat at 1 by lia. rewrite seq_app, filter_app.
  rewrite filter_all.
  - f_equal. replace (b + (i - b))%nat with i by lia. cbn [plus seq filter]. rewrite Hfi. apply filter_all.
    intros x Hx. apply in_seq in Hx. destruct (f x) eqn:E; [reflexivity|]. apply Hf in E. lia.
  - intros x Hx. apply in_seq in Hx. destruct (f x) eqn:E; [reflexivity|]. apply Hf in E. lia.
Qed.

Lemma remove_one (mem : list (particle N)) b e i p : (b <= i < S e)%nat -> nth_error mem e = Some p ->
  Permutation (live (upd i p mem) (b, e)) (others mem (b, S e) [i]).
Proof.
  intros Hi Hp. assert (Le : (e < length mem)%nat) by (apply nth_error_Some; unfold range in *; congruence).
  unfold live, others. unfold rsize. cbn [fst snd existsb].
  rewrite (filter_all (fun p0 => negb false)) by reflexivity.
  rewrite (filter_one b (S e - b) i); [|lia| |rewrite Nat.eqb_refl; reflexivity].
  2:{ intros q Hq. rewrite orb_false_r in Hq. apply negb_false_iff in Hq. apply Nat.eqb_eq. assumption. }
  replace (b + (S e - b) - S i)%nat with (e - i)%nat by lia.
  assert (U : forall x n, (forall q, (x <= q < x + n)%nat -> q <> i) -> map (nth_error (upd i p mem)) (seq x n) = map (nth_error mem) (seq x n)).
  { intros x n H. apply map_ext_in. intros q Hq. apply in_seq in Hq. rewrite upd_nth. destruct (Nat.eqb_spec i q); [exfalso; eapply H; eauto|reflexivity]. }
  destruct (Nat.eq_dec i e) as [->|Hne].
  - rewrite Nat.sub_diag. cbn [seq]. rewrite app_nil_r, U; [reflexivity|]. intros; lia.
  - replace (e - b)%nat with ((i - b) + (1 + (e - S i)))%nat at 1 by lia. rewrite seq_app. cbn [plus seq]. replace (b + (i - b))%nat with i by lia.
    replace (e - i)%nat with ((e - S i) + 1)%nat by lia. rewrite seq_app. cbn [seq]. replace (S i + (e - S i))%nat with e by lia.
    rewrite !map_app. cbn [map]. rewrite (U b), (U (S i)) by (intros; lia).
    rewrite upd_hit by lia. rewrite Hp.
    apply Permutation_app_head. apply Permutation_cons_append.
Qed.

Lemma others_last (mem : list (particle N)) b e xs : In e xs -> (b <= e)%nat -> 
  others mem (b, S e) xs = others mem (b, e) xs.
Proof.
  intros H Hb. unfold others, rsize. cbn [fst snd]. replace (S e - b)%nat with ((e - b) + 1)%nat by lia.
  rewrite seq_app, filter_app. replace (b + (e - b))%nat with e by lia. cbn [seq filter].
  assert (existsb (Nat.eqb e) xs = true) as -> by (apply existsb_exists; exists e; split; [assumption|apply Nat.eqb_refl]).
  cbn [negb]. rewrite app_nil_r. reflexivity.
Qed.
Lemma others_drop (mem : list (particle N)) r x xs : ~ in_range x r -> others mem r (x :: xs) = others mem r xs.
Proof.
  intros H. unfold others. f_equal. apply filter_ext_in. intros p Hp. apply in_seq in Hp. cbn [existsb].
  destruct (Nat.eqb_spec p x); [|reflexivity]. exfalso. apply H. unfold in_range, rsize in *. lia.
Qed.
Lemma others_comm (mem : list (particle N)) r x y : others mem r [x; y] = others mem r [y; x].
Proof.
  unfold others. f_equal. apply filter_ext. intros p. cbn [existsb]. rewrite !orb_false_r. f_equal. apply orb_comm.
Qed.
(** Removing i and then j. *)
Lemma remove_two_step (mem : list (particle N)) b e i j p : (b <= i < S e)%nat -> (b <= j < e)%nat -> i <> j ->
  nth_error mem e = Some p ->
  Permutation (others (upd i p mem) (b, e) [j]) (others mem (b, S e) [i; j]).
Proof.
  intros Hi Hj Hij Hp. assert (Le : (e < length mem)%nat) by (apply nth_error_Some; unfold range in *; congruence).
  assert (U : forall l, ~ In i l -> map (nth_error (upd i p mem)) l = map (nth_error mem) l).
  { intros l H. apply map_ext_in. intros q Hq. rewrite upd_nth. destruct (Nat.eqb_spec i q); [subst; contradiction|reflexivity]. }
  unfold others, rsize. cbn [fst snd existsb].
  set (f := fun p0 => negb (Nat.eqb p0 j || false)). set (h := fun p0 => negb (Nat.eqb p0 i || (Nat.eqb p0 j || false))).
  assert (Hfh : forall l, ~ In i l -> filter h l = filter f l).
  { intros l H. apply filter_ext_in. intros q Hq. unfold f, h. destruct (Nat.eqb_spec q i); [subst; contradiction|reflexivity]. }
  assert (Hfi : f i = true) by (unfold f; destruct (Nat.eqb_spec i j); [contradiction|reflexivity]).
  assert (Hhi : h i = false) by (unfold h; rewrite Nat.eqb_refl; reflexivity).
  destruct (Nat.eq_dec i e) as [Heq|Hne].
  - subst i. replace (S e - b)%nat with ((e - b) + 1)%nat by lia. rewrite seq_app, filter_app. replace (b + (e - b))%nat with e by lia.
    cbn [seq filter]. rewrite Hhi, app_nil_r. rewrite Hfh by (rewrite in_seq; lia). rewrite U; [reflexivity|].
    intros Hin. apply filter_In in Hin as [Hin _]. apply in_seq in Hin. lia.
  - assert (Hfe : h e = true) by (unfold h; destruct (Nat.eqb_spec e i), (Nat.eqb_spec e j); try lia; reflexivity).
    replace (e - b)%nat with ((i - b) + (1 + (e - S i)))%nat by lia. rewrite seq_app. cbn [plus seq]. replace (b + (i - b))%nat with i by lia.
    replace (S e - b)%nat with ((i - b) + (1 + ((e - S i) + 1)))%nat by lia. rewrite (seq_app (i - b)). cbn [plus seq]. replace (b + (i - b))%nat with i by lia.
    rewrite (seq_app (e - S i)). cbn [seq]. replace (S i + (e - S i))%nat with e by lia.
    rewrite !filter_app. cbn [filter]. rewrite Hfi, Hhi, filter_app. cbn [filter]. rewrite Hfe.
    rewrite !(Hfh (seq _ _)) by (rewrite in_seq; lia). rewrite !map_app. cbn [map].
    rewrite !U by (intros Hin; apply filter_In in Hin as [Hin _]; apply in_seq in Hin; lia).
    rewrite upd_hit by lia. rewrite Hp.
    apply Permutation_app_head. apply Permutation_cons_append.
Qed.

Lemma retval_removes A B i j (s s' : dstate N) ra rb :
  nth_error (s_ranges s) A = Some ra -> nth_error (s_ranges s) B = Some rb ->
  in_range i ra -> in_range j rb -> i <> j ->
  (A = B \/ forall p, in_range p ra -> ~ in_range p rb) ->
  retval_inplace A B (i, j) s = Ok s' ->
  exists ra' rb', nth_error (s_ranges s') A = Some ra' /\ nth_error (s_ranges s') B = Some rb' /\
    fst ra' = fst ra /\ fst rb' = fst rb /\
    (forall C, C <> A -> C <> B -> nth_error (s_ranges s') C = nth_error (s_ranges s) C) /\
    length (s_mem s') = length (s_mem s) /\
    (forall p, ~ in_range p ra -> ~ in_range p rb -> nth_error (s_mem s') p = nth_error (s_mem s) p) /\
    (if Nat.eqb A B then snd ra = S (S (snd ra')) /\ s_erase s' = s_erase s ++ [S (snd ra'); snd ra'] /\
       Permutation (live (s_mem s') ra') (others (s_mem s) ra [i; j])
     else snd ra = S (snd ra') /\ snd rb = S (snd rb') /\ s_erase s' = s_erase s ++ [snd ra'; snd rb'] /\
       Permutation (live (s_mem s') ra') (others (s_mem s) ra [i]) /\
       Permutation (live (s_mem s') rb') (others (s_mem s) rb [j])).
Proof.
  intros EA EB Hi Hj Hij Hd H.
  assert (Hd' : A = B \/ ~ in_range j ra) by (destruct Hd as [Hd|Hd]; [left; assumption|right; intros Q; eapply Hd; eauto]).
  destruct (retval_cases A B i j s s' ra rb EA EB Hi Hj Hij Hd' H) as (e1 & e2 & p & q & rs1 & Ee1 & -> & (rb1 & Erb1 & Efb & Eeb) & Er & Eer & _ & _ & Hm).
  assert (LA : (A < length (s_ranges s))%nat) by (apply nth_error_Some; unfold range in *; congruence).
  assert (LB : (B < length (s_ranges s))%nat) by (apply nth_error_Some; unfold range in *; congruence).
  destruct ra as [ba ea]. destruct rb as [bb eb]. destruct rb1 as [bb1 eb1]. unfold in_range, range in *. cbn [fst snd] in *. subst ea eb1 bb1.
  assert (Hoth : forall C, C <> A -> C <> B -> nth_error (s_ranges s') C = nth_error (s_ranges s) C).
  { intros C C1 C2. rewrite Er, !upd_nth. destruct (Nat.eqb_spec B C); [congruence|]. cbn [andb]. destruct (Nat.eqb_spec A C); [congruence|]. reflexivity. }
  assert (Hlen : length (s_mem s') = length (s_mem s)).
  { destruct Hm as [(_ & _ & _ & ->)|(_ & _ & _ & ->)]; rewrite ?upd_length; reflexivity. }
  assert (Hout : forall x, ~ (ba <= x < S e1)%nat -> ~ (bb <= x < eb)%nat -> nth_error (s_mem s') x = nth_error (s_mem s) x).
  { intros x Hx1 Hx2. destruct Hm as [(_ & _ & _ & ->)|(_ & _ & _ & ->)]; rewrite !upd_nth.
    - destruct (Nat.eqb_spec i x); [subst; lia|reflexivity].
    - destruct (Nat.eqb_spec j x); [subst; lia|]. cbn [andb]. destruct (Nat.eqb_spec i x); [subst; lia|reflexivity]. }
  destruct (Nat.eqb_spec A B) as [QQ|QQ].
  - subst B. rewrite EA in EB. injection EB as -> <-. rewrite upd_hit in Erb1 by assumption. injection Erb1 as ->.
    rewrite upd_upd in Er. exists (bb, e2), (bb, e2).
    assert (Hn : nth_error (s_ranges s') A = Some (bb, e2)).
    { rewrite Er. apply upd_hit. assumption. }
    cbn [fst snd]. do 7 (split; [first [assumption|reflexivity]|]). split; [reflexivity|]. split; [assumption|].
    destruct Hm as [(_ & -> & Hp & ->)|(Hj1 & Hp & Hq & ->)].
    + rewrite others_comm, others_last by (try (left; reflexivity); lia). rewrite others_drop by (unfold in_range; cbn; lia).
      apply remove_one; [lia|assumption].
    + etransitivity; [apply remove_one; [lia|assumption]|]. apply remove_two_step; try assumption; lia.
  - destruct Hd as [Hd|Hd]; [contradiction|].
    rewrite upd_nth in Erb1. destruct (Nat.eqb_spec A B); [contradiction|]. cbn [andb] in Erb1. rewrite EB in Erb1. injection Erb1 as ->.
    exists (ba, e1), (bb, e2).
    assert (HnA : nth_error (s_ranges s') A = Some (ba, e1)).
    { rewrite Er, upd_nth. destruct (Nat.eqb_spec B A); [congruence|]. cbn [andb]. apply upd_hit. assumption. }
    assert (HnB : nth_error (s_ranges s') B = Some (bb, e2)).
    { rewrite Er. apply upd_hit. rewrite upd_length. assumption. }
    cbn [fst snd]. do 7 (split; [first [assumption|reflexivity]|]). do 3 (split; [first [reflexivity|assumption]|]).
    destruct Hm as [(X & _)|(Hj1 & Hp & Hq & ->)]; [contradiction|].
    assert (Hu : forall x, (bb <= x < S e2)%nat -> nth_error (upd i p (s_mem s)) x = nth_error (s_mem s) x).
    { intros x Hx. rewrite upd_nth. destruct (Nat.eqb_spec i x); [|reflexivity]. subst x. exfalso. eapply (Hd i); lia. }
    split.
    + etransitivity; [|apply remove_one; [|exact Hp]; lia].
      unfold live. rewrite (others_ext (upd i p (s_mem s))); [reflexivity|]. intros x Hx _. unfold in_range in Hx. cbn [fst snd] in Hx. rewrite (upd_nth j).
      destruct (Nat.eqb_spec j x); [|reflexivity]. subst x. exfalso. eapply (Hd j); lia.
    + rewrite <- (others_ext (s_mem s) (upd i p (s_mem s))).
      * apply remove_one; [lia|]. assumption.
      * intros x Hx _. unfold in_range in Hx. cbn [fst snd] in Hx. apply Hu. lia.
Qed.
End AnyNum.
