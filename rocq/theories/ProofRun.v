(** Quantities carried by the particles of a cell through an in-place run. *)
From Coq Require Import Reals Lra Lia List ZArith Bool Permutation.
From Verif Require Import Base Num ModelTerm ModelCollide ModelFactories ModelXsec ModelSet SpecTerm SpecPhys SpecXsec SpecSet SpecMore SpecRun
  ProofCollide ProofInelastic ProofSet ProofDriver ProofDriver2 ProofDriver3.
From Coq Require Import List.
Import ListNotations.
Local Open Scope R_scope.

Lemma Rsum_perm a b : Permutation a b -> Rsum a = Rsum b.
Proof. induction 1; cbn [Rsum]; lra. Qed.

Lemma filter_take (P : nat -> bool) (i : nat) l : NoDup l -> In i l -> P i = true ->
  Permutation (filter P l) (i :: filter (fun p => negb (Nat.eqb p i) && P p)%bool l).
Proof.
  induction l as [|x l IH]; intros Hn Hin Hp; [destruct Hin|]. inversion Hn as [|? ? Hx Hn']; subst. cbn [filter].
  destruct Hin as [->|Hin].
  - rewrite Hp, Nat.eqb_refl. cbn [negb andb]. apply perm_skip.
    rewrite (filter_ext_in P (fun p => negb (Nat.eqb p i) && P p)%bool); [reflexivity|].
    intros p Ip. destruct (Nat.eqb_spec p i); [subst; contradiction|reflexivity].
  - destruct (Nat.eqb_spec x i) as [->|Hne]; [contradiction|]. cbn [negb andb].
    destruct (P x); [|apply IH; assumption]. rewrite (IH Hn' Hin Hp). apply perm_swap.
Qed.

Lemma others_split {N : Num} (mem : list (particle N)) r xs i : in_range i r -> ~ In i xs ->
  Permutation (others mem r xs) (nth_error mem i :: others mem r (i :: xs)).
Proof.
  intros Hi Hx. unfold others. change (nth_error mem i :: ?l) with (nth_error mem i :: l).
  rewrite (filter_take (fun p => negb (existsb (Nat.eqb p) xs)) i).
  - cbn [map]. apply perm_skip. apply Permutation_map.
    rewrite (filter_ext (fun p => negb (existsb (Nat.eqb p) (i :: xs))) (fun p => (negb (Nat.eqb p i) && negb (existsb (Nat.eqb p) xs))%bool)).
    + reflexivity.
    + intros p. cbn [existsb]. rewrite negb_orb. reflexivity.
  - apply seq_NoDup.
  - apply in_seq. unfold in_range, rsize in *. lia.
  - apply negb_true_iff. destruct (existsb (Nat.eqb i) xs) eqn:E; [|reflexivity]. apply existsb_exists in E as (y & Hy & E). apply Nat.eqb_eq in E. subst. contradiction.
Qed.

Section Amount.
Variable f : particle RNum -> R.

Lemma content_split mem r i : in_range i r ->
  content f mem r = held f (nth_error mem i) + Rsum (map (held f) (others mem r [i])).
Proof.
  intros H. unfold content, live. rewrite (Rsum_perm _ _ (Permutation_map (held f) (others_split mem r [] i H ltac:(auto)))). reflexivity.
Qed.
Lemma content_split2 mem r i j : in_range i r -> in_range j r -> i <> j ->
  content f mem r = held f (nth_error mem i) + held f (nth_error mem j) + Rsum (map (held f) (others mem r [i; j])).
Proof.
  intros Hi Hj Hij. rewrite (content_split mem r j Hj).
  rewrite (Rsum_perm _ _ (Permutation_map (held f) (others_split mem r [j] i Hi ltac:(cbn; intuition congruence)))).
  cbn [map Rsum]. lra.
Qed.
Lemma content_upd mem r i p a : in_range i r -> nth_error mem i = Some p -> content f (upd i a mem) r = content f mem r + f a - f p.
Proof.
  intros Hi Hp. rewrite !(content_split _ r i Hi). rewrite others_upd by (left; left; reflexivity).
  rewrite upd_hit by (apply nth_error_Some; congruence). rewrite Hp. cbn [held]. lra.
Qed.
Lemma content_upd_out mem r i a : ~ in_range i r -> content f (upd i a mem) r = content f mem r.
Proof. intros Hi. unfold content, live. rewrite others_upd by (right; assumption). reflexivity. Qed.
Lemma content_ext mem mem' r : (forall p, in_range p r -> nth_error mem' p = nth_error mem p) -> content f mem' r = content f mem r.
Proof. intros H. unfold content, live. rewrite (others_ext mem mem'); [reflexivity|]. intros p Hp _. auto. Qed.
End Amount.

Lemma sum_changes (F F' : range -> R) (D : nat -> R) : forall rs rs' o, length rs = length rs' ->
  (forall C x x', nth_error rs C = Some x -> nth_error rs' C = Some x' -> F' x' = F x + D (o + C)%nat) ->
  Rsum (map F' rs') = Rsum (map F rs) + Rsum (map D (seq o (length rs))).
Proof.
  induction rs as [|r rs IH]; intros [|r' rs'] o Hl H; try discriminate; cbn [map Rsum length seq]; [lra|].
  rewrite (IH rs' (S o)); [|injection Hl; auto|].
  - rewrite (H 0%nat r r' eq_refl eq_refl), Nat.add_0_r. lra.
  - intros C x x' Hx Hx'. rewrite (H (S C) x x' Hx Hx'). do 2 f_equal. lia.
Qed.
Lemma sum_indicator (A : nat) (d : R) n o : Rsum (map (fun C => if Nat.eqb C A then d else 0) (seq o n)) = if (Nat.leb o A && Nat.ltb A (o + n))%bool then d else 0.
Proof.
  revert o; induction n as [|n IH]; intros o; cbn [seq map Rsum].
  - destruct (Nat.leb_spec o A), (Nat.ltb_spec A (o + 0)); cbn; lra || lia.
  - rewrite IH. destruct (Nat.eqb_spec o A), (Nat.leb_spec (S o) A), (Nat.ltb_spec A (S o + n)), (Nat.leb_spec o A), (Nat.ltb_spec A (o + S n)); cbn; try lra; lia.
Qed.
Lemma sum_two (A B n : nat) (dA dB : R) : (A < n)%nat -> (B < n)%nat ->
  Rsum (map (fun C => (if Nat.eqb C A then dA else 0) + (if Nat.eqb C B then dB else 0)) (seq 0 n)) = dA + dB.
Proof.
  intros HA HB.
  assert (H : forall l (g h : nat -> R), Rsum (map (fun C => g C + h C) l) = Rsum (map g l) + Rsum (map h l)).
  { intros l g h. induction l as [|x l IH]; cbn [map Rsum]; lra. }
  rewrite H, !sum_indicator. cbn [Nat.leb andb]. destruct (Nat.ltb_spec A (0 + n)), (Nat.ltb_spec B (0 + n)); try lia. reflexivity.
Qed.

Lemma typed_live mem r (A : nat) : (forall i, in_range i r -> exists p, nth_error mem i = Some p /\ p_species p = Z.of_nat A) <->
  List.Forall (fun o => exists p : particle RNum, o = Some p /\ p_species p = Z.of_nat A) (live mem r).
Proof.
  rewrite List.Forall_forall. unfold live, others. split.
  - intros H o Ho. apply in_map_iff in Ho as (i & <- & Hi). apply filter_In in Hi as [Hi _]. apply in_seq in Hi.
    apply H. unfold in_range, rsize in *. lia.
  - intros H i Hi. destruct (H (nth_error mem i)) as (p & E & Hp); [|eauto]. apply in_map. apply filter_In. split; [|reflexivity].
    apply in_seq. unfold in_range, rsize in *. lia.
Qed.
Lemma others_in {N : Num} (mem : list (particle N)) r xs o : In o (others mem r xs) -> exists i, in_range i r /\ o = nth_error mem i.
Proof.
  intros H. apply in_map_iff in H as (i & <- & Hi). apply filter_In in Hi as [Hi _]. apply in_seq in Hi. exists i. split; [|reflexivity].
  unfold in_range, rsize in *. lia.
Qed.
Lemma typed_removed mem mem' r r' xs (A : nat) : Permutation (live mem' r') (others mem r xs) ->
  (forall i, in_range i r -> exists p : particle RNum, nth_error mem i = Some p /\ p_species p = Z.of_nat A) ->
  forall i, in_range i r' -> exists p, nth_error mem' i = Some p /\ p_species p = Z.of_nat A.
Proof.
  intros HP H. apply typed_live. apply List.Forall_forall. intros o Ho. apply (Permutation_in _ HP) in Ho.
  apply others_in in Ho as (i & Hi & ->). destruct (H i Hi) as (p & E & Hp). eauto.
Qed.

(** What one collision of the set does to the quantity. *)
Definition step_ok (f : particle RNum -> R) (K : R) (g : rng RNum) (rhs : list (equation RNum)) (A B : nat) (lo hi : nat -> R) : Prop :=
  forall msv pA pB l k path a b l' k', p_species pA = Z.of_nat A -> p_species pB = Z.of_nat B ->
    set_interact (N:=RNum) K true rhs msv pA pB l g k = Ok (path, a, b, l', k') -> (0 <= fst path)%Z ->
    exists new, l' = l ++ new /\
      lo (Z.to_nat (fst path)) <= (match new with [] => f a + f b | _ => Rsum (map f new) end) - (f pA + f pB) <= hi (Z.to_nat (fst path)) /\
      (new = [] -> p_species a = p_species pA /\ p_species b = p_species pB).

Section Step.
Variables (f : particle RNum -> R) (K : R) (g : rng RNum) (bnd : Z).
Hypothesis Hpos : pos_ok g bnd.

Lemma test_amount sfuel rhs msv A B (s s' : dstate RNum) lo hi :
  bounded bnd (s_ranges s) -> disjoint (s_ranges s) -> enough A B (s_ranges s) -> typed (s_mem s) (s_ranges s) ->
  step_ok f K g rhs A B lo hi ->
  one_test (N:=RNum) K true sfuel rhs msv A B g s = Ok s' ->
  typed (s_mem s') (s_ranges s') /\ exists i j path, s_log s' = s_log s ++ [(A, B, (i, j), path)] /\
    amount f (s_mem s) (s_ranges s) (s_res s) + (if (0 <=? path)%Z then lo (Z.to_nat path) else 0)
      <= amount f (s_mem s') (s_ranges s') (s_res s')
      <= amount f (s_mem s) (s_ranges s) (s_res s) + (if (0 <=? path)%Z then hi (Z.to_nat path) else 0).
Proof.
  intros Hb Hd Hen Hty Hst H.
  destruct (enough_nth _ _ _ Hen) as (ra & rb & EA & EB).
  destruct (enough_sizes _ _ _ _ _ _ Hen EA EB Hb) as [SA SB].
  destruct (one_test_ok (N:=RNum) K true sfuel rhs msv A B g s s' bnd ra rb Hpos H EA EB SA SB) as (i & j & path & pA & pB & a & b & k & k' & Hi & Hj & Hij & EpA & EpB & Hpath & Hset & Hlog & Hcase).
  destruct (Hty A ra i EA Hi) as (pA' & E & TA). rewrite EpA in E. injection E as <-.
  destruct (Hty B rb j EB Hj) as (pB' & E & TB). rewrite EpB in E. injection E as <-.
  assert (LA : (A < length (s_ranges s))%nat) by (apply nth_error_Some; congruence).
  assert (LB : (B < length (s_ranges s))%nat) by (apply nth_error_Some; congruence).
  destruct Hcase as [(Hc & Em & Er & Ee)|(_ & Hc1 & Hc2 & s0 & Em & Er & Ee & Hret)].
  - (* nothing removed *)
    assert (HS : p_species a = Z.of_nat A /\ p_species b = Z.of_nat B /\ s_res s' = s_res s /\
       (if (0 <=? fst path)%Z then lo (Z.to_nat (fst path)) else 0) <= f a + f b - (f pA + f pB) <= (if (0 <=? fst path)%Z then hi (Z.to_nat (fst path)) else 0)).
    { destruct (Z.leb_spec 0 (fst path)) as [L|L].
      - destruct (Hst _ _ _ _ _ _ _ _ _ _ TA TB Hset L) as (new & En & Hd2 & Hsp).
        destruct new as [|q new].
        + destruct (Hsp eq_refl) as [-> ->]. rewrite En, app_nil_r. auto.
        + exfalso. rewrite En, app_length in Hc. cbn [length] in Hc. destruct Hc as [Hc|[Hc|Hc]]; [discriminate|lia|lia].
      - apply set_interact_order in Hset as (k1 & _ & [(_ & -> & -> & -> & _)|(e & L' & _)]); [|lia].
        repeat split; try assumption; lra. }
    destruct HS as (Ta & Tb & Eres & Hchg). rewrite Em, Er, Eres. split.
    + intros C r p EC Hp. rewrite !upd_nth, upd_length.
      destruct (Nat.eqb_spec j p) as [->|]; cbn [andb].
      * assert ((p <? length (s_mem s))%nat = true) as -> by (apply Nat.ltb_lt, nth_error_Some; congruence).
        exists b. split; [reflexivity|]. destruct (Nat.eq_dec C B) as [->|Q]; [assumption|]. exfalso. exact (Hd C B r rb p Q EC EB Hp Hj).
      * destruct (Nat.eqb_spec i p) as [->|]; cbn [andb].
        -- assert ((p <? length (s_mem s))%nat = true) as -> by (apply Nat.ltb_lt, nth_error_Some; congruence).
           exists a. split; [reflexivity|]. destruct (Nat.eq_dec C A) as [->|Q]; [assumption|]. exfalso. exact (Hd C A r ra p Q EC EA Hp Hi).
        -- exact (Hty C r p EC Hp).
    + exists i, j, (fst path). split; [assumption|]. unfold amount.
      rewrite (sum_changes (content f (s_mem s)) (content f (upd j b (upd i a (s_mem s)))) (fun C => (if Nat.eqb C A then f a - f pA else 0) + (if Nat.eqb C B then f b - f pB else 0)) (s_ranges s) (s_ranges s) 0 eq_refl).
      * rewrite sum_two by assumption. lra.
      * intros C r r' EC EC'. rewrite EC in EC'. injection EC' as <-. cbn [plus].
        assert (S1 : content f (upd i a (s_mem s)) r = content f (s_mem s) r + (if Nat.eqb C A then f a - f pA else 0)).
        { destruct (Nat.eqb_spec C A) as [->|Q].
          - rewrite EA in EC. injection EC as <-. rewrite (content_upd f _ _ _ pA) by assumption. lra.
          - rewrite content_upd_out; [lra|]. intros Hc'. exact (Hd A C ra r i (fun e => Q (eq_sym e)) EA EC Hi Hc'). }
        assert (Ej : nth_error (upd i a (s_mem s)) j = Some pB).
        { rewrite upd_nth. destruct (Nat.eqb_spec i j); [contradiction|exact EpB]. }
        destruct (Nat.eqb_spec C B) as [->|Q].
        -- rewrite EB in EC. injection EC as <-. rewrite (content_upd f _ _ _ pB) by assumption. rewrite S1. lra.
        -- rewrite content_upd_out; [rewrite S1; lra|]. intros Hc'. exact (Hd B C rb r j (fun e => Q (eq_sym e)) EB EC Hj Hc').
  - (* both removed *)
    destruct (Hst _ _ _ _ _ _ _ _ _ _ TA TB Hset Hc1) as (new & En & Hchg & _).
    assert (Hnew : (match new with [] => f a + f b | _ => Rsum (map f new) end) = Rsum (map f new)).
    { destruct new; [|reflexivity]. rewrite En, app_nil_r in Hc2. lia. }
    rewrite Hnew in Hchg.
    destruct (test_removes (N:=RNum) K sfuel rhs msv A B g bnd s s' ra rb Hpos Hb Hd Hen EA EB H) as (i' & j' & path' & Hlog' & _ & _ & _ & _ & Hrem).
    rewrite Hlog in Hlog'. apply app_inv_head in Hlog'. injection Hlog' as <- <- <-.
    destruct (Hrem Hc1 Hc2) as (ra' & rb' & EA' & EB' & Fa & Fb & Hoth & Hmem & Hfin).
    assert (Hlen : length (s_ranges s) = length (s_ranges s')).
    { destruct (Nat.lt_total (length (s_ranges s)) (length (s_ranges s'))) as [L|[L|L]]; [|assumption|]; exfalso.
      - assert (Q : nth_error (s_ranges s') (length (s_ranges s)) = None).
        { rewrite Hoth by lia. apply nth_error_None. lia. }
        apply nth_error_None in Q. lia.
      - assert (Q : nth_error (s_ranges s) (length (s_ranges s')) = None \/ length (s_ranges s') = A \/ length (s_ranges s') = B).
        { destruct (Nat.eq_dec (length (s_ranges s')) A); [auto|]. destruct (Nat.eq_dec (length (s_ranges s')) B); [auto|]. left.
          rewrite <- Hoth by assumption. apply nth_error_None. lia. }
        destruct Q as [Q|Q]; [apply nth_error_None in Q; lia|].
        assert ((A < length (s_ranges s'))%nat) by (apply nth_error_Some; congruence).
        assert ((B < length (s_ranges s'))%nat) by (apply nth_error_Some; congruence). lia. }
    assert (Hsame : forall C r, nth_error (s_ranges s) C = Some r -> C <> A -> C <> B -> forall p, in_range p r -> nth_error (s_mem s') p = nth_error (s_mem s) p).
    { intros C r EC QA QB p Hp. apply Hmem; intros Hc'; [exact (Hd C A r ra p QA EC EA Hp Hc')|exact (Hd C B r rb p QB EC EB Hp Hc')]. }
    split.
    + intros C r' p EC' Hp. destruct (Nat.eq_dec C A) as [QA|QA]; [|destruct (Nat.eq_dec C B) as [QB|QB]].
      * subst C. rewrite EA' in EC'. injection EC' as <-. revert p Hp.
        destruct (Nat.eqb_spec A B) as [Q|Q]; [destruct Hfin as (_ & _ & HP)|destruct Hfin as (_ & _ & _ & HP & _)];
          (eapply typed_removed; [exact HP|]; intros q Hq; exact (Hty A ra q EA Hq)).
      * subst C. rewrite EB' in EC'. injection EC' as <-. revert p Hp.
        destruct (Nat.eqb_spec A B) as [Q|Q]; [exfalso; apply QA; auto|destruct Hfin as (_ & _ & _ & _ & HP)].
        eapply typed_removed; [exact HP|]. intros q Hq. exact (Hty B rb q EB Hq).
      * rewrite Hoth in EC' by assumption. rewrite (Hsame C r' EC' QA QB p Hp). exact (Hty C r' p EC' Hp).
    + exists i, j, (fst path). split; [assumption|].
      assert ((0 <=? fst path)%Z = true) as -> by (apply Z.leb_le; assumption).
      unfold amount. rewrite En, map_app, Rsum_app.
      rewrite (sum_changes (content f (s_mem s)) (content f (s_mem s')) (fun C => (if Nat.eqb C A then - f pA else 0) + (if Nat.eqb C B then - f pB else 0)) (s_ranges s) (s_ranges s') 0 Hlen).
      * rewrite sum_two by assumption. lra.
      * intros C r r' EC EC'. cbn [plus]. destruct (Nat.eqb_spec C A) as [QA|QA].
        -- subst C. rewrite EA in EC. injection EC as <-. rewrite EA' in EC'. injection EC' as <-.
           destruct (Nat.eqb_spec A B) as [Q|Q].
           ++ subst B. rewrite EA in EB. injection EB as <-. destruct Hfin as (_ & _ & HP).
              rewrite (content_split2 f (s_mem s) ra i j Hi Hj Hij), EpA, EpB. cbn [held].
              unfold content. rewrite (Rsum_perm _ _ (Permutation_map (held f) HP)). lra.
           ++ destruct Hfin as (_ & _ & _ & HP & _). rewrite (content_split f (s_mem s) ra i Hi), EpA. cbn [held].
              unfold content. rewrite (Rsum_perm _ _ (Permutation_map (held f) HP)). lra.
        -- destruct (Nat.eqb_spec C B) as [QB|QB].
           ++ subst C. rewrite EB in EC. injection EC as <-. rewrite EB' in EC'. injection EC' as <-.
              destruct (Nat.eqb_spec A B) as [Q|Q]; [exfalso; apply QA; auto|]. destruct Hfin as (_ & _ & _ & _ & HP).
              rewrite (content_split f (s_mem s) rb j Hj), EpB. cbn [held].
              unfold content. rewrite (Rsum_perm _ _ (Permutation_map (held f) HP)). lra.
           ++ rewrite Hoth in EC' by assumption. rewrite EC in EC'. injection EC' as <-.
              rewrite (content_ext f (s_mem s) (s_mem s') r (Hsame C r EC QA QB)). lra.
Qed.

Lemma over_app d l1 l2 : over_collisions d (l1 ++ l2) = over_collisions d l1 + over_collisions d l2.
Proof. unfold over_collisions. rewrite map_app, Rsum_app. reflexivity. Qed.
Lemma over_one d (A B : nat) ij path : over_collisions d [(A, B, ij, path)] = if (0 <=? path)%Z then d A B (Z.to_nat path) else 0.
Proof. unfold over_collisions. cbn [map Rsum fst snd]. lra. Qed.

Variables (rs0 : list range) (er0 : list nat) (res0 : list (particle RNum)).
Hypothesis Hb0 : bounded bnd rs0.
Hypothesis Hd0 : disjoint rs0.
Variables (lo hi : nat -> nat -> nat -> R).

Definition inv (s s' : dstate RNum) : Prop :=
  reach (N:=RNum) rs0 er0 res0 s' /\ typed (s_mem s') (s_ranges s') /\ exists log, s_log s' = s_log s ++ log /\
    amount f (s_mem s) (s_ranges s) (s_res s) + over_collisions lo log <= amount f (s_mem s') (s_ranges s') (s_res s')
      <= amount f (s_mem s) (s_ranges s) (s_res s) + over_collisions hi log.

Lemma inv_refl s : reach (N:=RNum) rs0 er0 res0 s -> typed (s_mem s) (s_ranges s) -> inv s s.
Proof. intros Hr Ht. split; [assumption|]. split; [assumption|]. exists []. rewrite app_nil_r. split; [reflexivity|]. unfold over_collisions. cbn. lra. Qed.
Lemma inv_trans s1 s2 s3 : inv s1 s2 -> inv s2 s3 -> inv s1 s3.
Proof.
  intros (_ & _ & l1 & E1 & H1) (Hr & Ht & l2 & E2 & H2). split; [assumption|]. split; [assumption|]. exists (l1 ++ l2).
  rewrite E2, E1, app_assoc. split; [reflexivity|]. rewrite !over_app. lra.
Qed.

Lemma tests_amount sfuel rhs msv A B n s s' : List.Forall (fun e => appends (q_model e)) rhs ->
  step_ok f K g rhs A B (lo A B) (hi A B) ->
  tests (N:=RNum) K true sfuel g rhs msv A B n s s' ->
  reach (N:=RNum) rs0 er0 res0 s -> typed (s_mem s) (s_ranges s) -> inv s s'.
Proof.
  intros Happ Hst Ht. induction Ht as [s|n s s1 s2 Hen H1 Ht IH]; intros Hr Hty; [apply inv_refl; assumption|].
  destruct (one_test_reach (N:=RNum) K true sfuel g bnd Hpos rhs msv A B rs0 er0 res0 s s1 Hb0 (fun _ => Hd0) Happ Hr Hen H1) as (Hr1 & _).
  pose proof (r_shrinks _ _ _ _ Hr) as Hsh.
  destruct (test_amount sfuel rhs msv A B s s1 _ _ (bounded_shrinks _ _ _ Hsh Hb0) (disjoint_shrinks _ _ Hsh Hd0) Hen Hty Hst H1) as (Hty1 & i & j & path & El & Ha).
  apply (inv_trans s s1 s2); [|apply IH; assumption].
  split; [assumption|]. split; [assumption|]. exists [(A, B, (i, j), path)]. split; [assumption|]. rewrite !over_one. exact Ha.
Qed.

Lemma pass_amount fuel (db : nat -> nat -> list (equation RNum)) (l : list (ctdata RNum)) :
  (forall A B, List.Forall (fun e => appends (q_model e)) (db A B)) ->
  (forall ct, In ct l -> step_ok f K g (db (ct_A ct) (ct_B ct)) (ct_A ct) (ct_B ct) (lo (ct_A ct) (ct_B ct)) (hi (ct_A ct) (ct_B ct))) ->
  forall s s', second_pass (N:=RNum) K fuel true db g l s = Ok s' -> reach (N:=RNum) rs0 er0 res0 s -> typed (s_mem s) (s_ranges s) -> inv s s'.
Proof.
  intros Happ. unfold second_pass. induction l as [|ct l IH]; intros Hst s s' H Hr Hty; cbn [ofold] in H.
  - injection H as <-. apply inv_refl; assumption.
  - apply obind_ok in H as (s1 & H1 & H). apply loop_tests in H1 as (n & Ht & _).
    assert (I1 : inv s s1) by (eapply tests_amount; try exact Ht; auto; apply Hst; left; reflexivity).
    apply (inv_trans s s1 s'); [assumption|]. destruct I1 as (Hr1 & Ht1 & _). apply IH; auto. intros; apply Hst; right; assumption.
Qed.
End Step.

Lemma run_amount (f : particle RNum -> R) K fuel dt (c : cell RNum) nprops db res er g k s bnd lo hi :
  pos_ok g bnd -> bounded bnd (c_ranges c) -> disjoint (c_ranges c) -> typed (c_mem c) (c_ranges c) ->
  (forall A B, List.Forall (fun e => appends (q_model e)) (db A B)) ->
  (forall A B, (A <= B)%nat -> step_ok f K g (db A B) A B (lo A B) (hi A B)) ->
  driver (N:=RNum) K fuel true dt c nprops db res er g k = Ok s ->
  typed (s_mem s) (s_ranges s) /\
  amount f (c_mem c) (c_ranges c) res + over_collisions lo (s_log s) <= amount f (s_mem s) (s_ranges s) (s_res s)
    <= amount f (c_mem c) (c_ranges c) res + over_collisions hi (s_log s).
Proof.
  intros Hpos Hb Hd Hty Happ Hst H. unfold driver in H. cbv zeta in H.
  apply obind_ok in H as ([l k1] & E1 & H). apply first_pass_ok in E1 as [Hm _].
  destruct (pass_amount f K g bnd Hpos (c_ranges c) er res Hb Hd lo hi fuel db l Happ) with (2 := H) as (_ & Ht & log & El & Ha).
  - intros ct Hin. apply Hst.
    assert (Hp : In (ct_A ct, ct_B ct) (filter (has_eqs db) (species_pairs (Nat.min (length (c_ranges c)) nprops)))).
    { rewrite <- Hm. apply in_map_iff. exists ct. auto. }
    apply filter_In in Hp as [Hp _]. apply species_pairs_in in Hp. lia.
  - apply reach_init.
  - exact Hty.
  - cbn [s_mem s_ranges s_res s_log app] in *. rewrite El. split; assumption.
Qed.
