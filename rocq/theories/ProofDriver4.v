(** Out-of-place runs terminate. *)
From Coq Require Import Reals Lra Lia ZArith Bool List.
From Flocq Require Import Core.Core IEEE754.BinarySingleNaN.
From Verif Require Import Base Num ModelTerm ModelCollide ModelXsec ModelSet SpecPhys SpecXsec SpecSet
  ProofCollide ProofF64 ProofInelastic ProofSet ProofFloat ProofSelect ProofDriver ProofDriver2 ProofDriver3.
From Coq Require Import List.
Import ListNotations.

Section AnyNum.
Context {N : Num}.
Variable K : N.

Lemma pick_other_total pA (r : range) (g : rng N) : (forall k, exists i, rand_pos r g k = Ok i /\ in_range i r) ->
  forall n fuel k j, (n < fuel)%nat -> rand_pos r g (k + n) = Ok j -> j <> pA ->
  exists j' k', pick_other fuel pA r g k = Ok (j', k') /\ in_range j' r.
Proof.
  intros Hp. induction n as [|n IH]; intros [|fuel] k j Hf Hj Hne; try lia; cbn [pick_other]; destruct (Hp k) as (i & E & Hi); rewrite E; cbn [obind].
  - rewrite Nat.add_0_r, E in Hj. injection Hj as <-. destruct (Nat.eqb_spec pA i); [congruence|]. eauto.
  - destruct (Nat.eqb_spec pA i); [|eauto]. apply (IH fuel (k + 1)%nat j); [lia| |assumption]. rewrite <- Hj. f_equal. lia.
Qed.

Definition good_draws (g : rng N) (ra rb : range) (m : nat) : Prop :=
  (forall k, exists i, rand_pos ra g k = Ok i /\ in_range i ra) /\ (forall k, exists i, rand_pos rb g k = Ok i /\ in_range i rb) /\
  ((forall p, in_range p ra -> ~ in_range p rb) \/ fair g rb m).

Lemma select_total fuel (ra rb : range) (g : rng N) m k : good_draws g ra rb m -> (m <= fuel)%nat -> (0 < fuel)%nat ->
  exists i j k', selectRandomPair fuel ra rb g k = Ok (i, j, k') /\ in_range i ra /\ in_range j rb.
Proof.
  intros (Ha & Hb & Hc) Hf H0. destruct (Ha k) as (i & Ei & Hi). unfold selectRandomPair. rewrite Ei. cbn [obind].
  destruct Hc as [Hc|Hc].
  - destruct (Hb (k + 1)%nat) as (j & Ej & Hj). destruct fuel as [|fuel]; [lia|]. cbn [pick_other]. rewrite Ej. cbn [obind].
    destruct (Nat.eqb_spec i j) as [->|]; [exfalso; eapply Hc; eauto|]. cbn [obind]. eauto 8.
  - destruct (Hc (k + 1)%nat i) as (n & j & Hn & Ej & Hne).
    destruct (pick_other_total i rb g Hb n fuel (k + 1)%nat j) as (j' & k' & E & Hj'); [lia|assumption|assumption|]. rewrite E. cbn [obind]. eauto 8.
Qed.

(** What an out-of-place run needs from a pair of species. *)
Definition total_set (rhs : list (equation N)) (msv : N) (mem : list (particle N)) (g : rng N) : Prop :=
  forall i j pA pB l k, nth_error mem i = Some pA -> nth_error mem j = Some pB -> i <> j ->
    exists x, set_interact K false rhs msv pA pB l g k = Ok x.

Lemma one_test_total fuel rhs msv A B g m (s : dstate N) ra rb : total_set rhs msv (s_mem s) g ->
  nth_error (s_ranges s) A = Some ra -> nth_error (s_ranges s) B = Some rb -> good_draws g ra rb m -> (m <= fuel)%nat -> (0 < fuel)%nat ->
  (snd ra <= length (s_mem s))%nat -> (snd rb <= length (s_mem s))%nat ->
  exists s', one_test K false fuel rhs msv A B g s = Ok s' /\ s_mem s' = s_mem s /\ s_ranges s' = s_ranges s.
Proof.
  intros Ht EA EB Hg Hm Hf LA LB. destruct (select_total fuel ra rb g m (s_pos s) Hg Hm Hf) as (i & j & k' & Es & Hi & Hj).
  assert (Hij : i <> j).
  { unfold selectRandomPair in Es. apply obind_ok in Es as (x & _ & Es). apply obind_ok in Es as ([y k1] & E1 & Es). injection Es as <- <- <-.
    clear -E1. revert E1. generalize (s_pos s + 1)%nat. induction fuel as [|fuel IH]; intros n E1; cbn [pick_other] in E1; [discriminate|].
    apply obind_ok in E1 as (z & _ & E1). destruct (Nat.eqb_spec x z); [eapply IH; eassumption|]. injection E1 as <- <-. assumption. }
  unfold one_test, oget. rewrite EA, EB. cbn [obind]. rewrite Es. cbn [obind].
  destruct (nth_error (s_mem s) i) as [pA|] eqn:EpA; [|apply nth_error_None in EpA; unfold in_range in *; lia].
  destruct (nth_error (s_mem s) j) as [pB|] eqn:EpB; [|apply nth_error_None in EpB; unfold in_range in *; lia]. cbn [obind].
  destruct (Ht i j pA pB (s_res s) k' EpA EpB Hij) as ([[[[path a] b] l] k2] & Ex). rewrite Ex. cbn [obind negb orb].
  destruct (set_outofplace K _ _ _ _ _ _ _ _ _ _ _ _ Ex) as [-> ->]. eexists. split; [reflexivity|]. cbn [s_mem s_ranges]. split; [|reflexivity].
  rewrite (upd_same i) by assumption. apply upd_same. assumption.
Qed.

Lemma loop_total sfuel rhs msv A B g m ra rb : forall n fuel x (s : dstate N), (n1 <? dec x n)%num = false -> (n < fuel)%nat ->
  total_set rhs msv (s_mem s) g ->
  nth_error (s_ranges s) A = Some ra -> nth_error (s_ranges s) B = Some rb -> (enough A B (s_ranges s) -> good_draws g ra rb m) -> (m <= sfuel)%nat -> (0 < sfuel)%nat ->
  (snd ra <= length (s_mem s))%nat -> (snd rb <= length (s_mem s))%nat ->
  exists s', test_loop K fuel false sfuel rhs msv A B x g s = Ok s' /\ s_mem s' = s_mem s /\ s_ranges s' = s_ranges s.
Proof.
  induction n as [|n IH]; intros [|fuel] x s Hn Hf Ht EA EB Hg Hm H0 LA LB; try lia; cbn [test_loop].
  - cbn [dec] in Hn. rewrite Hn. eauto.
  - destruct (n1 <? x)%num; [|eauto]. unfold oget. rewrite EA, EB. cbn [obind]. destruct (_ || _)%bool eqn:Ec; [eauto|]. apply (enough_cond A B _ _ _ EA EB) in Ec.
    destruct (one_test_total sfuel rhs msv A B g m s ra rb Ht EA EB (Hg Ec) Hm H0 LA LB) as (s1 & E1 & M1 & R1). rewrite E1. cbn [obind].
    rewrite <- M1, <- R1. apply (IH fuel (x - n1)%num s1); rewrite ?M1, ?R1; try assumption; [rewrite dec_S; assumption|lia].
Qed.

Lemma second_total db g m (l : list (ctdata N)) mem rs :
  (forall ct, In ct l -> total_set (db (ct_A ct) (ct_B ct)) (ct_msv ct) mem g /\ (exists n, (n1 <? dec (ct_tests ct) n)%num = false) /\
     exists ra rb, nth_error rs (ct_A ct) = Some ra /\ nth_error rs (ct_B ct) = Some rb /\ (enough (ct_A ct) (ct_B ct) rs -> good_draws g ra rb m) /\
       (snd ra <= length mem)%nat /\ (snd rb <= length mem)%nat) ->
  exists f0, forall fuel (s : dstate N), (f0 <= fuel)%nat -> s_mem s = mem -> s_ranges s = rs ->
    exists s', second_pass K fuel false db g l s = Ok s'.
Proof.
  induction l as [|ct l IH]; intros H.
  - exists 0%nat. intros fuel s _ _ _. exists s. reflexivity.
  - destruct IH as [f1 IH]; [intros; apply H; right; assumption|].
    destruct (H ct (or_introl eq_refl)) as (Ht & (n & Hn) & ra & rb & EA & EB & Hg & LA & LB).
    exists (S n + S m + f1)%nat. intros fuel s Hf Em Er. unfold second_pass in *. cbn [ofold]. rewrite <- Em, <- Er in *.
    destruct (loop_total fuel (db (ct_A ct) (ct_B ct)) (ct_msv ct) (ct_A ct) (ct_B ct) g m ra rb n fuel (ct_tests ct) s Hn) as (s1 & E1 & M1 & R1); try assumption; try lia.
    rewrite E1. cbn [obind]. apply IH; [lia|assumption|assumption].
Qed.

Lemma driver_total dt (c : cell N) nprops db res er g k m :
  let n := Nat.min (length (c_ranges c)) nprops in
  (forall A r, nth_error (c_ranges c) A = Some r -> (snd r <= length (c_mem c))%nat) ->
  (forall A B, (A <= B < n)%nat -> db A B <> [] -> exists msv ra rb, findMaxSigmaVProduct K (db A B) (c_maxv c A B) = Ok msv /\
     nth_error (c_ranges c) A = Some ra /\ nth_error (c_ranges c) B = Some rb /\ (0 < rsize ra)%nat /\ (0 < rsize rb)%nat /\
     (enough A B (c_ranges c) -> good_draws g ra rb m) /\ total_set (db A B) msv (c_mem c) g) ->
  (forall x : N, exists i, (n1 <? dec x i)%num = false) ->
  exists f0, forall fuel, (f0 <= fuel)%nat -> exists s, driver K fuel false dt c nprops db res er g k = Ok s.
Proof.
  intros n Hmem Hdb Hdec. unfold driver. cbv zeta. fold n.
  destruct (first_pass_empty K db dt c g (species_pairs n) k) as [_ Hok].
  - intros A B Hin. apply species_pairs_in in Hin. 
    assert (Hl : forall C, (C < n)%nat -> exists r, nth_error (c_ranges c) C = Some r).
    { intros C HC. destruct (nth_error (c_ranges c) C) eqn:E; [eauto|]. apply nth_error_None in E. lia. }
    split; [apply Hl; lia|]. split; [apply Hl; lia|]. intros Hne. destruct (Hdb A B Hin Hne) as (msv & _ & _ & E & _). eauto.
  - assumption.
  - destruct Hok as (l & k' & E).
    + intros A B r Hin Hne Hr. apply species_pairs_in in Hin. destruct (Hdb A B Hin Hne) as (msv & ra & rb & _ & EA & EB & SA & SB & _).
      destruct Hr as [Hr|Hr]; [rewrite EA in Hr|rewrite EB in Hr]; injection Hr as <-; assumption.
    + rewrite E. cbn [obind]. destruct (first_pass_ok K db dt c g _ _ _ _ E) as [Hm Hct].
      destruct (second_total db g m l (c_mem c) (c_ranges c)) as [f0 Hf].
      * intros ct Hin. assert (Hp : In (ct_A ct, ct_B ct) (filter (has_eqs db) (species_pairs n))).
        { rewrite <- Hm. apply in_map_iff. exists ct. auto. }
        apply filter_In in Hp as [Hp Hq]. pose proof Hp as Hp'. apply species_pairs_in in Hp'.
        assert (Hne : db (ct_A ct) (ct_B ct) <> []).
        { unfold has_eqs in Hq. cbn [fst snd] in Hq. destruct (db (ct_A ct) (ct_B ct)); discriminate. }
        destruct (Hdb _ _ Hp' Hne) as (msv & ra & rb & Emax & EA & EB & _ & _ & Hg & Ht).
        assert (Emsv : ct_msv ct = msv).
        { apply in_split in Hp as (l1 & l2 & Esp). destruct (Hct l1 _ _ l2 Esp Hne) as (ct' & la & lb & ra' & rb' & pa & pb & El & _ & EcA & EcB & _ & _ & _ & _ & _ & _ & Emsv & _).
          assert (ct' = ct) as ->; [|congruence].
          assert (Hnd : NoDup (map (fun ct => (ct_A ct, ct_B ct)) l)) by (rewrite Hm; apply NoDup_filter, species_pairs_nodup).
          assert (Hin' : In ct' l) by (rewrite El; apply in_elt). clear -Hnd Hin Hin' EcA EcB. revert Hnd Hin Hin'. induction l as [|x l IH]; intros Hnd Hin Hin'; [destruct Hin|].
          cbn [map] in Hnd. apply NoDup_cons_iff in Hnd as [Hx Hnd]. destruct Hin as [->|Hin], Hin' as [->|Hin']; [reflexivity| | |auto]; exfalso; apply Hx; apply in_map_iff; eexists; (split; [|eassumption]); congruence. }
        rewrite Emsv. split; [assumption|]. split; [apply Hdec|]. exists ra, rb. repeat (split; [assumption|]). split; eapply Hmem; eassumption.
      * exists f0. intros fuel Hle. apply Hf; [assumption|reflexivity|reflexivity].
Qed.
End AnyNum.

Lemma dec_R_stops (x : R) : exists i, (n1 <? dec (N:=RNum) x i)%num = false.
Proof.
  exists (Z.to_nat (up x)). rewrite dec_R. unR. destruct (Rltb_spec 1 (x - INR (Z.to_nat (up x)))) as [L|]; [|reflexivity]. exfalso.
  destruct (archimed x) as [A _]. destruct (Z.le_gt_cases 0 (up x)) as [P|P].
  - rewrite INR_IZR_INZ, Z2Nat.id in L by assumption. lra.
  - assert (IZR (up x) <= 0)%R by (apply IZR_le; lia). pose proof (pos_INR (Z.to_nat (up x))). lra.
Qed.

Lemma channel_total {N : Num} (K : N) rhs v : List.Forall (total_eq K) rhs -> exists cs, channel_cs K rhs v = Ok cs /\ length cs = length rhs.
Proof.
  unfold channel_cs. induction 1 as [|e rhs [He _] H (cs & E & L)]; cbn [omap]; [exists []; auto|].
  destruct (He v) as (s & ->). cbn [obind]. rewrite E. cbn [obind]. eexists. split; [reflexivity|]. cbn. congruence.
Qed.
Lemma set_total {N : Num} (K : N) rhs msv mem g : List.Forall (total_eq K) rhs -> total_set K rhs msv mem g.
Proof.
  intros H i j pA pB l k _ _ _. unfold set_interact. destruct (channel_total K rhs (vabs (vsub (p_vel pA) (p_vel pB))) H) as (cs & Ec & Lc).
  unfold calculateOutPath. rewrite Ec. cbn [obind].
  destruct (_ <? _)%num; cbn [obind fst]; [eexists; reflexivity|].
  destruct (pick_valid cs (g_exc g (k + 1) * cs_total cs)%num n0 0%Z) as [->|(n & c & Hn & ->)]; cbn [obind fst]; [eexists; reflexivity|].
  replace (0 <=? 0 + Z.of_nat n)%Z with true by (symmetry; apply Z.leb_le; lia). rewrite Z.add_0_l, Nat2Z.id.
  assert (n < length cs)%nat by (apply nth_error_Some; rewrite Hn; discriminate).
  unfold oget. destruct (nth_error rhs n) as [e|] eqn:Ee; [|apply nth_error_None in Ee; lia]. cbn [obind].
  rewrite Forall_forall in H. destruct (H e (nth_error_In _ _ Ee)) as [_ Hm].
  destruct (p_species pB <? p_species pA)%Z; [destruct (Hm pB pA l g (k + 2)%nat) as ([[[? ?] ?] ?] & ->)|destruct (Hm pA pB l g (k + 2)%nat) as ([[[? ?] ?] ?] & ->)]; cbn [obind]; eexists; reflexivity.
Qed.

Lemma driver_terminates (K : R) (dt : R) (c : cell RNum) nprops db res er g k m :
  rng_ok g -> (forall A r, nth_error (c_ranges c) A = Some r -> (snd r <= length (c_mem c))%nat) ->
  disjoint (c_ranges c) ->
  (forall A B, (A <= B < Nat.min (length (c_ranges c)) nprops)%nat -> db A B <> [] ->
     List.Forall (total_eq (N:=RNum) K) (db A B) /\ (exists msv, findMaxSigmaVProduct (N:=RNum) K (db A B) (c_maxv c A B) = Ok msv) /\
     forall r, nth_error (c_ranges c) A = Some r \/ nth_error (c_ranges c) B = Some r ->
       (0 < Z.of_nat (rsize r) < 2 ^ 31)%Z /\ (A = B -> (2 <= rsize r)%nat -> fair g r m)) ->
  exists f0, forall fuel, (f0 <= fuel)%nat -> exists s, driver (N:=RNum) K fuel false dt c nprops db res er g k = Ok s.
Proof.
  intros Hg Hmem Hd Hdb. apply (driver_total (N:=RNum) K dt c nprops db res er g k m Hmem); [|exact dec_R_stops].
  intros A B HAB Hne. destruct (Hdb A B HAB Hne) as (Ht & (msv & Em) & Hr).
  assert (Hl : forall C, (C < Nat.min (length (c_ranges c)) nprops)%nat -> exists r, nth_error (c_ranges c) C = Some r).
  { intros C HC. destruct (nth_error (c_ranges c) C) eqn:E; [eauto|]. apply nth_error_None in E. lia. }
  destruct (Hl A ltac:(lia)) as (ra & EA). destruct (Hl B ltac:(lia)) as (rb & EB).
  destruct (Hr ra (or_introl EA)) as [SA FA]. destruct (Hr rb (or_intror EB)) as [SB FB].
  exists msv, ra, rb. do 3 (split; [assumption|]). split; [lia|]. split; [lia|]. split; [|apply set_total; assumption].
  intros (ra' & rb' & EA' & EB' & Hen). rewrite EA in EA'. rewrite EB in EB'. injection EA' as <-. injection EB' as <-.
  split; [apply rrand_pos; assumption|]. split; [apply rrand_pos; assumption|].
  destruct (Nat.eq_dec A B) as [Q|Q]; [right; apply FB; [assumption|]; subst; rewrite Nat.eqb_refl in Hen; rewrite EA in EB; injection EB as <-; assumption|left]. intros p. eapply Hd; eassumption.
Qed.
