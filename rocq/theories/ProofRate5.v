(** Expected numbers of tests and interactions. *)
From Coq Require Import Reals List ZArith Lra Lia Psatz Bool.
From Flocq Require Import Core.
From Coquelicot Require Import Coquelicot.
From Verif Require Import Base Num ModelTerm ModelCollide ModelXsec ModelSet SpecPhys SpecXsec SpecSet SpecRate ProofCollide ProofInelastic ProofSet ProofSelect ProofDriver ProofDriver2 ProofDriver3 ProofRate ProofRate2 ProofRate3 ProofRate4.
From Coq Require Import List.
Import ListNotations.
Local Open Scope R_scope.

(** ** Averages of sums *)
Lemma average_plus F G : forall m k u a b, average_is m k F u a -> average_is m k G u b -> average_is m k (fun u => F u + G u) u (a + b).
Proof.
  induction m as [|m IH]; intros k u a b HF HG; cbn [average_is] in *; [congruence|].
  destruct HF as (f & Hf & If). destruct HG as (g & Hg & Ig). exists (fun x => f x + g x). split.
  - intros x Hx. apply IH; [apply Hf|apply Hg]; assumption.
  - apply (is_RInt_plus (V:=R_NormedModule) f g 0 1 a b If Ig).
Qed.
Lemma expected_plus k F G a b : expected k F a -> expected k G b -> expected k (fun f u => F f u + G f u) (a + b).
Proof.
  intros HF HG eps He. destruct (HF (eps / 2) ltac:(lra)) as (f1 & H1). destruct (HG (eps / 2) ltac:(lra)) as (f2 & H2).
  exists (Nat.max f1 f2). intros fuel Hf. destruct (H1 fuel ltac:(lia)) as (M1 & x1 & A1 & B1). destruct (H2 fuel ltac:(lia)) as (M2 & x2 & A2 & B2).
  exists (Nat.max M1 M2), (x1 + x2). split.
  - intros M u HM Hu. apply average_plus; [apply A1|apply A2]; try assumption; lia.
  - replace (x1 + x2 - (a + b)) with ((x1 - a) + (x2 - b)) by ring. eapply Rle_trans; [apply Rabs_triang|]. lra.
Qed.

Lemma expected_ext k F G a : (forall f u, F f u = G f u) -> expected k F a -> expected k G a.
Proof.
  intros E H eps He. destruct (H eps He) as (f0 & H1). exists f0. intros fuel Hf. destruct (H1 fuel Hf) as (M0 & x & A & B). exists M0, x. split; [|assumption].
  intros M u HM Hu. specialize (A M u HM Hu). clear -E A. revert k u x A. induction M as [|M IH]; intros k u x A; cbn [average_is] in *; [rewrite <- E; assumption|].
  destruct A as (f & H1 & H2). exists f. split; [|assumption]. intros y Hy. apply IH. apply H1. assumption.
Qed.
Lemma exactly_ext k F G a : (forall f u, F f u = G f u) -> expected_exactly k F a -> expected_exactly k G a.
Proof.
  intros E (f0 & H1). exists f0. intros fuel Hf. destruct (H1 fuel Hf) as (M0 & A). exists M0.
  intros M u HM Hu. specialize (A M u HM Hu). clear -E A. revert k u A. generalize a. clear a. induction M as [|M IH]; intros x k u A; cbn [average_is] in *; [rewrite <- E; assumption|].
  destruct A as (f & H1 & H2). exists f. split; [|assumption]. intros y Hy. apply IH. apply H1. assumption.
Qed.

Section Drive.
Context (K dt : R) (c : cell RNum) (nprops : nat) (db : nat -> nat -> list (equation RNum)).
Hypothesis HT : testable K dt c nprops db.
Let rs := c_ranges c.
Let mem := c_mem c.
Let n := Nat.min (length rs) nprops.
Notation msvf := (msvf K c db).
Notation xe := (xe K dt c db).

(** ** A weight that is zero for all but one pair of species *)
Section One.
Context (phi : entry -> R) (A B : nat).
Hypothesis Hphi : forall e, 0 <= phi e.
Hypothesis Hzero : forall A' B' ij p, (A', B') <> (A, B) -> phi (A', B', ij, p) = 0.
Hypothesis Hok : okp c nprops db (A, B).

Lemma q_zero A' B' : (A', B') <> (A, B) -> qmean K mem rs db msvf A' B' phi = 0.
Proof.
  intros H. unfold qmean. erewrite (Rsum_ext _ (fun _ => 0)); [rewrite Rsum_const; unfold Rdiv; ring|].
  intros i _. unfold umean. erewrite (Rsum_ext _ (fun _ => 0)); [rewrite Rsum_const; unfold Rdiv; ring|].
  intros j _. unfold pmean. rewrite !Hzero by assumption. destruct (Rlt_dec 0 _); [|reflexivity].
  erewrite (Rsum_ext _ (fun _ => 0)); [rewrite Rsum_const; ring|]. intros x _. rewrite Hzero by assumption. ring.
Qed.
Lemma EQ_one ps : NoDup ps -> (In (A, B) ps -> EQ K dt c db phi ps = EN K dt c db A B * qmean K mem rs db msvf A B phi) /\
  (~ In (A, B) ps -> EQ K dt c db phi ps = 0).
Proof.
  induction ps as [|[A' B'] ps IH]; intros Hnd; [split; [intros []|reflexivity]|]. inversion Hnd as [|? ? Hni Hnd']; subst. destruct (IH Hnd') as [I1 I2].
  cbn [EQ]. split.
  - intros [E|Hin].
    + injection E as -> ->. rewrite I2 by assumption. fold rs mem. ring.
    + assert ((A', B') <> (A, B)) by (intros E; rewrite E in Hni; contradiction). fold rs mem. rewrite q_zero, I1 by assumption. ring.
  - intros Hn. assert ((A', B') <> (A, B)) by (intros E; apply Hn; left; assumption). fold rs mem. rewrite q_zero, I2; [ring|intros Hin; apply Hn; right; assumption|assumption].
Qed.
Lemma one_in : In (A, B) (filter (has_eqs db) (species_pairs n)).
Proof.
  destruct Hok as [H1 H2]. cbn [fst snd] in *. apply filter_In. split; [apply species_pairs_in; exact H1|]. unfold has_eqs. cbn [fst snd]. destruct (db A B); [contradiction|reflexivity].
Qed.
Lemma one_EQ : EQ K dt c db phi (filter (has_eqs db) (species_pairs n)) = EN K dt c db A B * qmean K mem rs db msvf A B phi.
Proof. apply EQ_one; [apply NoDup_filter, species_pairs_nodup|exact one_in]. Qed.

Lemma pow2_large C eps : 0 < eps -> exists f0, forall f, (f0 <= f)%nat -> C / 2 ^ f <= eps.
Proof.
  intros He. destruct (Pow_x_infinity 2 ltac:(rewrite Rabs_right; lra) (C / eps)) as (N0 & H). exists N0. intros f Hf. specialize (H f ltac:(lia)).
  assert (P : 0 < 2 ^ f) by (apply pow_lt; lra). rewrite Rabs_right in H by lra. apply Rmult_le_reg_r with (2 ^ f); [assumption|].
  unfold Rdiv. rewrite Rmult_assoc, Rinv_l by lra. apply Rge_le in H. apply Rmult_le_compat_l with (r := eps) in H; [|lra].
  unfold Rdiv in H. replace (eps * (C * / eps)) with C in H by (field; lra). lra.
Qed.

Theorem expected_one res er k : expected k (fun fuel u => weigh phi (driver (N:=RNum) K fuel false dt c nprops db res er (drawn u) k))
  (EN K dt c db A B * qmean K mem rs db msvf A B phi).
Proof.
  intros eps He. destruct (driver_average K dt c nprops db phi HT Hphi res er k) as (f0 & H). cbv zeta in H. fold rs n in H. rewrite one_EQ in H.
  set (ps := filter (has_eqs db) (species_pairs n)) in *. set (E := EN K dt c db A B * qmean K mem rs db msvf A B phi) in *. set (C := CL K dt c db ps) in *.
  destruct (pow2_large (E * C) eps He) as (f1 & Hf1). exists (Nat.max f0 f1). intros fuel Hf. destruct (H fuel ltac:(lia)) as (M0 & a & Ha & L & U).
  exists M0, a. split; [assumption|]. specialize (Hf1 fuel ltac:(lia)). apply Rabs_le. split; [|lra]. unfold Rdiv in *. rewrite Rmult_assoc in Hf1. lra.
Qed.
Theorem exactly_one res er k : (forall C, (C < n)%nat -> db C C = []) ->
  expected_exactly k (fun fuel u => weigh phi (driver (N:=RNum) K fuel false dt c nprops db res er (drawn u) k))
  (EN K dt c db A B * qmean K mem rs db msvf A B phi).
Proof.
  intros Hl. destruct (driver_average K dt c nprops db phi HT Hphi res er k) as (f0 & H). cbv zeta in H. fold rs n in H. rewrite one_EQ in H.
  set (ps := filter (has_eqs db) (species_pairs n)) in *. set (E := EN K dt c db A B * qmean K mem rs db msvf A B phi) in *.
  assert (C0 : CL K dt c db ps = 0).
  { assert (G : forall p, In p ps -> Nat.eqb (fst p) (snd p) = false).
    { intros [A' B'] Hin. apply filter_In in Hin as [Hin He]. apply species_pairs_in in Hin. cbn [fst snd]. destruct (Nat.eqb_spec A' B') as [->|]; [|reflexivity].
      unfold has_eqs in He. cbn [fst snd] in He. rewrite Hl in He by lia. discriminate. }
    clearbody ps. clear -G. induction ps as [|[A' B'] ps IH]; [reflexivity|]. cbn [CL]. rewrite IH by (intros; apply G; right; assumption).
    pose proof (G (A', B') (or_introl eq_refl)) as Q. cbn [fst snd] in Q. rewrite Q. ring. }
  exists f0. intros fuel Hf. destruct (H fuel Hf) as (M0 & a & Ha & L & U). exists M0. rewrite C0 in L. unfold Rdiv in L. rewrite Rmult_0_l, Rminus_0_r, Rmult_1_r in L.
  assert (a = E) as <- by lra. assumption.
Qed.

(** The expected number of tests. *)
Lemma EN_value : big c A B = true -> 0 <= xe A B ->
  (IZR (Zfloor (xe A B)) <> xe A B -> EN K dt c db A B = xe A B) /\
  (forall z, xe A B = IZR z -> (1 <= z)%Z -> EN K dt c db A B = IZR (z - 1)).
Proof.
  intros Hb Hx. unfold EN, neff. rewrite Hb. unfold pf. set (x := xe A B) in *.
  assert (Hfl : (0 <= Zfloor x)%Z) by (apply Zfloor_lub; assumption). split.
  - intros Hne. assert (Hc : Zceil x = (Zfloor x + 1)%Z) by (apply Zceil_floor_neq; assumption).
    assert (Hc1 : Zceil (x + 1) = (Zceil x + 1)%Z).
    { apply Zceil_imp. pose proof (Zceil_ub x). pose proof (Zceil_lb x). rewrite minus_IZR, plus_IZR. lra. }
    unfold cnt. rewrite Hc1, Hc. rewrite !INR_IZR_INZ, !Z2Nat.id by lia. replace (Z.max 0 (Zfloor x + 1 + 1 - 1)) with (Zfloor x + 1)%Z by lia. replace (Z.max 0 (Zfloor x + 1 - 1)) with (Zfloor x) by lia.
    rewrite plus_IZR. ring.
  - intros z -> Hz. rewrite Zfloor_IZR. rewrite Rminus_eq_0. unfold cnt. rewrite Zceil_IZR. rewrite (INR_IZR_INZ (Z.to_nat (Z.max 0 (z - 1)))), Z2Nat.id by lia.
    rewrite (Z.max_r 0 (z - 1)) by lia. ring.
Qed.
Lemma xe_nonneg : 0 <= xe A B.
Proof.
  destruct (okp_size K dt c nprops db HT _ Hok) as [SA SB]. destruct (okp_msv K dt c nprops db HT _ Hok) as [_ Hm]. cbn [fst snd] in *. pose proof Hok as [H1 _]. cbn [fst snd] in H1.
  destruct (okp_weight K dt c nprops db HT A ltac:(lia) SA) as [_ PA]. destruct HT as (Hdt & HV & _).
  unfold ProofRate4.xe, ntc. assert (0 < Rmax (wt c A) (wt c B)) by (eapply Rlt_le_trans; [exact PA|apply Rmax_l]).
  unfold Rdiv. repeat apply Rmult_le_pos; try apply pos_INR; try lra; try assumption.
  - left. apply Rinv_0_lt_compat. assumption.
  - left. apply Rinv_0_lt_compat. destruct (Nat.eqb A B); lra.
Qed.

(** The weight of one pair of particles. *)
Lemma Rsum_indicator l i v : NoDup l -> In i l -> Rsum (map (fun j => if Nat.eqb i j then v else 0) l) = v.
Proof.
  induction l as [|j l IH]; intros Hnd Hin; [contradiction|]. inversion Hnd as [|? ? Hni Hnd']; subst. cbn [map Rsum]. destruct (Nat.eqb_spec i j) as [->|Hne].
  - erewrite (Rsum_ext _ (fun _ => 0)); [rewrite Rsum_const; ring|]. intros y Hy. destruct (Nat.eqb_spec j y) as [->|]; [contradiction|reflexivity].
  - destruct Hin as [<-|Hin]; [contradiction|]. rewrite IH by assumption. ring.
Qed.
Lemma qmean_pair i j (h : Z -> R) : big c A B = true -> in_range i (rg rs A) -> in_range j (rg rs B) -> i <> j ->
  (forall i' j' p, phi (A, B, (i', j'), p) = if Nat.eqb i i' then (if Nat.eqb j j' then h p else 0) else 0) ->
  qmean K mem rs db msvf A B phi = pmean (msvf A B) (vel mem i j) (css K mem db A B i j) h /
     (INR (rsize (rg rs A)) * INR (if Nat.eqb A B then rsize (rg rs B) - 1 else rsize (rg rs B))).
Proof.
  intros Hb Hi Hj Hij Hp. pose proof (good_pair K dt c nprops db HT _ Hok Hb) as G. cbn [fst snd] in G. fold rs mem in G.
  pose proof (g_szA _ _ _ _ _ _ _ _ _ G) as SA. pose proof (g_szB _ _ _ _ _ _ _ _ _ G) as SB.
  assert (Hlen : length (others (rg rs B) i) = if Nat.eqb A B then (rsize (rg rs B) - 1)%nat else rsize (rg rs B)).
  { unfold others. pose proof (filter_split (Nat.eqb i) (seq (fst (rg rs B)) (rsize (rg rs B)))) as Q. rewrite seq_length in Q.
    destruct (g_rel _ _ _ _ _ _ _ _ _ G) as [[E Hn]|[Hne Hd]].
    - destruct (Nat.eqb_spec A B) as [_|]; [|contradiction]. rewrite count_seq_in in Q; [lia|]. rewrite E in Hi. unfold in_range, rsize in *. cbn. lia.
    - destruct (Nat.eqb_spec A B) as [|_]; [contradiction|]. rewrite count_seq_out in Q; [lia|]. intros H1. apply (Hd i Hi). unfold in_range, rsize in *. cbn in *. lia. }
  assert (Hpos : (0 < length (others (rg rs B) i))%nat).
  { rewrite Hlen. destruct (g_rel _ _ _ _ _ _ _ _ _ G) as [[E Hn]|[Hne Hd]]; [rewrite E in *; destruct (Nat.eqb_spec B B); lia|destruct (Nat.eqb_spec A B); lia]. }
  rewrite <- Hlen. set (P := pmean (msvf A B) (vel mem i j) (css K mem db A B i j) h).
  unfold qmean.
  erewrite (Rsum_ext _ (fun i' => if Nat.eqb i i' then P / INR (length (others (rg rs B) i)) else 0)).
  - rewrite Rsum_indicator; [|apply seq_NoDup|apply in_seq; unfold in_range, rsize in *; lia].
    assert (0 < INR (rsize (rg rs A))) by (apply lt_0_INR; lia). assert (0 < INR (length (others (rg rs B) i))) by (apply lt_0_INR; assumption). field. lra.
  - intros i' _. unfold umean. destruct (Nat.eqb_spec i i') as [<-|Hne].
    + f_equal. erewrite (Rsum_ext _ (fun j' => if Nat.eqb j j' then P else 0)).
      * apply Rsum_indicator.
        -- unfold others. apply NoDup_filter, seq_NoDup.
        -- unfold others. apply filter_In. split; [apply in_seq; unfold in_range, rsize in *; lia|]. destruct (Nat.eqb_spec i j); [contradiction|reflexivity].
      * intros j' _. unfold P, pmean. destruct (Nat.eqb_spec j j') as [<-|Hnj].
        -- rewrite !Hp, !Nat.eqb_refl. destruct (Rlt_dec 0 _); [|reflexivity]. f_equal. f_equal. apply Rsum_ext. intros y _. rewrite Hp, !Nat.eqb_refl. reflexivity.
        -- rewrite !Hp, !Nat.eqb_refl. destruct (Nat.eqb_spec j j'); [contradiction|]. destruct (Rlt_dec 0 _); [|reflexivity].
           erewrite (Rsum_ext _ (fun _ => 0)); [rewrite Rsum_const; ring|]. intros y _. rewrite Hp, !Nat.eqb_refl. destruct (Nat.eqb_spec j j'); [contradiction|]. ring.
    + erewrite (Rsum_ext _ (fun _ => 0)); [rewrite Rsum_const; unfold Rdiv; ring|]. intros j' _. unfold pmean. rewrite !Hp. destruct (Nat.eqb_spec i i'); [contradiction|].
      destruct (Rlt_dec 0 _); [|reflexivity]. erewrite (Rsum_ext _ (fun _ => 0)); [rewrite Rsum_const; ring|]. intros y _. rewrite Hp. destruct (Nat.eqb_spec i i'); [contradiction|]. ring.
Qed.
End One.
End Drive.

(** A channel, also when the reported maximum is exceeded. *)
Lemma pmean_sat (msv v : R) cs ch s : List.Forall (fun x => 0 <= x) cs -> 0 <= v -> nth_error cs ch = Some s -> 0 < msv ->
  pmean msv v cs (fun p => if Z.eqb p (Z.of_nat ch) then 1 else 0) = s * v / Rmax msv (Rsum cs * v).
Proof.
  intros Hnn Hv En P. destruct (Rle_dec (Rsum cs * v) msv) as [L|L].
  - rewrite Rmax_left by assumption. apply pmean_channel; assumption.
  - rewrite Rmax_right by lra. unfold pmean. destruct (Z.eqb_spec (-1) (Z.of_nat ch)); [lia|]. pose proof (Rsum_nonneg _ Hnn) as Hs.
    assert (Hcl : (ch < length cs)%nat) by (apply nth_error_Some; rewrite En; discriminate).
    destruct (Rlt_dec 0 (Rsum cs)) as [HS|HS]; [|exfalso; replace (Rsum cs) with 0 in L by lra; lra].
    rewrite (Rsum_single _ _ (fun c => frac cs (S c) - frac cs c) Hcl). destruct (frac_facts cs Hnn HS) as (F0 & F1 & F2 & F3). rewrite (F2 ch s En).
    assert (Hv0 : 0 < v). { destruct (Rtotal_order 0 v) as [Q|[Q|Q]]; [assumption|subst v; lra|lra]. }
    unfold accept. destruct (Rlt_dec 0 msv) as [_|Q]; [|lra]. rewrite Rmin_left; [field; lra|].
    apply Rmult_le_reg_r with msv; [assumption|]. unfold Rdiv. rewrite Rmult_assoc, Rinv_l by lra. lra.
Qed.
