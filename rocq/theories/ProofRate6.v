(** Expected numbers of tests and interactions, in terms of the cell and the database. *)
From Coq Require Import Reals List ZArith Lra Lia Psatz Bool.
From Flocq Require Import Core.
From Coquelicot Require Import Coquelicot.
From Verif Require Import Base Num ModelTerm ModelCollide ModelXsec ModelSet SpecPhys SpecXsec SpecSet SpecRate ProofCollide ProofInelastic ProofSet ProofSelect ProofDriver ProofDriver2 ProofDriver3 ProofRate ProofRate2 ProofRate3 ProofRate4 ProofRate5.
From Coq Require Import List.
Import ListNotations.
Local Open Scope R_scope.

(** ** Counting as weights *)
Definition one_entry (e0 e : entry) : R := if entry_dec e e0 then 1 else 0.
Definition one_pair (A B i j : nat) (e : entry) : R := if entry_dec (fst e, 0%Z) (A, B, (i, j), 0%Z) then 1 else 0.
Definition one_species (A B : nat) (e : entry) : R := if (Nat.eqb (fst (fst (fst e))) A && Nat.eqb (snd (fst (fst e))) B)%bool then 1 else 0.

Lemma weigh_occ e0 o : weigh (one_entry e0) o = occurrences e0 o.
Proof.
  destruct o as [s| | |]; try reflexivity. cbn [weigh occurrences]. unfold Phi. generalize (s_log s). intros l. induction l as [|e l IH]; [reflexivity|].
  cbn [map Rsum count_occ]. rewrite IH. unfold one_entry at 1. destruct (entry_dec e e0); [rewrite S_INR|]; lra.
Qed.
Lemma weigh_pair A B i j o : weigh (one_pair A B i j) o = pair_tests A B i j o.
Proof.
  destruct o as [s| | |]; try reflexivity. cbn [weigh pair_tests]. unfold Phi. generalize (s_log s). intros l. induction l as [|e l IH]; [reflexivity|].
  cbn [map Rsum filter]. rewrite IH. unfold one_pair at 1. destruct (entry_dec (fst e, 0%Z) (A, B, (i, j), 0%Z)); [cbn [length]; rewrite S_INR|]; lra.
Qed.
Lemma weigh_tests A B o : weigh (one_species A B) o = tests_of A B o.
Proof.
  destruct o as [s| | |]; try reflexivity. cbn [weigh tests_of]. unfold Phi, tested. generalize (s_log s). intros l. induction l as [|e l IH]; [reflexivity|].
  cbn [map Rsum filter]. rewrite IH. unfold one_species at 1. destruct (Nat.eqb (fst (fst (fst e))) A && Nat.eqb (snd (fst (fst e))) B)%bool; [cbn [length]; rewrite S_INR|]; lra.
Qed.
Lemma one_entry_nn e0 e : 0 <= one_entry e0 e. Proof. unfold one_entry. destruct (entry_dec e e0); lra. Qed.
Lemma one_pair_nn A B i j e : 0 <= one_pair A B i j e. Proof. unfold one_pair. destruct (entry_dec _ _); lra. Qed.
Lemma one_species_nn A B e : 0 <= one_species A B e. Proof. unfold one_species. destruct (_ && _)%bool; lra. Qed.

Section Rate.
Context (K dt : R) (c : cell RNum) (nprops : nat) (db : nat -> nat -> list (equation RNum)) (res : list (particle RNum)) (er : list nat) (k : nat).
Hypothesis HT : testable K dt c nprops db.
Context (A B : nat) (ra rb : range) (pa pb : particle RNum) (msv : R).
Hypothesis HAB : (A <= B < Nat.min (length (c_ranges c)) nprops)%nat.
Hypothesis Hdb : db A B <> [].
Hypothesis Ha : nth_error (c_ranges c) A = Some ra.
Hypothesis Hb : nth_error (c_ranges c) B = Some rb.
Hypothesis Hpa : nth_error (c_mem c) (fst ra) = Some pa.
Hypothesis Hpb : nth_error (c_mem c) (fst rb) = Some pb.
Hypothesis Hmsv : findMaxSigmaVProduct (N:=RNum) K (db A B) (c_maxv c A B) = Ok msv.
Hypothesis Henough : A = B -> (2 <= rsize ra)%nat.

Definition xr : R := ntc (Nat.eqb A B) (p_weight pa) (p_weight pb) (rsize ra) (rsize rb) dt msv (c_volume c).
Definition npairs : R := INR (rsize ra) * INR (if Nat.eqb A B then rsize rb - 1 else rsize rb).
(** The two cases of the expected number of tests. *)
Definition tests_value (t : R) : Prop := (IZR (Zfloor xr) <> xr /\ t = xr) \/ exists z, xr = IZR z /\ (1 <= z)%Z /\ t = IZR (z - 1).

Lemma r_ok : okp c nprops db (A, B). Proof. split; assumption. Qed.
Lemma r_rgA : rg (c_ranges c) A = ra. Proof. unfold rg. apply nth_error_nth. assumption. Qed.
Lemma r_rgB : rg (c_ranges c) B = rb. Proof. unfold rg. apply nth_error_nth. assumption. Qed.
Lemma r_msv : msvf K c db A B = msv. Proof. unfold msvf. rewrite Hmsv. reflexivity. Qed.
Lemma r_msv0 : 0 <= msv. Proof. rewrite <- r_msv. apply (okp_msv K dt c nprops db HT (A, B) r_ok). Qed.
Lemma r_big : big c A B = true.
Proof.
  unfold big. rewrite r_rgA. destruct (Nat.eqb_spec A B) as [E|]; [|reflexivity]. cbn [andb]. destruct (Nat.ltb_spec (rsize ra) 2); [|reflexivity]. specialize (Henough E). lia.
Qed.
Lemma r_xe : xe K dt c db A B = xr.
Proof. unfold xe, xr, wt. rewrite r_rgA, r_rgB, Hpa, Hpb, r_msv. reflexivity. Qed.
Lemma r_sizes : (0 < rsize ra)%nat /\ (0 < rsize rb)%nat.
Proof. rewrite <- r_rgA, <- r_rgB. apply (okp_size K dt c nprops db HT (A, B) r_ok). Qed.
Lemma r_EN t : tests_value t -> EN K dt c db A B = t.
Proof.
  intros H. destruct (EN_value K dt c nprops db A B r_big) as [E1 E2]; [apply (xe_nonneg K dt c nprops db HT A B r_ok)|]. rewrite r_xe in *.
  destruct H as [[H ->]|(z & Hz & H1 & ->)]; [apply E1; assumption|apply E2; assumption].
Qed.
Lemma r_npairs : 0 < npairs.
Proof.
  destruct r_sizes as [SA SB]. unfold npairs. apply Rmult_lt_0_compat; apply lt_0_INR; [assumption|]. destruct (Nat.eqb_spec A B) as [E|]; [|assumption].
  specialize (Henough E). assert (ra = rb) by (rewrite E in Ha; congruence). subst. lia.
Qed.
Lemma tests_pos t : tests_value t -> t <> 0 -> 0 < msv.
Proof.
  intros H Ht. pose proof r_msv0 as P. destruct (Rtotal_order 0 msv) as [Q|[Q|Q]]; [assumption| |lra]. exfalso.
  assert (X0 : xr = 0) by (unfold xr, ntc; rewrite <- Q; unfold Rdiv; ring). destruct H as [[H ->]|(z & Hz & H1 & ->)]; [contradiction|].
  rewrite X0 in Hz. apply eq_sym in Hz. apply (eq_IZR z 0) in Hz. lia.
Qed.

(** *** Tests *)
Lemma r_tests t : tests_value t ->
  expected k (fun fuel u => tests_of A B (driver (N:=RNum) K fuel false dt c nprops db res er (drawn u) k)) t /\
  ((forall C, (C < Nat.min (length (c_ranges c)) nprops)%nat -> db C C = []) ->
   expected_exactly k (fun fuel u => tests_of A B (driver (N:=RNum) K fuel false dt c nprops db res er (drawn u) k)) t).
Proof.
  intros Ht.
  assert (Hz : forall A' B' ij p, (A', B') <> (A, B) -> one_species A B (A', B', ij, p) = 0).
  { intros A' B' ij p H. unfold one_species. cbn [fst snd]. destruct (Nat.eqb_spec A' A) as [->|]; [|reflexivity]. destruct (Nat.eqb_spec B' B) as [->|]; [congruence|reflexivity]. }
  assert (Hq : qmean K (c_mem c) (c_ranges c) db (msvf K c db) A B (one_species A B) = 1).
  { pose proof (good_pair K dt c nprops db HT (A, B) r_ok r_big) as G. cbn [fst snd] in G.
    pose proof (qmean_lin K (c_mem c) (c_ranges c) db (msvf K c db) _ _ A B 0 1 (fun _ => 0) G) as Q. rewrite Rmult_0_l, Rplus_0_l in Q. rewrite <- Q.
    unfold qmean. f_equal. apply Rsum_ext. intros i _. unfold umean. f_equal. apply Rsum_ext. intros j _. unfold pmean, one_species. cbn [fst snd]. rewrite !Nat.eqb_refl. cbn [andb].
    destruct (Rlt_dec 0 _); [|ring]. f_equal; [f_equal; apply Rsum_ext; intros; ring|ring]. }
  pose proof (expected_one K dt c nprops db HT (one_species A B) A B (one_species_nn A B) Hz r_ok res er k) as E1.
  pose proof (exactly_one K dt c nprops db HT (one_species A B) A B (one_species_nn A B) Hz r_ok res er k) as E2.
  rewrite Hq, (r_EN t Ht), Rmult_1_r in E1, E2. split.
  - eapply expected_ext; [|exact E1]. intros f u. apply weigh_tests.
  - intros Hl. eapply exactly_ext; [|exact (E2 Hl)]. intros f u. apply weigh_tests.
Qed.

Context (i j : nat) (pi pj : particle RNum).
Hypothesis Hi : in_range i ra.
Hypothesis Hj : in_range j rb.
Hypothesis Hij : i <> j.
Hypothesis Hpi : nth_error (c_mem c) i = Some pi.
Hypothesis Hpj : nth_error (c_mem c) j = Some pj.

Lemma r_pair t : tests_value t ->
  expected k (fun fuel u => pair_tests A B i j (driver (N:=RNum) K fuel false dt c nprops db res er (drawn u) k)) (t / npairs) /\
  ((forall C, (C < Nat.min (length (c_ranges c)) nprops)%nat -> db C C = []) ->
   expected_exactly k (fun fuel u => pair_tests A B i j (driver (N:=RNum) K fuel false dt c nprops db res er (drawn u) k)) (t / npairs)).
Proof.
  intros Ht.
  assert (Hz : forall A' B' ij p, (A', B') <> (A, B) -> one_pair A B i j (A', B', ij, p) = 0).
  { intros A' B' ij p H. unfold one_pair. cbn [fst snd]. destruct (entry_dec _ _) as [E|]; [|reflexivity]. injection E as -> -> _. congruence. }
  assert (Hp : forall i' j' p, one_pair A B i j (A, B, (i', j'), p) = if Nat.eqb i i' then (if Nat.eqb j j' then 1 else 0) else 0).
  { intros i' j' p. unfold one_pair. cbn [fst snd]. destruct (entry_dec _ _) as [E|E].
    - injection E as -> ->. rewrite !Nat.eqb_refl. reflexivity.
    - destruct (Nat.eqb_spec i i') as [<-|]; [|reflexivity]. destruct (Nat.eqb_spec j j') as [<-|]; [|reflexivity]. contradiction. }
  assert (Hq : qmean K (c_mem c) (c_ranges c) db (msvf K c db) A B (one_pair A B i j) = 1 / npairs).
  { rewrite (qmean_pair K dt c nprops db HT (one_pair A B i j) A B Hz r_ok i j (fun _ => 1) r_big); try (rewrite ?r_rgA, ?r_rgB; assumption).
    - rewrite r_rgA, r_rgB. fold npairs. f_equal. 
      pose proof (good_pair K dt c nprops db HT (A, B) r_ok r_big) as G. cbn [fst snd] in G. destruct (g_cs _ _ _ _ _ _ _ _ _ G i j) as [_ Hnn]; [rewrite r_rgA; assumption|rewrite r_rgB; assumption|].
      pose proof (pmean_lin (msvf K c db A B) (vel (c_mem c) i j) (css K (c_mem c) db A B i j) Hnn 0 1 (fun _ => 0)) as Q. rewrite Rmult_0_l, Rplus_0_l in Q. etransitivity; [|exact Q].
      unfold pmean. destruct (Rlt_dec 0 _); [|ring]. f_equal; [f_equal; apply Rsum_ext; intros; ring|ring]. }
  pose proof (expected_one K dt c nprops db HT (one_pair A B i j) A B (one_pair_nn A B i j) Hz r_ok res er k) as E1.
  pose proof (exactly_one K dt c nprops db HT (one_pair A B i j) A B (one_pair_nn A B i j) Hz r_ok res er k) as E2.
  rewrite Hq, (r_EN t Ht) in E1, E2. replace (t * (1 / npairs)) with (t / npairs) in E1, E2 by (unfold Rdiv; ring). split.
  - eapply expected_ext; [|exact E1]. intros f u. apply weigh_pair.
  - intros Hl. eapply exactly_ext; [|exact (E2 Hl)]. intros f u. apply weigh_pair.
Qed.

Context (cs : list R) (ch : nat) (s : R).
Hypothesis Hcs : channels K (db A B) (relspeed (p_vel pi) (p_vel pj)) cs.
Hypothesis Hs : nth_error cs ch = Some s.

Lemma r_hits t : tests_value t ->
  let hits := fun fuel u => occurrences (A, B, (i, j), Z.of_nat ch) (driver (N:=RNum) K fuel false dt c nprops db res er (drawn u) k) in
  let v := relspeed (p_vel pi) (p_vel pj) in
  let rate := t / npairs * (s * v / Rmax msv (Rsum cs * v)) in
  expected k hits rate /\
  ((forall C, (C < Nat.min (length (c_ranges c)) nprops)%nat -> db C C = []) -> expected_exactly k hits rate).
Proof.
  intros Ht hits v rate. set (e0 := (A, B, (i, j), Z.of_nat ch) : entry).
  assert (Hz : forall A' B' ij p, (A', B') <> (A, B) -> one_entry e0 (A', B', ij, p) = 0).
  { intros A' B' ij p H. unfold one_entry. destruct (entry_dec _ _) as [E|]; [|reflexivity]. injection E as -> -> _ _. congruence. }
  assert (Hp : forall i' j' p, one_entry e0 (A, B, (i', j'), p) = if Nat.eqb i i' then (if Nat.eqb j j' then (if Z.eqb p (Z.of_nat ch) then 1 else 0) else 0) else 0).
  { intros i' j' p. unfold one_entry, e0. destruct (entry_dec _ _) as [E|E].
    - injection E as -> -> ->. rewrite !Nat.eqb_refl, Z.eqb_refl. reflexivity.
    - destruct (Nat.eqb_spec i i') as [<-|]; [|reflexivity]. destruct (Nat.eqb_spec j j') as [<-|]; [|reflexivity]. destruct (Z.eqb_spec p (Z.of_nat ch)) as [->|]; [contradiction|reflexivity]. }
  pose proof (good_pair K dt c nprops db HT (A, B) r_ok r_big) as G. cbn [fst snd] in G. destruct (g_cs _ _ _ _ _ _ _ _ _ G i j) as [_ Hnn]; [rewrite r_rgA; assumption|rewrite r_rgB; assumption|].
  assert (Ev : vel (c_mem c) i j = v) by (unfold vel, v; rewrite Hpi, Hpj; reflexivity).
  assert (Ecs : css K (c_mem c) db A B i j = cs) by (unfold css; rewrite Ev; pose proof (proj2 (channel_ok _ _ _ _) Hcs) as Q; unfold v; rewrite Q; reflexivity).
  rewrite Ecs in Hnn.
  assert (Hq : t * qmean K (c_mem c) (c_ranges c) db (msvf K c db) A B (one_entry e0) = rate).
  { rewrite (qmean_pair K dt c nprops db HT (one_entry e0) A B Hz r_ok i j (fun p => if Z.eqb p (Z.of_nat ch) then 1 else 0) r_big); try (rewrite ?r_rgA, ?r_rgB; assumption).
    rewrite r_rgA, r_rgB. fold npairs. rewrite Ev, Ecs, r_msv. unfold rate. destruct (Req_dec t 0) as [->|Ht0]; [unfold Rdiv; ring|].
    rewrite (pmean_sat msv v cs ch s Hnn); [unfold Rdiv; ring|apply relspeed_nonneg|assumption|eapply tests_pos; eassumption]. }
  pose proof (expected_one K dt c nprops db HT (one_entry e0) A B (one_entry_nn e0) Hz r_ok res er k) as E1.
  pose proof (exactly_one K dt c nprops db HT (one_entry e0) A B (one_entry_nn e0) Hz r_ok res er k) as E2.
  rewrite (r_EN t Ht), Hq in E1, E2. split.
  - eapply expected_ext; [|exact E1]. intros f u. apply weigh_occ.
  - intros Hl. eapply exactly_ext; [|exact (E2 Hl)]. intros f u. apply weigh_occ.
Qed.
End Rate.
