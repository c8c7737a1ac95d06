(** The fitted continuation of a cross section table. *)
From Coq Require Import Reals Lra Lia List ZArith.
From Verif Require Import Base Num ModelTerm ModelCollide ModelXsec SpecPhys SpecXsec SpecMore
  ProofCollide ProofXsec ProofData.
From Coq Require Import List.
Import ListNotations.
Local Open Scope R_scope.

(** ** The search for b *)
Section Best.
Variables (d2 x C a : R).
Definition mm (z : R) : R := Rabs (1 - d2 / logE_f (N:=RNum) x C a z).
Lemma refine_best : forall fuel bi b err b', refine_b (N:=RNum) fuel d2 x C a bi b err = Ok b' ->
  (b' = b /\ forall k, bi + INR k / 100 <= 100 -> Rabs err <= mm (bi + INR k / 100)) \/
  ((exists k, b' = bi + INR k / 100 /\ b' <= 100) /\ mm b' < Rabs err /\
   forall k, bi + INR k / 100 <= 100 -> mm b' <= mm (bi + INR k / 100)).
Proof.
  induction fuel as [|fuel IH]; intros bi b err b' H; [discriminate|]. cbn [refine_b] in H. unR.
  change (@nquot RNum 1 100) with (1 / 100) in H.
  destruct (Rleb_spec bi 100) as [Hb|Hb].
  2:{ injection H as <-. left. split; [reflexivity|]. intros k Hk. pose proof (pos_INR k). lra. }
  fold (mm bi) in H.
  assert (Sh : forall k, bi + 1 / 100 + INR k / 100 = bi + INR (S k) / 100) by (intros; rewrite S_INR; lra).
  assert (Z : bi + INR 0 / 100 = bi) by (cbn; lra).
  change (Rabs (1 - d2 / logE_f (N:=RNum) x C a bi)) with (mm bi) in H.
  destruct (Rltb_spec (mm bi) (Rabs err)) as [Hl|Hl].
  - apply IH in H as [[-> H]|((k & -> & Hk) & H1 & H2)].
    + right. split; [exists O; rewrite Z; auto|]. split; [exact Hl|].
      intros [|k] Hk; [rewrite Z; lra|]. rewrite <- Sh in *. apply H, Hk.
    + right. split; [exists (S k); rewrite <- Sh; auto|].
      change (Rabs (1 - d2 / logE_f (N:=RNum) x C a bi)) with (mm bi) in H1.
      split; [lra|]. intros [|j] Hj; [rewrite Z; lra|]. rewrite <- Sh in *. apply H2, Hj.
  - apply IH in H as [[-> H]|((k & -> & Hk) & H1 & H2)].
    + left. split; [reflexivity|]. intros [|k] Hk; [rewrite Z; lra|]. rewrite <- Sh in *. apply H, Hk.
    + right. split; [exists (S k); rewrite <- Sh; auto|]. split; [lra|].
      intros [|j] Hj; [rewrite Z; lra|]. rewrite <- Sh in *. apply H2, Hj.
Qed.
End Best.

Lemma curve_eq d0 d1 d2 b y : tail_curve d0 d1 d2 b y =
  logE_f (N:=RNum) y (snd d1 / ln 30) (30 * mean_slope d0 d1 d2 / (snd d1 / ln 30 * (1 - ln 30))) b.
Proof. reflexivity. Qed.
Lemma ndblmax_R : ndblmax (N:=RNum) = dblmax. Proof. reflexivity. Qed.
Lemma dblmax_pos : 0 <= dblmax. Proof. apply IZR_le. vm_compute. discriminate. Qed.

Lemma tail_fit (fuel : nat) (t : table RNum) (mu : reducedMass RNum) d l d0 d1 d2 :
  data_init (N:=RNum) fuel true t mu = Ok d -> increasing t ->
  d_table d = l ++ [d0; d1; d2] -> snd d2 <> 0 -> 0 < snd d1 -> mean_slope d0 d1 d2 < 0 ->
  exists b,
    (forall v, fst d2 < v -> data_sigma (N:=RNum) d v = Ok (tail_curve d0 d1 d2 b (v ^ 2 - fst d1 ^ 2))) /\
    ((tried b /\ mismatch d0 d1 d2 b < dblmax /\ forall b', tried b' -> mismatch d0 d1 d2 b <= mismatch d0 d1 d2 b') \/
     (b = 30 /\ forall b', tried b' -> dblmax <= mismatch d0 d1 d2 b')).
Proof.
  intros Hd Hinc Ht H2 H1 Hslope. unfold data_init in Hd.
  destruct (checkThreshold t) as [t'| | |] eqn:Ec; try discriminate. cbn [obind] in Hd.
  destruct (setCoeffs fuel true t') as [[[[C a] b] v02]| | |] eqn:Es; try discriminate. cbn [obind] in Hd.
  injection Hd as <-. cbn [d_table] in *.
  assert (Hsplit : exists zs, t = zs ++ t').
  { destruct (check_spec t) as (A & B & Q).
    destruct t as [|t0 t1]; [rewrite A in Ec by reflexivity; discriminate|].
    destruct (List.Forall_dec (fun y : R * R => snd y = 0) (fun y => Req_EM_T _ _) (t0 :: t1)) as [F|F].
    - rewrite B in Ec; [discriminate|discriminate|assumption].
    - destruct (Q F) as (zs & t2 & E & Htt & _). rewrite Ec in E. injection E as ->. exists zs; assumption. }
  destruct Hsplit as (zs & Hz). rewrite Hz in Hinc.
  destruct (incr_app _ _ Hinc) as (_ & It & _).
  pose proof ln30 as L30.
  unfold setCoeffs in Es. cbn [negb] in Es. rewrite Ht, rev_app_distr in Es. cbn [rev app] in Es. unR.
  destruct (Reqb_spec (snd d2) 0); [contradiction|].
  unfold getCab_coeffs in Es. unfold sqr in Es. cbv zeta in Es. unR.
  match type of Es with context [Rleb 0 ?F] => assert (HFp : F = mean_slope d0 d1 d2) end.
  { unfold mean_slope. cbn [pow]. rewrite !Rmult_1_r. lra. }
  rewrite HFp in Es. destruct (Rleb_spec 0 (mean_slope d0 d1 d2)); [lra|].
  destruct (refine_b _ _ _ _ _ _ _ _) as [b'| | |] eqn:Er; try discriminate. cbn [obind] in Es.
  injection Es as <- <- <- <-. exists b'. split.
  - intros v Hv. set (d := mkData t' _ _ b' _ mu).
    assert (Hbe : data_sigma (N:=RNum) d v = if Reqb (snd d2) 0 then Ok 0 else if Reqb (snd d1 / ln 30) 0 then Throw ExnRuntime
      else Ok (logE_f (N:=RNum) (v * v - fst d1 * fst d1) (snd d1 / ln 30) (30 * mean_slope d0 d1 d2 / (snd d1 / ln 30 * (1 - ln 30))) b')).
    { apply (eval_beyond d It (l ++ [d0; d1]) d2 v); [cbn [d d_table]; rewrite Ht, <- app_assoc; reflexivity|exact Hv]. }
    rewrite Hbe. destruct (Reqb_spec (snd d2) 0); [contradiction|].
    assert (0 < snd d1 / ln 30) by (apply Rdiv_lt_0_compat; lra).
    destruct (Reqb_spec (snd d1 / ln 30) 0); [lra|]. rewrite curve_eq.
    replace (v ^ 2 - fst d1 ^ 2) with (v * v - fst d1 * fst d1) by ring. reflexivity.
  - apply refine_best in Er.
    assert (Em : forall z, mm (snd d2) (fst d2 * fst d2 - fst d1 * fst d1) (snd d1 / ln 30) (30 * mean_slope d0 d1 d2 / (snd d1 / ln 30 * (1 - ln 30))) z = mismatch d0 d1 d2 z).
    { intros z. unfold mm, mismatch. rewrite curve_eq. do 5 f_equal; ring. }
    change (@nM_E RNum) with (exp 1) in Er. rewrite ndblmax_R, (Rabs_right dblmax) in Er by apply Rle_ge, dblmax_pos.
    destruct Er as [[-> H]|(H0 & Hlt & H)].
    + right. split; [reflexivity|]. intros z (k & -> & Hk). rewrite <- Em. apply H, Hk.
    + left. split; [exact H0|]. rewrite Em in *. split; [exact Hlt|].
      intros z (k & -> & Hk). specialize (H k Hk). rewrite Em in H. exact H.
Qed.

(** ** The continuation need not join the table *)
Lemma ln30_bounds : 3 <= ln 30 <= 5.
Proof.
  pose proof e_bounds as [A B].
  assert (E3 : exp 3 = exp 1 * exp 1 * exp 1) by (rewrite <- !exp_plus; f_equal; lra).
  assert (E5 : exp 5 = exp 1 * exp 1 * exp 1 * exp 1 * exp 1) by (rewrite <- !exp_plus; f_equal; lra).
  set (e := exp 1) in *.
  assert (P2 : 4 <= e * e <= 9) by nra.
  assert (P3 : 8 <= e * e * e <= 27) by nra.
  assert (P5 : 32 <= e * e * e * e * e).
  { replace (e * e * e * e * e) with ((e * e * e) * (e * e)) by ring. nra. }
  split.
  - rewrite <- (ln_exp 3). destruct (Rle_lt_or_eq_dec (exp 3) 30); [lra| |].
    + left. apply ln_increasing; [apply exp_pos|assumption].
    + right. f_equal. assumption.
  - rewrite <- (ln_exp 5). left. apply ln_increasing; lra.
Qed.
Lemma tried_ge b : tried b -> exp 1 <= b.
Proof. intros (k & -> & _). pose proof (pos_INR k). lra. Qed.

Lemma tail_big e b v : 0 < e <= 1 / 1000 -> exp 1 <= b -> 3 < v <= 4 ->
  1 / 50 <= tail_curve (1, 9) (2, 6) (3, e) b (v ^ 2 - 2 ^ 2).
Proof.
  intros He Hb Hv. pose proof ln30_bounds as HL. pose proof e_bounds as HE.
  unfold tail_curve, mean_slope. cbn [fst snd].
  set (L := ln 30) in *. set (y := v ^ 2 - 2 ^ 2).
  assert (Hy : 5 <= y <= 12) by (unfold y; nra).
  set (a := 30 * _ / _).
  assert (Ha : 0 < a <= 33 / 4).
  { assert (Ea : a = (30 * ((1 + (6 - e) / 5) / 2)) * (L / (6 * (L - 1)))) by (unfold a; field; split; lra).
    assert (Hq : 0 < L / (6 * (L - 1)) <= 1 / 4).
    { split; [apply Rdiv_lt_0_compat; lra|]. apply Rmult_le_reg_r with (6 * (L - 1)); [lra|].
      unfold Rdiv at 1. rewrite Rmult_assoc, Rinv_l by lra. lra. }
    rewrite Ea. set (q := L / (6 * (L - 1))) in *. split; [apply Rmult_lt_0_compat; lra|]. nra. }
  assert (Hay : 0 <= a * y <= 99) by (split; [apply Rmult_le_pos; lra|nra]).
  set (s := a * y + b). assert (Hs : exp 1 <= s) by (unfold s; lra).
  assert (Hln : 1 <= ln s).
  { rewrite <- (ln_exp 1). destruct (Rle_lt_or_eq_dec _ _ Hs) as [H|H]; [left; apply ln_increasing; [apply exp_pos|exact H]|right; rewrite H; reflexivity]. }
  assert (Hbs : 2 / 101 <= b / s).
  { apply Rmult_le_reg_r with s; [lra|]. unfold Rdiv at 2. rewrite Rmult_assoc, Rinv_l by lra. unfold s. lra. }
  assert (HC : 6 / 5 <= 6 / L).
  { apply Rmult_le_reg_r with L; [lra|]. unfold Rdiv at 2. rewrite Rmult_assoc, Rinv_l by lra. lra. }
  replace (6 / L * b * ln s / s) with ((6 / L) * (b / s) * ln s) by (field; split; lra).
  assert (12 / 505 <= 6 / L * (b / s)).
  { apply Rle_trans with (6 / 5 * (2 / 101)); [lra|]. apply Rmult_le_compat; lra. }
  nra.
Qed.

Lemma tail_jump (K : R) : 0 < K -> forall fuel mu, (9900 <= Z.of_nat fuel)%Z ->
  exists e d, 0 < e < 6 /\ data_init (N:=RNum) fuel true [(1, 9); (2, 6); (3, e)] mu = Ok d /\
    d_table d = [(1, 9); (2, 6); (3, e)] /\
    forall v, 3 < v <= 4 -> exists s, data_sigma (N:=RNum) d v = Ok s /\ K * e < s.
Proof.
  intros HK fuel mu Hf.
  set (e := Rmin (1 / 1000) (/ (100 * K))).
  assert (H1 : e <= 1 / 1000) by apply Rmin_l. assert (H2 : e <= / (100 * K)) by apply Rmin_r.
  assert (H0 : 0 < e).
  { unfold e. apply Rmin_glb_lt; [lra|]. apply Rinv_0_lt_compat. lra. }
  set (t := [(1, 9); (2, 6); (3, e)] : table RNum).
  assert (Hi : increasing t) by (cbn; lra).
  destruct (init_spec fuel true t mu Hf) as (_ & _ & H).
  destruct H as (zs & d & E & _ & Ht & Hz & _ & _ & _); [|exact Hi|].
  { intros H. rewrite List.Forall_forall in H. specialize (H (1, 9) ltac:(cbn; tauto)). cbn in H. lra. }
  assert (zs = []) as ->.
  { destruct zs as [|z zs]; [reflexivity|]. inversion Hz as [|? ? A _]; subst. injection Ht as Hz0 _. rewrite <- Hz0 in A. cbn in A. lra. }
  cbn [app] in Ht. exists e, d. split; [lra|]. split; [exact E|]. split; [symmetry; exact Ht|].
  destruct (tail_fit fuel t mu d [] (1, 9) (2, 6) (3, e) E Hi) as (b & Hs & Hb).
  { symmetry; exact Ht. } { cbn. lra. } { cbn. lra. } { unfold mean_slope. cbn. lra. }
  assert (Hbe : exp 1 <= b).
  { pose proof e_bounds. destruct Hb as [(Hb & _)|(-> & _)]; [apply tried_ge, Hb|lra]. }
  intros v Hv. eexists. split; [apply Hs; cbn; lra|].
  pose proof (tail_big e b v ltac:(lra) Hbe Hv) as G. cbn [fst].
  apply Rlt_le_trans with (1 / 50); [|exact G].
  apply Rle_lt_trans with (K * / (100 * K)); [apply Rmult_le_compat_l; lra|].
  replace (K * / (100 * K)) with (/ 100) by (field; lra). lra.
Qed.
