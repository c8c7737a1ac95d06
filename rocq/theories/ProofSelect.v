(** Channel selection and pair selection in binary64 (C31, C34, C36, C37). *)
From Coq Require Import Reals Lra Lia ZArith Bool List.
From Flocq Require Import Core.Core IEEE754.BinarySingleNaN Relative.
From Verif Require Import Base Num ModelTerm ModelCollide ModelXsec ModelSet SpecPhys SpecXsec SpecSet
  ProofCollide ProofF64 ProofInelastic ProofSet ProofFloat.
From Coq Require Import List.
Import ListNotations.
Local Open Scope R_scope.

Ltac unF := change (@nadd (F64 ?lm)) with fadd in *; change (@nsub (F64 ?lm)) with fsub in *;
  change (@nmul (F64 ?lm)) with fmul in *; change (@ndiv (F64 ?lm)) with fdiv in *;
  change (@nltb (F64 ?lm)) with (@Bltb fprec femax) in *; change (@ofZ (F64 ?lm)) with fofZ in *;
  change (@ntrunc (F64 ?lm)) with (@Btrunc fprec femax) in *.

Lemma ftrunc (x : binary64) : 0 <= fB2R x -> Btrunc x = Zfloor (fB2R x).
Proof.
  intros H. apply eq_IZR. rewrite Btrunc_correct by exact fprec_lt_emax. rewrite round_FIX_IZR.
  rewrite Ztrunc_floor by assumption. reflexivity.
Qed.

(** ** Channels *)
Section AnyNum.
Context {N : Num}.
Lemma pick_valid (cs : list N) r : forall tot j,
  pick cs r tot j = ((-1)%Z, n0) \/ exists i c, nth_error cs i = Some c /\ pick cs r tot j = ((j + Z.of_nat i)%Z, c).
Proof.
  induction cs as [|c cs IH]; intros tot j; cbn [pick]; [left; reflexivity|].
  destruct (r <? tot + c)%num.
  - right. exists 0%nat, c. split; [reflexivity|]. f_equal. lia.
  - destruct (IH (tot + c)%num (j + 1)%Z) as [->|(i & d & Hi & ->)]; [left; reflexivity|].
    right. exists (S i), d. split; [assumption|]. f_equal. lia.
Qed.
Lemma pick_last (cs : list N) r : forall tot j, cs <> [] ->
  (r <? fold_left (fun s c => s + c) cs tot)%num = true -> pick cs r tot j <> ((-1)%Z, n0) \/ (j < 0)%Z.
Proof.
  induction cs as [|c cs IH]; intros tot j Hne H; [congruence|]. cbn [pick fold_left] in *.
  destruct (Z.ltb_spec j 0) as [Hj|Hj]; [right; lia|left].
  destruct (r <? tot + c)%num eqn:E; [intros X; injection X; lia|].
  destruct cs as [|d cs].
  - cbn in H. congruence.
  - destruct (IH (tot + c)%num (j + 1)%Z) as [X|X]; [discriminate|assumption|assumption|lia].
Qed.
Lemma outpath_valid (K : N) rhs max v g k j c k' : calculateOutPath K rhs max v g k = Ok (j, c, k') ->
  exists cs, channel_cs K rhs v = Ok cs /\
   ((cs_total cs * v <? g_rand g k * max)%num = true /\ j = (-1)%Z /\ k' = (k + 1)%nat \/
    (cs_total cs * v <? g_rand g k * max)%num = false /\ k' = (k + 2)%nat /\
      pick cs (g_exc g (k + 1) * cs_total cs)%num n0 0%Z = (j, c)).
Proof.
  unfold calculateOutPath. intros H. apply obind_ok in H as (cs & E & H). exists cs. split; [assumption|].
  destruct (_ <? _)%num; [left|right].
  - injection H as <- <- <-. auto.
  - injection H as H <-. auto.
Qed.
End AnyNum.

Lemma fnonneg_cases (x : binary64) : fnonneg x ->
  (exists s, x = B754_zero s) \/ x = B754_infinity false \/ (exists m e H, x = B754_finite false m e H).
Proof.
  intros H. destruct x as [s|[]| |[] m e Hx]; try discriminate; eauto 6.
Qed.
Lemma fadd_zero (x : binary64) s : fadd x (B754_zero s) = x \/ (exists s1 s2, x = B754_zero s1 /\ fadd x (B754_zero s) = B754_zero s2).
Proof. destruct x as [[]|[]| |[] m e Hx]; auto; right; destruct s; eexists _, _; split; reflexivity. Qed.

Lemma fpick_pos {lm} (cs : list (F64 lm)) (r : F64 lm) : fnonneg r -> forall tot j,
  Bltb r tot = false -> Forall (fun c : F64 lm => fnonneg c) cs -> (0 <= j)%Z -> forall i c,
  pick (N:=F64 lm) cs r tot j = (i, c) -> (0 <= i)%Z -> Bltb (fofZ 0) c = true.
Proof.
  intros Hr. induction cs as [|d cs IH]; intros tot j Ht Hcs Hj i c H Hi; cbn [pick] in H; [injection H as <- <-; lia|].
  apply Forall_cons_iff in Hcs as [Hd Hcs].
  unF.
  destruct (Bltb r (fadd tot d)) eqn:E; [|eapply (IH (fadd tot d) (j + 1)%Z); eauto; lia].
  injection H as <- <-. destruct (fnonneg_cases d Hd) as [[s ->]|[->|(m & e & Hx & ->)]]; [exfalso|reflexivity|reflexivity].
  destruct (fadd_zero tot s) as [Z|(s1 & s2 & -> & Z)]; rewrite Z in E; [congruence|].
  destruct (fnonneg_cases r Hr) as [[s' ->]|[->|(m & e & Hx & ->)]]; discriminate.
Qed.

Lemma fpick_neg {lm} (cs : list (F64 lm)) (r : F64 lm) : is_nan r = true -> forall tot j,
  pick (N:=F64 lm) cs r tot j = ((-1)%Z, n0).
Proof.
  intros Hr. induction cs as [|d cs IH]; intros tot j; cbn [pick]; [reflexivity|].
  unF. destruct r; try discriminate. cbn. apply IH.
Qed.

Lemma fadd_nonneg (x y : binary64) : fnonneg x -> fnonneg y -> fnonneg (fadd x y).
Proof.
  intros Hx Hy. destruct (fnonneg_cases x Hx) as [[s ->]|[->|(m & e & H & ->)]];
    destruct (fnonneg_cases y Hy) as [[s' ->]|[->|(m' & e' & H' & ->)]]; try (destruct s); try (destruct s'); try reflexivity.
  pose proof (Bplus_correct fprec femax fprec_gt_0 fprec_lt_emax mode_NE (B754_finite false m e H) (B754_finite false m' e' H') eq_refl eq_refl) as C.
  change (round_mode mode_NE) with ZnearestE in C. change (SpecFloat.fexp fprec femax) with ffexp in C.
  unfold fadd, fnonneg. set (z := Bplus _ _ _) in *.
  assert (P : 0 <= fB2R (B754_finite false m e H) + fB2R (B754_finite false m' e' H')).
  { apply Rplus_le_le_0_compat; apply F2R_ge_0; cbn; lia. }
  destruct (Rlt_bool _ _).
  - destruct C as (C & F & _). rewrite fleb_le by (reflexivity || assumption). rewrite fofZ0, C.
    apply Rle_bool_true. replace 0 with (frnd 0) by apply round_0, valid_rnd_N. apply round_le; [typeclasses eauto|typeclasses eauto|assumption].
  - destruct C as [C _]. destruct z as [| [] | |]; try discriminate; try reflexivity. 
Qed.
Lemma ftotal_nonneg {lm} (cs : list (F64 lm)) : Forall (fun c : F64 lm => fnonneg c) cs -> fnonneg (cs_total (N:=F64 lm) cs).
Proof.
  unfold cs_total. assert (H0 : fnonneg (n0 : F64 lm)) by reflexivity. revert H0. generalize (n0 : F64 lm).
  induction cs as [|d cs IH]; intros t Ht Hcs; cbn [fold_left]; [assumption|].
  apply Forall_cons_iff in Hcs as [Hd Hcs]. apply IH; [|assumption]. apply fadd_nonneg; assumption.
Qed.
Lemma fmul_nonneg (x y : binary64) : is_finite x = true -> fnonneg x -> fnonneg y -> fnonneg (fmul x y) \/ is_nan (fmul x y) = true.
Proof.
  intros Fx Hx Hy. destruct (fnonneg_cases x Hx) as [[s ->]|[->|(m & e & H & ->)]]; [|discriminate|];
    destruct (fnonneg_cases y Hy) as [[s' ->]|[->|(m' & e' & H' & ->)]]; try (destruct s); try (destruct s'); try (left; reflexivity); try (right; reflexivity).
  left. pose proof (Bmult_correct fprec femax fprec_gt_0 fprec_lt_emax mode_NE (B754_finite false m e H) (B754_finite false m' e' H')) as C.
  change (round_mode mode_NE) with ZnearestE in C. change (SpecFloat.fexp fprec femax) with ffexp in C.
  unfold fmul, fnonneg. set (z := Bmult _ _ _) in *.
  assert (P : 0 <= fB2R (B754_finite false m e H) * fB2R (B754_finite false m' e' H')).
  { apply Rmult_le_pos; apply F2R_ge_0; cbn; lia. }
  destruct (Rlt_bool _ _).
  - destruct C as (C & F & _). rewrite fleb_le by (reflexivity || assumption). rewrite fofZ0, C.
    apply Rle_bool_true. replace 0 with (frnd 0) by apply round_0, valid_rnd_N. apply round_le; [typeclasses eauto|typeclasses eauto|assumption].
  - destruct z as [| [] | |]; try discriminate; try reflexivity.
Qed.

Lemma foutpath_valid {lm} (K : F64 lm) rhs max v g k j c k' cs : frng_ok g ->
  channel_cs K rhs v = Ok cs -> Forall (fun c : F64 lm => fnonneg c) cs ->
  calculateOutPath (N:=F64 lm) K rhs max v g k = Ok (j, c, k') ->
  j = (-1)%Z \/ exists i, j = Z.of_nat i /\ nth_error cs i = Some c /\ Bltb (fofZ 0) c = true.
Proof.
  intros Hg Hc Hnn H. apply outpath_valid in H as (cs' & Hc' & H). rewrite Hc in Hc'. injection Hc' as <-.
  destruct H as [(_ & -> & _)|(_ & _ & H)]; [left; reflexivity|].
  destruct (pick_valid cs (g_exc g (k + 1) * cs_total cs)%num n0 0%Z) as [P|(i & d & Hi & P)]; rewrite P in H; injection H as <- <-.
  - left. reflexivity.
  - right. exists i. split; [lia|]. split; [assumption|].
    destruct (Hg (k + 1)%nat) as (_ & _ & He0 & He1). destruct (unit_finite _ He0 He1) as [Fe _].
    destruct (fmul_nonneg _ _ Fe He0 (ftotal_nonneg cs Hnn)) as [Hr|Hr].
    + eapply (fpick_pos cs _ Hr); [|eassumption| |exact P|]; try lia.
      destruct (fnonneg_cases _ Hr) as [[s' ->]|[->|(m & e & Hx & ->)]]; reflexivity.
    + rewrite fpick_neg in P by exact Hr. injection P as P _. lia.
Qed.

(** C34: no invalid return for totals above the smallest normal number. *)
Lemma fmin_normal_val : fB2R fmin_normal = bpow radix2 (-1022) /\ is_finite fmin_normal = true.
Proof.
  pose proof (binary_normalize_correct fprec femax fprec_gt_0 fprec_lt_emax mode_NE 1 (-1022) false) as H.
  cbv zeta in H. change (round_mode mode_NE) with ZnearestE in H. change (SpecFloat.fexp fprec femax) with ffexp in H.
  assert (E : F2R (Float radix2 1 (-1022)) = bpow radix2 (-1022)) by (unfold F2R; cbn [Defs.Fnum Defs.Fexp]; ring). rewrite E in H.
  rewrite round_generic in H; [|typeclasses eauto|apply generic_format_bpow; cbn; unfold FLT_exp, fprec, femax; lia].
  rewrite Rlt_bool_true in H.
  - destruct H as (H & Hf & _). split; assumption.
  - rewrite Rabs_pos_eq by apply bpow_ge_0. apply bpow_lt. reflexivity.
Qed.
Lemma foutpath_total {lm} (K : F64 lm) rhs max v g k j c k' cs : frng_ok g ->
  channel_cs K rhs v = Ok cs -> is_finite (cs_total cs) = true -> Bltb fmin_normal (cs_total cs) = true ->
  calculateOutPath (N:=F64 lm) K rhs max v g k = Ok (j, c, k') ->
  ((0 <= j)%Z <-> Bltb (fmul (cs_total cs) v) (fmul (g_rand g k) max) = false).
Proof.
  intros Hg Hc Hf Hn H. apply outpath_valid in H as (cs' & Hc' & H). rewrite Hc in Hc'. injection Hc' as <-.
  change (cs_total cs * v <? g_rand g k * max)%num with (Bltb (fmul (cs_total cs) v) (fmul (g_rand g k) max)) in H.
  destruct H as [(E & -> & _)|(E & _ & H)].
  - rewrite E. split; [lia|discriminate].
  - rewrite E. split; [reflexivity|intros _].
    destruct (Hg (k + 1)%nat) as (_ & _ & He0 & He1).
    destruct fmin_normal_val as [V F]. apply fltb_lt in Hn; [|assumption|assumption]. rewrite V in Hn.
    destruct (fmul_below _ _ Hf Hn He0 He1) as [(P1 & P2) _].
    destruct (pick_valid cs (g_exc g (k + 1) * cs_total cs)%num n0 0%Z) as [P|(i & d & Hi & P)]; [|rewrite P in H; injection H as <- <-; lia].
    exfalso. destruct (pick_last cs (g_exc g (k + 1) * cs_total cs)%num n0 0%Z) as [Q|Q]; [| |contradiction|lia].
    + intros ->. change (cs_total (N:=F64 lm) []) with (fofZ 0) in Hn. rewrite fofZ0 in Hn. pose proof (bpow_gt_0 radix2 (-1022)). lra.
    + change (fold_left (fun s c => s + c)%num cs n0) with (cs_total cs).
      change (Bltb (fmul (g_exc g (k + 1)) (cs_total cs)) (cs_total cs) = true). apply fltb_lt; [assumption|assumption|]. apply P2.
Qed.

(** ** Positions *)
Definition good_pos {N : Num} (g : rng N) (r : range) : Prop :=
  forall k, rand_pos r g k = UB \/ exists i, rand_pos r g k = Ok i /\ in_range i r.

Lemma u32_id z : (0 <= z < 2 ^ 32)%Z -> u32 z = z.
Proof. intros H. unfold u32. apply Z.mod_small. assumption. Qed.

Lemma fto_int {lm} (x : F64 lm) (n : Z) : is_finite x = true -> 0 <= fB2R x < IZR n ->
  (to_int (N:=F64 lm) x = UB \/ exists i, to_int (N:=F64 lm) x = Ok i /\ (0 <= i < n)%Z) /\
  ((n <= 2 ^ 31)%Z -> exists i, to_int (N:=F64 lm) x = Ok i /\ (0 <= i < n)%Z).
Proof.
  intros Fx [H0 H1].
  assert (G : forall o, o = Ok (Btrunc x) -> exists i, o = Ok i /\ (0 <= i < n)%Z).
  { intros o ->. exists (Btrunc x). split; [reflexivity|]. rewrite ftrunc by assumption. split.
    - apply Zfloor_lub. exact H0.
    - apply lt_IZR. eapply Rle_lt_trans; [apply Zfloor_lb|assumption]. }
  unfold to_int. unF.
  set (b := (_ && _)%bool). split.
  - destruct b; [right; apply G; reflexivity|left; reflexivity].
  - intros Hn. assert (b = true) as ->; [|apply G; reflexivity]. unfold b.
    change (Bltb (fofZ (-2147483649)) x && Bltb x (fofZ 2147483648) = true).
    destruct (fofZ_exact (-2147483649)) as [A1 A2]; [cbn; lia|]. destruct (fofZ_exact 2147483648) as [B1 B2]; [cbn; lia|].
    apply andb_true_intro. split; apply fltb_lt; try assumption; [rewrite A1; lra|].
    rewrite B1. apply Rlt_le_trans with (IZR n); [assumption|]. apply IZR_le. exact Hn.
Qed.

Lemma frand_pos {lm} (g : rng (F64 lm)) (r : range) : frng_ok g -> (0 < Z.of_nat (rsize r) < 2 ^ 32)%Z ->
  good_pos g r /\ ((Z.of_nat (rsize r) < 2 ^ 31)%Z -> forall k, exists i, rand_pos r g k = Ok i /\ in_range i r).
Proof.
  intros Hg Hs. assert (G : forall k, 
     (to_int (N:=F64 lm) (fmul (fofZ (Z.of_nat (rsize r))) (g_exc g k)) = UB \/ exists i, to_int (N:=F64 lm) (fmul (fofZ (Z.of_nat (rsize r))) (g_exc g k)) = Ok i /\ (0 <= i < Z.of_nat (rsize r))%Z) /\
     ((Z.of_nat (rsize r) <= 2 ^ 31)%Z -> exists i, to_int (N:=F64 lm) (fmul (fofZ (Z.of_nat (rsize r))) (g_exc g k)) = Ok i /\ (0 <= i < Z.of_nat (rsize r))%Z)).
  { intros k. destruct (Hg k) as (_ & _ & He0 & He1). destruct (fofZ_exact (Z.of_nat (rsize r))) as [V F]; [lia|].
    destruct (fmul_below (fofZ (Z.of_nat (rsize r))) (g_exc g k) F) as [_ [Fm Hm]]; [|assumption|assumption|].
    - rewrite V. apply Rlt_le_trans with 1; [change 1 with (bpow radix2 0); apply bpow_lt; reflexivity|]. apply IZR_le. lia.
    - rewrite V in Hm. apply fto_int; assumption. }
  assert (P : forall k i, to_int (N:=F64 lm) (fmul (fofZ (Z.of_nat (rsize r))) (g_exc g k)) = Ok i -> (0 <= i < Z.of_nat (rsize r))%Z ->
     exists i, rand_pos r g k = Ok i /\ in_range i r).
  { intros k i E Hi. unfold rand_pos. rewrite u32_id by lia. unF.
    rewrite E. cbn [obind]. eexists. split; [reflexivity|]. unfold in_range, rsize in *. lia. }
  split.
  - intros k. destruct (G k) as [[E|(i & E & Hi)] _].
    + left. unfold rand_pos. rewrite u32_id by lia. unF.
      rewrite E. reflexivity.
    + right. eauto.
  - intros Hlt k. destruct (G k) as [_ Q]. destruct Q as (i & E & Hi); [lia|]. eauto.
Qed.

Section Pairs.
Context {N : Num}.
Lemma pick_other_ok fuel pA (r : range) (g : rng N) : good_pos g r -> forall k j k',
  pick_other fuel pA r g k = Ok (j, k') -> in_range j r /\ pA <> j /\ (k < k')%nat.
Proof.
  intros Hg. induction fuel as [|fuel IH]; intros k j k' H; cbn [pick_other] in H; [discriminate|].
  destruct (Hg k) as [E|(i & E & Hi)]; rewrite E in H; cbn [obind] in H; [discriminate|].
  destruct (Nat.eqb_spec pA i) as [Q|Q].
  - apply IH in H as (A & B & C). repeat split; try assumption; try apply A; lia.
  - injection H as <- <-. repeat split; try assumption; try apply Hi; lia.
Qed.
Lemma select_ok fuel (a b : range) (g : rng N) k i j k' : good_pos g a -> good_pos g b ->
  selectRandomPair fuel a b g k = Ok (i, j, k') -> in_range i a /\ in_range j b /\ i <> j.
Proof.
  intros Ha Hb H. unfold selectRandomPair in H. destruct (Ha k) as [E|(x & E & Hx)]; rewrite E in H; cbn [obind] in H; [discriminate|].
  apply obind_ok in H as ([y k1] & E1 & H). injection H as <- <- <-.
  apply pick_other_ok in E1 as (A & B & _); [|assumption]. auto.
Qed.
Lemma select_single fuel (b : nat) (g : rng N) k :
  (forall k, exists i, rand_pos (b, S b) g k = Ok i /\ in_range i (b, S b)) ->
  selectRandomPair fuel (b, S b) (b, S b) g k = Diverge.
Proof.
  intros H. assert (E : forall k, rand_pos (b, S b) g k = Ok b).
  { intros k'. destruct (H k') as (i & -> & Hi). unfold in_range in Hi. cbn in Hi. f_equal. lia. }
  unfold selectRandomPair. rewrite E. cbn [obind]. generalize (k + 1)%nat as n. induction fuel as [|fuel IH]; intros n; cbn [pick_other]; [reflexivity|].
  rewrite E. cbn [obind]. rewrite Nat.eqb_refl. apply IH.
Qed.
Lemma select_disjoint fuel (a b : range) (g : rng N) k : (snd a <= fst b \/ snd b <= fst a)%nat ->
  (forall k, exists i, rand_pos a g k = Ok i /\ in_range i a) -> (forall k, exists i, rand_pos b g k = Ok i /\ in_range i b) ->
  exists i j, selectRandomPair (S fuel) a b g k = Ok (i, j, (k + 2)%nat).
Proof.
  intros Hd Ha Hb. destruct (Ha k) as (i & Ei & Hi). destruct (Hb (k + 1)%nat) as (j & Ej & Hj).
  exists i, j. unfold selectRandomPair. rewrite Ei. cbn [obind pick_other]. rewrite Ej. cbn [obind].
  unfold in_range in *. destruct (Nat.eqb_spec i j); [lia|]. cbn [obind]. f_equal. f_equal. lia.
Qed.
Lemma select_pair fuel (a b : range) (g : rng N) k i j :
  rand_pos a g k = Ok i -> rand_pos b g (k + 1) = Ok j -> i <> j -> selectRandomPair (S fuel) a b g k = Ok (i, j, (k + 2)%nat).
Proof.
  intros Ei Ej Hne. unfold selectRandomPair. rewrite Ei. cbn [obind pick_other]. rewrite Ej. cbn [obind].
  destruct (Nat.eqb_spec i j); [lia|]. cbn [obind]. f_equal. f_equal. lia.
Qed.
End Pairs.

(** Real draws. *)
Lemma rrand_pos (g : rng RNum) (r : range) : rng_ok g -> (0 < Z.of_nat (rsize r) < 2 ^ 31)%Z ->
  forall k, exists i, rand_pos r g k = Ok i /\ in_range i r.
Proof.
  intros Hg Hs k. destruct (Hg k) as [_ He]. unfold rand_pos, to_int. rewrite u32_id by lia. unR.
  change (@ntrunc RNum) with Ztrunc. set (n := IZR (Z.of_nat (rsize r))). set (e := g_exc g k) in *.
  assert (Hn : 0 < n) by (apply IZR_lt; lia). assert (Hn2 : n <= 2147483647) by (apply IZR_le; lia).
  assert (H0 : 0 <= n * e) by (apply Rmult_le_pos; lra). assert (H1 : n * e < n) by nra.
  destruct (Rltb_spec (-2147483649) (n * e)); [|exfalso; lra]. destruct (Rltb_spec (n * e) 2147483648); [|exfalso; lra].
  cbn [andb obind]. eexists. split; [reflexivity|]. rewrite Ztrunc_floor by assumption.
  assert (0 <= Zfloor (n * e) < Z.of_nat (rsize r))%Z.
  { split; [apply Zfloor_lub; assumption|]. apply lt_IZR. eapply Rle_lt_trans; [apply Zfloor_lb|assumption]. }
  unfold in_range, rsize in *. lia.
Qed.
(** A binary64 draw that selects a given position. *)
Lemma frand_reach {lm} (r : range) i : in_range i r -> (Z.of_nat (rsize r) < 2 ^ 31)%Z ->
  exists e : binary64, fnonneg e /\ Bltb e (fofZ 1) = true /\
    forall (g : rng (F64 lm)) k, g_exc g k = e -> rand_pos r g k = Ok i.
Proof.
  intros Hi Hs. set (d := Z.of_nat (i - fst r)). set (n := Z.of_nat (rsize r)).
  assert (Hd : (0 <= d < n)%Z) by (unfold d, n, in_range, rsize in *; lia). fold n in Hs.
  destruct (fofZ_exact (2 * d + 1)) as [V1 F1]; [lia|]. destruct (fofZ_exact (2 * n)) as [V2 F2]; [lia|]. destruct (fofZ_exact n) as [V3 F3]; [lia|].
  set (q := IZR (2 * d + 1) / IZR (2 * n)).
  assert (N0 : 0 < IZR n) by (apply IZR_lt; lia). assert (N31 : IZR n <= 2147483647) by (apply IZR_le; lia).
  assert (D0 : 0 <= IZR d) by (apply IZR_le; lia). assert (Dn : IZR d + 1 <= IZR n) by (rewrite <- plus_IZR; apply IZR_le; lia).
  assert (Eq : q * IZR n = IZR d + / 2).
  { unfold q. rewrite plus_IZR, !mult_IZR. field. lra. }
  assert (Hq : / 2 / IZR n <= q <= 1 - / 2 / IZR n).
  { split; apply Rmult_le_reg_r with (IZR n); try assumption; rewrite ?Rmult_minus_distr_r, Eq; field_simplify; lra. }
  assert (Hinv : / 2147483647 <= / IZR n) by (apply Rinv_le; assumption).
  assert (Hq0 : 0 < q) by lra.
  assert (B52 : bpow radix2 (-53) = / 9007199254740992) by (cbn; lra).
  assert (Hnorm : forall x, / 4294967294 <= x -> Rabs (frnd x - x) <= bpow radix2 (-53) * x).
  { intros x Hx. assert (0 < x) by lra. pose proof (relative_error_N_FLT radix2 femin fprec fprec_gt_0 (fun z => negb (Z.even z)) x) as RE.
    rewrite (Rabs_pos_eq x) in RE by lra.
    replace (/ 2 * bpow radix2 (- fprec + 1)) with (bpow radix2 (-53)) in RE by (cbn; lra). apply RE.
    apply Rle_trans with (2 := Hx). apply Rle_trans with (bpow radix2 (-100)); [apply bpow_le; unfold femax, fprec; lia|]. cbn. lra. }
  assert (Rq : Rabs (frnd q - q) <= bpow radix2 (-53) * q) by (apply Hnorm; lra).
  set (e := frnd q) in *. assert (He : q - bpow radix2 (-53) * q <= e <= q + bpow radix2 (-53) * q).
  { apply Rabs_le_inv in Rq. lra. }
  assert (He1 : 0 <= e < 1) by (rewrite B52 in He; split; nra).
  destruct (fdiv_ok (fofZ (2 * d + 1)) (fofZ (2 * n)) F1) as [EV EF].
  { rewrite V2. apply not_0_IZR. lia. }
  { rewrite V1, V2. fold q. fold e. rewrite Rabs_pos_eq by lra. apply Rlt_trans with (bpow radix2 0); [cbn; lra|apply bpow_lt; reflexivity]. }
  rewrite V1, V2 in EV. fold q in EV. fold e in EV.
  exists (fdiv (fofZ (2 * d + 1)) (fofZ (2 * n))). split; [|split].
  - unfold fnonneg. rewrite fleb_le by (reflexivity || assumption). rewrite EV, fofZ0. apply Rle_bool_true. lra.
  - apply fltb_lt; [assumption|reflexivity|]. rewrite EV, fofZ1. lra.
  - intros g k Hg. unfold rand_pos. fold n. rewrite u32_id by lia.
    rewrite Hg. unF.
    set (y := fmul (fofZ n) _).
    assert (P1 : / 4294967294 <= IZR n * e).
    { replace (IZR n * q) with (q * IZR n) in * by ring. rewrite B52 in He. nra. }
    pose proof (Hnorm _ P1) as Rp. apply Rabs_le_inv in Rp.
    assert (P2 : IZR d + / 2 - / 4194304 <= IZR n * e <= IZR d + / 2 + / 4194304).
    { rewrite <- Eq. rewrite B52 in He. assert (q * IZR n <= 2147483647) by lra. split; nra. }
    assert (P3 : IZR d < frnd (IZR n * e) < IZR d + 1).
    { rewrite B52 in Rp. split; nra. }
    destruct (fmul_ok (fofZ n) (fdiv (fofZ (2 * d + 1)) (fofZ (2 * n))) F3 EF) as [Y1 Y2].
    { rewrite V3, EV. rewrite Rabs_pos_eq by lra. apply Rlt_trans with (bpow radix2 31); [change (bpow radix2 31) with 2147483648; lra|apply bpow_lt; reflexivity]. }
    rewrite V3, EV in Y1. fold y in Y1, Y2.
    assert (HT : to_int (N:=F64 lm) y = Ok d).
    { unfold to_int. unF.
      destruct (fofZ_exact (-2147483649)) as [A1 A2]; [cbn; lia|]. destruct (fofZ_exact 2147483648) as [B1 B2]; [cbn; lia|].
      rewrite (proj2 (fltb_lt (fofZ (-2147483649)) y A2 Y2)) by (rewrite A1, Y1; lra).
      rewrite (proj2 (fltb_lt y (fofZ 2147483648) Y2 B2)) by (rewrite B1, Y1; lra). cbn [andb]. f_equal.
      rewrite ftrunc by (rewrite Y1; lra). rewrite Y1. apply Zfloor_imp. rewrite plus_IZR. lra. }
    rewrite HT. cbn [obind]. f_equal. unfold d, in_range in *. lia.
Qed.
