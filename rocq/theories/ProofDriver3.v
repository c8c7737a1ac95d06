(** Test counts, queue tiling and acceptance for driver runs. *)
From Coq Require Import Reals Lra Lia ZArith Bool List Permutation.
From Flocq Require Import Core.Core IEEE754.BinarySingleNaN.
From Verif Require Import Base Num ModelTerm ModelCollide ModelXsec ModelSet SpecPhys SpecXsec SpecSet
  ProofCollide ProofF64 ProofInelastic ProofXsec ProofSet ProofFloat ProofSelect ProofDriver ProofDriver2.
From Coq Require Import List.
Import ListNotations.
Local Open Scope R_scope.

(** ** Random positions *)
Lemma rpos_ok (g : rng RNum) : rng_ok g -> pos_ok g (2 ^ 31).
Proof.
  intros Hg r k i Hr H. destruct (rrand_pos g r Hg Hr k) as (i' & E & Hi). rewrite E in H. injection H as <-. assumption.
Qed.
Lemma fpos_ok {lm} (g : rng (F64 lm)) : frng_ok g -> pos_ok g (2 ^ 32).
Proof.
  intros Hg r k i Hr H. destruct (frand_pos g r Hg Hr) as [G _]. destruct (G k) as [E|(i' & E & Hi)]; rewrite E in H; [discriminate|].
  injection H as <-. assumption.
Qed.

(** ** C38: real arithmetic *)
Lemma dec_R (x : R) n : dec (N:=RNum) x n = x - INR n.
Proof. induction n as [|n IH]; [cbn; lra|]. cbn [dec]. rewrite IH, S_INR. unR. lra. Qed.

Lemma count_R (x : R) n : (forall i, (i < n)%nat -> (n1 <? dec (N:=RNum) x i)%num = true) -> (n1 <? dec (N:=RNum) x n)%num = false ->
  Z.of_nat n = Z.max 0 (Zceil x - 1).
Proof.
  intros Hi Hn. rewrite dec_R in Hn. unR. destruct (Rltb_spec 1 (x - INR n)) as [|L]; [discriminate|].
  destruct n as [|n].
  - cbn in L. assert (Zceil x <= 1)%Z by (apply Zceil_glb; lra). lia.
  - specialize (Hi n ltac:(lia)). rewrite dec_R in Hi. unR. destruct (Rltb_spec 1 (x - INR n)) as [L'|]; [|discriminate].
    assert (Zceil x = Z.of_nat n + 2)%Z; [|lia]. apply Zceil_imp. rewrite S_INR in L. rewrite INR_IZR_INZ in *.
    replace (Z.of_nat n + 2 - 1)%Z with (Z.of_nat n + 1)%Z by lia. rewrite !plus_IZR. lra.
Qed.
Lemma ceil_int z : Zceil (IZR z) = z.
Proof. apply Zceil_IZR. Qed.
Lemma ceil_shift (x : R) : Zceil (x + 1) = (Zceil x + 1)%Z.
Proof.
  unfold Zceil. replace (- (x + 1)) with (-x + IZR (-1)) by lra.
  rewrite (Zfloor_imp (Zfloor (-x) + -1)); [lia|]. pose proof (Zfloor_lb (-x)). pose proof (Zfloor_ub (-x)). rewrite !plus_IZR. lra.
Qed.

Lemma promote_count (x draw : R) n : 0 <= x -> 0 <= draw ->
  (forall i, (i < n)%nat -> (n1 <? dec (N:=RNum) (promote (N:=RNum) x draw) i)%num = true) ->
  (n1 <? dec (N:=RNum) (promote (N:=RNum) x draw) n)%num = false ->
  (IZR (Zfloor x) <> x -> (draw < x - IZR (Zfloor x) -> Z.of_nat n = (Zfloor x + 1)%Z) /\
                          (x - IZR (Zfloor x) <= draw -> Z.of_nat n = Zfloor x)) /\
  (forall z, x = IZR z -> Z.of_nat n = Z.max 0 (z - 1)).
Proof.
  intros Hx Hd H1 H2. pose proof (count_R _ _ H1 H2) as C. unfold promote in C. unR. change (@nfloor RNum x) with (IZR (Zfloor x)) in C.
  pose proof (Zfloor_lb x) as Fl. pose proof (Zfloor_ub x) as Fu. assert (F0 : (0 <= Zfloor x)%Z) by (apply Zfloor_lub; assumption).
  split.
  - intros Hne. pose proof (Zceil_floor_neq x Hne) as Hc. destruct (Rltb_spec draw (x - IZR (Zfloor x))) as [L|L]; rewrite ?ceil_shift, Hc in C; split; intros; try lra; try lia.
  - intros z ->. rewrite Zfloor_IZR in C. destruct (Rltb_spec draw (IZR z - IZR z)); [lra|]. rewrite Zceil_IZR in C. lia.
Qed.

(** ** C40 *)
Lemma estimate_R same (wA wB : R) nA nB (dt msv vol : R) : 0 < wA -> 0 < wB -> vol <> 0 ->
  estimate (N:=RNum) same wA wB nA nB dt msv vol = ntc same wA wB nA nB dt msv vol.
Proof.
  intros HA HB Hv. unfold estimate, ntc, nmin. rewrite !INR_IZR_INZ. unR.
  assert (E : forall a b, a * b / (if Rltb wB wA then wB else wA) = a * b / (if Rltb wB wA then wB else wA)) by reflexivity.
  destruct (Rltb_spec wB wA) as [L|L]; [rewrite Rmax_left by lra|rewrite Rmax_right by lra]; destruct same; field; split; lra.
Qed.
Lemma ntc_sym same (wA wB : R) nA nB (dt msv vol : R) : ntc same wA wB nA nB dt msv vol = ntc same wB wA nB nA dt msv vol.
Proof. unfold ntc. rewrite (Rmax_comm wA wB). unfold Rdiv. ring. Qed.

Lemma driver_count_R K fuel inplace (dt : R) (c : cell RNum) nprops db res er g k s :
  rng_ok g -> bounded (2 ^ 31) (c_ranges c) -> (inplace = true -> disjoint (c_ranges c)) ->
  (forall A B, List.Forall (fun e => appends (q_model e)) (db A B)) ->
  List.Forall (fun p => 0 < p_weight p) (c_mem c) -> c_volume c <> 0 ->
  driver K fuel inplace dt c nprops db res er g k = Ok s ->
  forall l1 A B l2, species_pairs (Nat.min (length (c_ranges c)) nprops) = l1 ++ (A, B) :: l2 -> db A B <> [] -> enough A B (s_ranges s) ->
  exists ra rb pa pb msv, nth_error (c_ranges c) A = Some ra /\ nth_error (c_ranges c) B = Some rb /\
    nth_error (c_mem c) (fst ra) = Some pa /\ nth_error (c_mem c) (fst rb) = Some pb /\
    findMaxSigmaVProduct K (db A B) (c_maxv c A B) = Ok msv /\
    let x := ntc (Nat.eqb A B) (p_weight pa) (p_weight pb) (rsize ra) (rsize rb) dt msv (c_volume c) in
    let draw := g_rand g (k + length (filter (has_eqs db) l1)) in
    0 <= x ->
    (IZR (Zfloor x) <> x ->
       (draw < x - IZR (Zfloor x) -> Z.of_nat (tested A B s) = (Zfloor x + 1)%Z) /\
       (x - IZR (Zfloor x) <= draw -> Z.of_nat (tested A B s) = Zfloor x)) /\
    (forall z, x = IZR z -> Z.of_nat (tested A B s) = Z.max 0 (z - 1)).
Proof.
  intros Hg Hb Hd Happ Hw Hvol H l1 A B l2 Esp Hne Hen.
  destruct (driver_ok K _ _ _ _ _ _ _ _ _ _ _ _ (rpos_ok g Hg) Hb Hd Happ H) as (_ & _ & _ & Hc).
  destruct (Hc l1 A B l2 Esp Hne Hen) as (ra & rb & pa & pb & msv & EA & EB & Epa & Epb & Em & H1 & H2).
  exists ra, rb, pa, pb, msv. do 5 (split; [assumption|]). intros x draw Hx.
  rewrite Forall_forall in Hw. pose proof (Hw _ (nth_error_In _ _ Epa)) as WA. pose proof (Hw _ (nth_error_In _ _ Epb)) as WB.
  rewrite estimate_R in H1, H2 by assumption. destruct (Hg (k + length (filter (has_eqs db) l1))%nat) as [D _].
  apply (promote_count x draw); [assumption|apply D|assumption|assumption].
Qed.

(** ** C39: binary64 *)
Lemma fsub1_exact (x : binary64) : is_finite x = true -> 1 < fB2R x <= 9007199254740992 ->
  fB2R (fsub x (fofZ 1)) = fB2R x - 1 /\ is_finite (fsub x (fofZ 1)) = true.
Proof.
  intros Fx [H1 H2]. destruct (fofZ_exact 1) as [V1 F1]; [cbn; lia|].
  assert (Hfmt : fF (fB2R x - 1)).
  { pose proof (fF_B2R x) as G. apply FLT_format_generic in G; [|typeclasses eauto]. destruct G as [[m e] E Hm He]. cbn [Defs.Fnum Defs.Fexp] in *.
    destruct (Z.le_gt_cases 0 e) as [Le|Le].
    - assert (Ez : fB2R x = IZR (m * 2 ^ e)).
      { rewrite E. unfold F2R. cbn [Defs.Fnum Defs.Fexp]. rewrite mult_IZR. f_equal. symmetry. apply (IZR_Zpower radix2 e Le). }
      rewrite Ez, <- minus_IZR. apply fformat_int. rewrite Ez in H1, H2. apply lt_IZR in H1. apply le_IZR in H2. lia.
    - apply generic_format_FLT. exists (Float radix2 (m - 2 ^ (-e)) e).
      + rewrite E. unfold F2R. cbn [Defs.Fnum Defs.Fexp]. rewrite minus_IZR.
        replace (IZR (2 ^ (- e))) with (bpow radix2 (-e)) by (symmetry; apply (IZR_Zpower radix2 (-e)); lia).
        rewrite Rmult_minus_distr_r, <- bpow_plus. replace (- e + e)%Z with 0%Z by lia. cbn. lra.
      + cbn [Defs.Fnum]. assert (P : (0 < 2 ^ (- e))%Z) by (apply Z.pow_pos_nonneg; lia).
        assert (M : (2 ^ (-e) < m)%Z).
        { apply lt_IZR. replace (IZR (2 ^ (- e))) with (bpow radix2 (-e)) by (symmetry; apply (IZR_Zpower radix2 (-e)); lia).
          rewrite E in H1. unfold F2R in H1. cbn [Defs.Fnum Defs.Fexp] in H1.
          apply Rmult_lt_reg_r with (bpow radix2 e); [apply bpow_gt_0|]. rewrite <- bpow_plus. replace (- e + e)%Z with 0%Z by lia. exact H1. }
        lia.
      + cbn [Defs.Fexp]. assumption. }
  destruct (fsub_ok x (fofZ 1) Fx F1) as [V F].
  - rewrite V1, round_generic by (typeclasses eauto || assumption). apply Rlt_trans with (bpow radix2 54); [|apply bpow_lt; reflexivity].
    rewrite Rabs_pos_eq by lra. change (bpow radix2 54) with 18014398509481984. lra.
  - rewrite V1, round_generic in V by (typeclasses eauto || assumption). auto.
Qed.

Lemma fone_lt (y : binary64) : is_finite y = true -> Bltb (fofZ 1) y = Rlt_bool 1 (fB2R y).
Proof. intros F. destruct (fofZ_exact 1) as [V1 F1]; [cbn; lia|]. rewrite Bltb_correct by assumption. rewrite V1. reflexivity. Qed.

Lemma dec_F {lm} (x : F64 lm) : is_finite x = true -> fB2R x <= 9007199254740992 -> forall n,
  (forall i, (i < n)%nat -> (n1 <? dec (N:=F64 lm) x i)%num = true) ->
  is_finite (dec (N:=F64 lm) x n) = true /\ fB2R (dec (N:=F64 lm) x n) = fB2R x - INR n.
Proof.
  intros Fx Hx n. induction n as [|n IH]; intros H; [split; [assumption|cbn; lra]|].
  destruct IH as [F V]; [intros; apply H; lia|]. specialize (H n ltac:(lia)). cbn [dec].
  change (@n1 (F64 lm)) with (fofZ 1) in *. change (@nsub (F64 lm)) with fsub. change (@nltb (F64 lm)) with (@Bltb fprec femax) in H.
  rewrite fone_lt in H by assumption. destruct (Rlt_bool_spec 1 (fB2R (dec (N:=F64 lm) x n))) as [L|L]; [|discriminate].
  destruct (fsub1_exact _ F) as [V' F']; [rewrite V in *; pose proof (pos_INR n); lra|].
  split; [assumption|]. rewrite V', V, S_INR. lra.
Qed.

Lemma count_F {lm} (x : F64 lm) n : is_finite x = true -> fB2R x <= 9007199254740992 ->
  (forall i, (i < n)%nat -> (n1 <? dec (N:=F64 lm) x i)%num = true) -> (n1 <? dec (N:=F64 lm) x n)%num = false ->
  Z.of_nat n = Z.max 0 (Zceil (fB2R x) - 1).
Proof.
  intros Fx Hx Hi Hn. apply count_R.
  - intros i Hlt. destruct (dec_F x Fx Hx i) as [F V]; [intros; apply Hi; lia|]. specialize (Hi i Hlt).
    change (@n1 (F64 lm)) with (fofZ 1) in *. change (@nltb (F64 lm)) with (@Bltb fprec femax) in *.
    rewrite fone_lt in Hi by assumption. rewrite dec_R, <- V. unR. destruct (Rlt_bool_spec 1 (fB2R (dec (N:=F64 lm) x i))); [|discriminate].
    destruct (Rltb_spec 1 (fB2R (dec (N:=F64 lm) x i))); [reflexivity|contradiction].
  - destruct (dec_F x Fx Hx n Hi) as [F V].
    change (@n1 (F64 lm)) with (fofZ 1) in *. change (@nltb (F64 lm)) with (@Bltb fprec femax) in *.
    rewrite fone_lt in Hn by assumption. rewrite dec_R, <- V. unR. destruct (Rlt_bool_spec 1 (fB2R (dec (N:=F64 lm) x n))); [discriminate|].
    destruct (Rltb_spec 1 (fB2R (dec (N:=F64 lm) x n))); [lra|reflexivity].
Qed.

Definition f54 : binary64 := fofZ (2 ^ 54).
Lemma f54_val : fB2R f54 = 18014398509481984 /\ is_finite f54 = true.
Proof. split; [|reflexivity]. unfold f54. vm_compute. lra. Qed.

(** From 2^54 on subtracting one changes nothing. *)
Lemma fsub1_stuck (x : binary64) : is_finite x = true -> 18014398509481984 <= fB2R x -> fsub x (fofZ 1) = x.
Proof.
  intros Fx H. destruct f54_val as [V54 F54]. destruct (Req_dec (fB2R x) 18014398509481984) as [E|E].
  - assert (x = f54) as -> by (apply B2R_inj; [destruct x; try discriminate; [cbn in H; lra|reflexivity]|reflexivity|rewrite V54; exact E]).
    apply B2R_inj; [vm_compute; reflexivity|vm_compute; reflexivity|].
    transitivity 18014398509481984; [vm_compute; lra|symmetry; exact V54].
  - assert (L : 18014398509481984 < fB2R x) by lra.
    destruct (fofZ_exact 1) as [V1 F1]; [cbn; lia|].
    assert (R1 : frnd (fB2R x - 1) = fB2R x).
    { apply Rle_antisym.
      - rewrite <- (round_generic radix2 ffexp ZnearestE (fB2R x) (fF_B2R x)) at 2. apply round_le; [typeclasses eauto..|lra].
      - apply round_N_ge_midp; [typeclasses eauto|apply fF_B2R|].
        set (p := pred radix2 ffexp (fB2R x)).
        assert (Fp : fF p) by (apply generic_format_pred; [typeclasses eauto|apply fF_B2R]).
        assert (P : 18014398509481984 <= p).
        { change 18014398509481984 with (bpow radix2 54) in *. apply pred_ge_gt; [typeclasses eauto|apply generic_format_bpow; cbn; lia|apply fF_B2R|assumption]. }
        assert (S : fB2R x = p + ulp radix2 ffexp p).
        { rewrite <- (succ_pred radix2 ffexp (fB2R x) (fF_B2R x)) at 1. fold p. apply succ_eq_pos. lra. }
        assert (U : 4 <= ulp radix2 ffexp p).
        { replace 4 with (ulp radix2 ffexp (bpow radix2 54)) by (rewrite ulp_bpow; cbn; lra).
          apply ulp_le; [typeclasses eauto|typeclasses eauto|]. change (bpow radix2 54) with 18014398509481984. rewrite !Rabs_pos_eq by lra. assumption. }
        lra. }
    destruct (fsub_ok x (fofZ 1) Fx F1) as [V F].
    + rewrite V1, R1. rewrite Rabs_pos_eq by lra. apply fB2R_lt.
    + rewrite V1, R1 in V. apply B2R_inj; [| |exact V].
      * destruct (fsub x (fofZ 1)); try discriminate; [cbn in V; lra|reflexivity].
      * destruct x; try discriminate; [cbn in H; lra|reflexivity].
Qed.

Lemma dec_stuck {lm} (x : F64 lm) : x = B754_infinity false \/ is_finite x = true /\ 18014398509481984 <= fB2R x ->
  forall n, dec (N:=F64 lm) x n = x /\ (n1 <? dec (N:=F64 lm) x n)%num = true.
Proof.
  intros Hx. assert (E : forall n, dec (N:=F64 lm) x n = x).
  { induction n as [|n IH]; [reflexivity|]. cbn [dec]. rewrite IH. change (@nsub (F64 lm)) with fsub. change (@n1 (F64 lm)) with (fofZ 1).
    destruct Hx as [->|[F H]]; [reflexivity|]. apply fsub1_stuck; assumption. }
  intros n. rewrite E. split; [reflexivity|]. change (@n1 (F64 lm)) with (fofZ 1). change (@nltb (F64 lm)) with (@Bltb fprec femax).
  destruct Hx as [->|[F H]]; [reflexivity|]. rewrite fone_lt by assumption. apply Rlt_bool_true. lra.
Qed.

Lemma loop_count_F {lm} (K : F64 lm) fuel inplace sfuel rhs msv A B (x : F64 lm) g s s' :
  frng_ok g -> bounded (2 ^ 32) (s_ranges s) -> (inplace = true -> disjoint (s_ranges s)) ->
  List.Forall (fun e => appends (q_model e)) rhs ->
  test_loop K fuel inplace sfuel rhs msv A B x g s = Ok s' ->
  (is_finite x = true -> fB2R x <= 9007199254740992 -> enough A B (s_ranges s') ->
     Z.of_nat (length (s_log s')) = (Z.of_nat (length (s_log s)) + Z.max 0 (Zceil (fB2R x) - 1))%Z) /\
  (x = B754_infinity false \/ is_finite x = true /\ 18014398509481984 <= fB2R x -> ~ enough A B (s_ranges s')) /\
  (is_nan x = true -> s' = s).
Proof.
  intros Hg Hb Hd Happ H.
  assert (Hnan : is_nan x = true -> s' = s).
  { intros Hn. destruct fuel; cbn [test_loop] in H; [discriminate|]. change (@n1 (F64 lm)) with (fofZ 1) in H. change (@nltb (F64 lm)) with (@Bltb fprec femax) in H.
    destruct x; try discriminate. cbn in H. injection H as <-. reflexivity. }
  apply loop_tests in H as (n & Ht & Hi & Hend).
  split; [|split; [|assumption]].
  - intros Fx Hx Hen. destruct Hend as [Hend|]; [|contradiction].
    pose proof (count_F x n Fx Hx Hi Hend) as C.
    assert (Hr : reach (s_ranges s) (s_erase s) (s_res s) s).
    { destruct s. apply (reach_init (N:=F64 lm)). }
    destruct (tests_reach K inplace sfuel g _ (fpos_ok g Hg) _ _ _ _ _ _ _ _ _ _ Hb Hd Happ Ht Hr) as (_ & _ & _ & log & El & En & _).
    rewrite El, app_length, En. lia.
  - intros Hx. destruct Hend as [Hend|Hend]; [|assumption]. destruct (dec_stuck x Hx n) as [_ E]. rewrite E in Hend. discriminate.
Qed.
Lemma loop_diverges_F {lm} (K : F64 lm) fuel sfuel rhs msv A B (x : F64 lm) g s :
  frng_ok g -> bounded (2 ^ 32) (s_ranges s) -> List.Forall (fun e => appends (q_model e)) rhs -> enough A B (s_ranges s) ->
  x = B754_infinity false \/ is_finite x = true /\ 18014398509481984 <= fB2R x ->
  forall s', test_loop K fuel false sfuel rhs msv A B x g s <> Ok s'.
Proof.
  intros Hg Hb Happ Hen Hx s' H. destruct (loop_count_F K fuel false sfuel rhs msv A B x g s s' Hg Hb ltac:(discriminate) Happ H) as (_ & Hs & _).
  specialize (Hs Hx). apply loop_tests in H as (n & Ht & _).
  assert (Hr : reach (s_ranges s) (s_erase s) (s_res s) s) by (destruct s; apply (reach_init (N:=F64 lm))).
  destruct (tests_reach K false sfuel g _ (fpos_ok g Hg) _ _ _ _ _ _ _ _ _ _ Hb ltac:(discriminate) Happ Ht Hr) as (_ & _ & Hf & _).
  destruct (Hf eq_refl) as (_ & E & _). rewrite E in Hs. contradiction.
Qed.

(** ** C44: tiling *)
Section Tiles.
Context {N : Num}.
Lemma shrinks_wf rs0 rs : wf_ranges rs0 ->
  (shrinks rs0 rs <-> Forall2 (fun r0 r => fst r = fst r0 /\ (fst r <= snd r <= snd r0)%nat) rs0 rs).
Proof.
  unfold shrinks. intros Hw. split; intros H; induction H as [|r0 r rs0 rs Hr H IH]; constructor; apply Forall_cons_iff in Hw as [Hw1 Hw2]; auto; lia.
Qed.
Lemma freed_in rs0 rs p : shrinks rs0 rs -> wf_ranges rs0 -> In p (freed rs0 rs) <->
  exists A r0 r, nth_error rs0 A = Some r0 /\ nth_error rs A = Some r /\ in_range p r0 /\ ~ in_range p r.
Proof.
  unfold freed. intros H. induction H as [|r0 r rs0 rs Hr H IH]; intros Hw; cbn [combine flat_map].
  - split; [intros []|]. intros ([|A] & r0 & r & E & _); discriminate.
  - apply Forall_cons_iff in Hw as [Hw1 Hw2]. rewrite in_app_iff, (IH Hw2), in_seq. cbn [fst snd]. unfold in_range. split.
    + intros [Q|(A & a & b & E1 & E2 & Q)]; [exists 0%nat, r0, r; cbn; repeat (split; [first [reflexivity|lia]|]); lia|].
      exists (S A), a, b. cbn. auto.
    + intros ([|A] & a & b & E1 & E2 & Q1 & Q2); cbn in E1, E2; [injection E1 as <-; injection E2 as <-; left; lia|right; eauto 8].
Qed.
Lemma freed_nodup rs0 rs : shrinks rs0 rs -> wf_ranges rs0 -> disjoint rs0 -> NoDup (freed rs0 rs).
Proof.
  intros H. induction H as [|r0 r rs0 rs Hr H IH]; intros Hw Hd; [constructor|]. apply Forall_cons_iff in Hw as [Hw1 Hw2]. unfold freed. cbn [combine flat_map]. apply nodup_app.
  - apply seq_NoDup.
  - apply IH; [assumption|]. intros A B ra rb p Hne EA EB. apply (Hd (S A) (S B)); [lia|assumption|assumption].
  - intros p H1 H2. apply in_seq in H1. cbn [fst snd] in H1. change (In p (freed rs0 rs)) in H2. apply (freed_in _ _ _ H Hw2) in H2 as (A & a & b & E1 & _ & Q & _).
    apply (Hd 0%nat (S A) r0 a p); [lia|reflexivity|assumption| |assumption]. unfold in_range. lia.
Qed.
Lemma tiles_freed rs0 rs q : wf_ranges rs0 -> disjoint rs0 -> (tiles rs0 rs q <-> shrinks rs0 rs /\ Permutation q (freed rs0 rs)).
Proof.
  intros Hw Hd. split.
  - intros (Hs & Hn & Hin). apply shrinks_wf in Hs; [|assumption]. split; [exact Hs|]. apply NoDup_Permutation; [assumption|apply freed_nodup; assumption|].
    intros p. rewrite Hin. symmetry. apply freed_in; assumption.
  - intros [Hs Hp]. split; [apply shrinks_wf; assumption|]. split; [apply (Permutation_NoDup (Permutation_sym Hp)); apply freed_nodup; assumption|].
    intros p. rewrite <- (freed_in _ _ _ Hs Hw). split; apply Permutation_in; [assumption|apply Permutation_sym; assumption].
Qed.
Lemma freed_slots rs0 rs : shrinks rs0 rs -> wf_ranges rs0 ->
  (length (freed rs0 rs) + slots rs = slots rs0)%nat.
Proof.
  unfold freed, slots. intros H. induction H as [|r0 r rs0 rs Hr H IH]; intros Hw; [reflexivity|].
  apply Forall_cons_iff in Hw as [Hw1 Hw2]. specialize (IH Hw2). cbn [combine flat_map map list_sum]. rewrite app_length, seq_length. cbn [fst snd].
  unfold list_sum in *. cbn [fold_right]. unfold rsize at 1 3. lia.
Qed.
Lemma tiles_slots rs0 rs q : wf_ranges rs0 -> disjoint rs0 -> tiles rs0 rs q ->
  (length q + slots rs = slots rs0)%nat.
Proof.
  intros Hw Hd Ht. apply tiles_freed in Ht as [Hs Hp]; [|assumption|assumption]. rewrite (Permutation_length Hp). apply freed_slots; assumption.
Qed.
Variable K : N.
Lemma tiles_step sfuel rhs msv A B g bnd (s s' : dstate N) rs0 er0 q : pos_ok g bnd -> bounded bnd rs0 -> wf_ranges rs0 -> disjoint rs0 ->
  List.Forall (fun e => appends (q_model e)) rhs -> enough A B (s_ranges s) ->
  s_erase s = er0 ++ q -> tiles rs0 (s_ranges s) q ->
  one_test K true sfuel rhs msv A B g s = Ok s' ->
  exists q', s_erase s' = er0 ++ q' /\ tiles rs0 (s_ranges s') q'.
Proof.
  intros Hp Hb Hw Hd Happ Hen Hq Ht H. apply tiles_freed in Ht as [Hs Hpq]; [|assumption|assumption].
  assert (Hr : reach rs0 er0 (s_res s) s) by (split; [assumption|eauto|exists []; rewrite app_nil_r; reflexivity]).
  destruct (one_test_reach K true sfuel g bnd Hp rhs msv A B rs0 er0 (s_res s) s s' Hb (fun _ => Hd) Happ Hr Hen H) as ([Hs' (q' & Hq' & Hpq') _] & _).
  exists q'. split; [assumption|]. apply tiles_freed; auto.
Qed.
Lemma tiles_run fuel dt (c : cell N) nprops db res er g k s bnd :
  pos_ok g bnd -> bounded bnd (c_ranges c) -> wf_ranges (c_ranges c) -> disjoint (c_ranges c) ->
  (forall A B, List.Forall (fun e => appends (q_model e)) (db A B)) ->
  driver K fuel true dt c nprops db res er g k = Ok s ->
  (exists new, s_res s = res ++ new) /\ exists q, s_erase s = er ++ q /\ tiles (c_ranges c) (s_ranges s) q.
Proof.
  intros Hp Hb Hw Hd Happ H. destruct (driver_ok K _ _ _ _ _ _ _ _ _ _ _ _ Hp Hb (fun _ => Hd) Happ H) as ([Hs (q & Hq & Hpq) Hres] & _).
  split; [assumption|]. exists q. split; [assumption|]. apply tiles_freed; auto.
Qed.

(** ** C43 for a whole test *)
Lemma others_upd (mem : list (particle N)) r xs i a : In i xs \/ ~ in_range i r -> others (upd i a mem) r xs = others mem r xs.
Proof.
  intros H. apply others_ext. intros p Hp1 Hp2. rewrite upd_nth. destruct (Nat.eqb_spec i p) as [->|]; [|reflexivity]. exfalso. destruct H; contradiction.
Qed.
Lemma test_removes sfuel rhs msv A B g bnd (s s' : dstate N) ra rb : pos_ok g bnd -> bounded bnd (s_ranges s) -> disjoint (s_ranges s) ->
  enough A B (s_ranges s) -> nth_error (s_ranges s) A = Some ra -> nth_error (s_ranges s) B = Some rb ->
  one_test K true sfuel rhs msv A B g s = Ok s' ->
  exists i j path, s_log s' = s_log s ++ [(A, B, (i, j), path)] /\ in_range i ra /\ in_range j rb /\ i <> j /\
   ((path < 0)%Z \/ (length (s_res s') <= length (s_res s))%nat ->
      s_ranges s' = s_ranges s /\ s_erase s' = s_erase s /\
      forall p, p <> i -> p <> j -> nth_error (s_mem s') p = nth_error (s_mem s) p) /\
   ((0 <= path)%Z -> (length (s_res s) < length (s_res s'))%nat ->
     exists ra' rb', nth_error (s_ranges s') A = Some ra' /\ nth_error (s_ranges s') B = Some rb' /\
      fst ra' = fst ra /\ fst rb' = fst rb /\
      (forall C, C <> A -> C <> B -> nth_error (s_ranges s') C = nth_error (s_ranges s) C) /\
      (forall p, ~ in_range p ra -> ~ in_range p rb -> nth_error (s_mem s') p = nth_error (s_mem s) p) /\
      (if Nat.eqb A B then snd ra = S (S (snd ra')) /\ s_erase s' = s_erase s ++ [S (snd ra'); snd ra'] /\
         Permutation (live (s_mem s') ra') (others (s_mem s) ra [i; j])
       else snd ra = S (snd ra') /\ snd rb = S (snd rb') /\ s_erase s' = s_erase s ++ [snd ra'; snd rb'] /\
         Permutation (live (s_mem s') ra') (others (s_mem s) ra [i]) /\
         Permutation (live (s_mem s') rb') (others (s_mem s) rb [j]))).
Proof.
  intros Hp Hb Hd Hen EA EB H. destruct (enough_sizes _ _ _ _ _ _ Hen EA EB Hb) as [SA SB].
  destruct (one_test_ok K true sfuel rhs msv A B g s s' bnd ra rb Hp H EA EB SA SB) as (i & j & path & pA & pB & a & b & k & k' & Hi & Hj & Hij & EpA & EpB & Hpath & Hset & Hlog & Hcase).
  exists i, j, (fst path). do 4 (split; [assumption|]). 
  assert (Hdj : A = B \/ forall p, in_range p ra -> ~ in_range p rb).
  { destruct (Nat.eq_dec A B) as [Q|Q]; [left; assumption|right]. intros p. apply (Hd A B ra rb p Q EA EB). }
  destruct Hcase as [(Hc & Em & Er & Ee)|(_ & Hc1 & Hc2 & s0 & Em & Er & Ee & Hret)].
  - split.
    + intros _. do 2 (split; [assumption|]). intros p Pi Pj. rewrite Em, !upd_nth. destruct (Nat.eqb_spec j p); [congruence|]. cbn [andb].
      destruct (Nat.eqb_spec i p); [congruence|reflexivity].
    + intros Q1 Q2. exfalso. destruct Hc as [?|[?|?]]; [discriminate|lia|lia].
  - split; [intros [?|?]; lia|]. intros _ _. rewrite <- Er in EA, EB.
    destruct (retval_removes A B i j s0 s' ra rb EA EB Hi Hj Hij Hdj Hret) as (ra' & rb' & EA' & EB' & Fa & Fb & Ho & _ & Hout & Hfin).
    exists ra', rb'. do 4 (split; [assumption|]). rewrite Er in Ho. split; [assumption|]. split.
    + intros p Q1 Q2. rewrite Hout by assumption. rewrite Em, !upd_nth. destruct (Nat.eqb_spec j p); [congruence|]. cbn [andb].
      destruct (Nat.eqb_spec i p); [congruence|reflexivity].
    + rewrite Em, Ee in Hfin. destruct (Nat.eqb_spec A B) as [Q|Q].
      * rewrite !others_upd in Hfin by (left; cbn; auto). assumption.
      * destruct Hdj as [?|Hdj]; [contradiction|]. destruct Hfin as (H1 & H2 & H3 & H4 & H5).
        rewrite (others_upd _ ra [i] j), (others_upd _ ra [i] i) in H4 by (first [left; cbn; auto; fail|right; intros Hc; eapply Hdj; eauto]).
        rewrite (others_upd _ rb [j] j), (others_upd _ rb [j] i) in H5 by (first [left; cbn; auto; fail|right; intros Hc; eapply Hdj; eauto]).
        auto.
Qed.
End Tiles.

(** ** C64 *)
Lemma simple_max K e (V : R) : 0 < K -> simple_channel e -> 0 < V ->
  exists M vm, findMaxSigmaV (N:=RNum) K (q_cs e) V = Ok (M, vm) /\ sv_bound K (q_cs e) V M /\
    forall v, 0 < v -> exists s, sigma_is K (q_cs e) v s /\ 0 <= s.
Proof.
  intros HK (fuel & allowed & inf & ninf & tol & solve & mu & d & Hmu & Hd & Hl) HV.
  destruct d as [value t|vref t| |i t| |]; cbn [simple_doc] in Hd; try contradiction.
  - destruct Hd as [Hv Ht]. destruct (constant_spec K fuel allowed inf ninf tol solve mu value t Hmu) as [_ H]. destruct (H Ht) as (c & E & _ & S1 & S2 & HM).
    rewrite Hl in E. injection E as <-. destruct (HM Hv V ltac:(lra)) as (M & vm & Em & Hb & _). exists M, vm. split; [assumption|]. split; [assumption|].
    intros v Hp. destruct (Rle_lt_dec (declared_threshold mu t) (rm_value mu * v ^ 2 / 2)); [exists value|exists 0]; (split; [|lra]); [apply S1|apply S2]; lra.
  - destruct Hd as [Hv Ht]. destruct (inverse_spec K fuel allowed inf ninf tol solve mu vref t Hmu) as [_ H]. destruct (H Ht) as (c & E & _ & S1 & S2 & HM).
    rewrite Hl in E. injection E as <-. destruct (HM Hv V ltac:(lra)) as (M & vm & Em & Hb & _). exists M, vm. split; [assumption|]. split; [assumption|].
    intros v Hp. destruct (Rle_lt_dec (declared_threshold mu t) (rm_value mu * v ^ 2 / 2)) as [L|L].
    + destruct (S1 v Hp L) as (s & Hs & Es). exists s. split; [assumption|]. apply Rmult_le_reg_l with v; lra.
    + exists 0. split; [apply S2|]; lra.
  - destruct Hd as (H1 & H2 & H3 & H4 & Ht). destruct (vhs_spec K fuel allowed inf ninf tol solve mu i t Hmu HK H1 H2 H3) as [_ H]. destruct (H Ht) as (c & E & _ & S1 & S2 & HM & _).
    rewrite Hl in E. injection E as <-. destruct (HM H4 V ltac:(lra)) as (M & vm & Em & Hb & _). exists M, vm. split; [assumption|]. split; [assumption|].
    intros v Hp. destruct (Rle_lt_dec (declared_threshold mu t) (rm_value mu * v ^ 2 / 2)) as [L|L].
    + destruct (S1 v ltac:(lra) L) as (s & Hs & Es). exists s. split; [assumption|lra].
    + exists 0. split; [apply S2|]; lra.
Qed.
Lemma channels_nonneg K rhs v cs : channels K rhs v cs -> (forall e, In e rhs -> exists s, sigma_is K (q_cs e) v s /\ 0 <= s) ->
  List.Forall (fun x => 0 <= x) cs.
Proof.
  intros H Hs. induction H as [|e s rhs cs He H IH]; constructor.
  - destruct (Hs e (or_introl eq_refl)) as (s' & E & Hn). unfold sigma_is in *. rewrite E in He. injection He as <-. assumption.
  - apply IH. intros e' Hin. apply Hs. right. assumption.
Qed.
Lemma acceptance K rhs (V : R) : 0 < K -> 0 < V -> List.Forall simple_channel rhs ->
  exists M, findMaxSigmaVProduct (N:=RNum) K rhs V = Ok M /\ 0 <= M /\
  forall v, 0 < v <= V -> exists cs, channels K rhs v cs /\ List.Forall (fun x => 0 <= x) cs /\
    v * Rsum cs <= M /\ (0 < M -> 0 <= Rsum cs * v / M <= 1) /\
    forall g k, rng_ok g -> exists j c k', calculateOutPath (N:=RNum) K rhs M v g k = Ok (j, c, k') /\
      ((0 <= j)%Z <-> 0 < Rsum cs /\ g_rand g k <= Rsum cs * v / M).
Proof.
  intros HK HV Hs. rewrite Forall_forall in Hs. destruct (set_max K rhs V) as (M & EM & HM).
  { intros e He. destruct (simple_max K e V HK (Hs e He) HV) as (m & vm & Em & Hb & _). eauto. }
  assert (Hnn : forall v cs, 0 < v -> channels K rhs v cs -> List.Forall (fun x => 0 <= x) cs).
  { intros v cs Hv Hc. eapply channels_nonneg; [eassumption|]. intros e He. destruct (simple_max K e V HK (Hs e He) HV) as (_ & _ & _ & _ & G). apply G. assumption. }
  exists M. split; [assumption|]. split.
  - destruct (HM V ltac:(lra)) as (cs & Hc & Hb). pose proof (Rsum_nonneg cs (Hnn V cs HV Hc)). nra.
  - intros v Hv. destruct (HM v Hv) as (cs & Hc & Hb). exists cs. pose proof (Hnn v cs ltac:(lra) Hc) as Hcs. pose proof (Rsum_nonneg cs Hcs) as Hsum.
    split; [assumption|]. split; [assumption|]. split; [assumption|]. split.
    + intros HMp. split; [apply Rmult_le_pos; [nra|left; apply Rinv_0_lt_compat; assumption]|]. apply Rmult_le_reg_r with M; [assumption|]. unfold Rdiv. rewrite Rmult_assoc, Rinv_l by lra. lra.
    + intros g k Hg. destruct (outpath_spec K rhs M v g k cs Hc Hcs Hg) as (j & c & k' & E & Z0 & Zp & _). exists j, c, k'. split; [assumption|].
      destruct (Rle_lt_or_eq_dec 0 (Rsum cs) Hsum) as [P|P].
      * rewrite (Zp P). assert (0 < M) by nra. split.
        -- intros Q. split; [assumption|]. apply Rmult_le_reg_r with M; [assumption|]. unfold Rdiv. rewrite Rmult_assoc, Rinv_l by lra. lra.
        -- intros [_ Q]. apply Rmult_le_compat_r with (r := M) in Q; [|lra]. unfold Rdiv in Q. rewrite Rmult_assoc, Rinv_l in Q by lra. lra.
      * rewrite Z0 by auto. split; [lia|lra].
Qed.
