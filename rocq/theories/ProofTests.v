(** The number of tests in binary64 (C99). *)
From Coq Require Import Reals Lra Lia ZArith Bool List Psatz.
From Flocq Require Import Core.Core IEEE754.BinarySingleNaN.
From Verif Require Import Base Num ModelTerm ModelCollide ModelXsec ModelSet SpecPhys SpecXsec SpecSet SpecRound SpecDouble
  ProofCollide ProofF64 ProofFloat ProofSelect ProofDriver ProofDriver2 ProofDriver3 ProofRound ProofRound14 ProofDouble ProofDouble2 ProofDouble3.
From Coq Require Import List.
Import ListNotations.
Local Open Scope R_scope.

Lemma ffloor_ok (x : binary64) : is_finite x = true -> fB2R (ffloor x) = IZR (Zfloor (fB2R x)) /\ is_finite (ffloor x) = true.
Proof.
  intros F. unfold ffloor. destruct (Bnearbyint_correct fprec femax fprec_lt_emax mode_DN x) as (V & FF & _). rewrite FF. split; [|exact F].
  change fB2R with (@B2R fprec femax). rewrite V. unfold round, F2R, scaled_mantissa, cexp, FIX_exp. cbn [Fnum Fexp round_mode bpow Z.opp]. rewrite !Rmult_1_r. reflexivity.
Qed.

(** ** The estimate *)
Lemma ap_size n : (Z.of_nat n <= 2 ^ 32)%Z -> ap 32 0 (fofZ (Z.of_nat n)) (INR n).
Proof.
  intros H. destruct (fofZ_exact (Z.of_nat n)) as [V F]; [lia|]. split.
  - split; [exact F|]. change (real64 (fofZ (Z.of_nat n))) with (fB2R (fofZ (Z.of_nat n))). rewrite V, <- INR_IZR_INZ. apply near_refl, pos_INR.
  - destruct n as [|n]; [left; reflexivity|right]. rewrite INR_IZR_INZ. split; [apply Rle_trans with 1; [change 1 with (bpow radix2 0); apply bpow_le; lia|apply IZR_le; lia]|].
    change (bpow radix2 32) with (IZR (2 ^ 32)). apply IZR_le, H.
Qed.
Lemma near_span' k e x y : (Z.of_nat k <= 2 ^ 50)%Z -> near k x y -> span e x -> span (e + 1) y.
Proof.
  intros K N S. apply (near_span k e y x K); [|exact S]. pose proof (near_nonneg _ _ _ N). destruct N as (Z0 & A & B). split; [exact H|]. split; assumption.
Qed.
Lemma ap_half lm : ap 1 0 (nhalf (N:=F64 lm)) (/ 2).
Proof.
  split; [split; [vm_compute; reflexivity|]|right; split; [change (bpow radix2 (- (1))) with (/ 2); lra|change (bpow radix2 1) with 2; lra]].
  replace (real64 (nhalf (N:=F64 lm))) with (/ 2) by (vm_compute; lra). apply near_refl. lra.
Qed.

Lemma estimate_double lm same (wA wB : binary64) nA nB (dt M vol : binary64) M' n :
  num64 wA -> num64 wB -> 0 < real64 wA -> 0 < real64 wB -> (Z.of_nat nA <= 2 ^ 32)%Z -> (Z.of_nat nB <= 2 ^ 32)%Z ->
  num64 dt -> num64 vol -> 0 < real64 vol -> num64 M -> approx64 n M M' -> (Z.of_nat n <= 2 ^ 22)%Z ->
  approx64 (n + 8) (estimate (N:=F64 lm) same wA wB nA nB dt M vol) (ntc same (real64 wA) (real64 wB) nA nB (real64 dt) M' (real64 vol)).
Proof.
  intros HA HB PA PB LA LB Hdt Hvol Pvol HM AM Ln.
  assert (SM : ap 151 n M M') by (split; [exact AM|]; apply (near_span' n 150 (real64 M) M'); [lia|apply AM|apply HM]).
  pose proof (ap_mul _ _ _ _ _ _ _ _ (ap_num _ HA) (ap_num _ HB) ltac:(unfold few; lia) ltac:(unfold few; lia) ltac:(lia)) as S1.
  pose proof (ap_mul _ _ _ _ _ _ _ _ S1 (ap_size nA LA) ltac:(unfold few; lia) ltac:(unfold few; lia) ltac:(lia)) as S2.
  pose proof (ap_mul _ _ _ _ _ _ _ _ S2 (ap_size nB LB) ltac:(unfold few; lia) ltac:(unfold few; lia) ltac:(lia)) as S3.
  pose proof (ap_mul _ _ _ _ _ _ _ _ S3 (ap_num _ Hdt) ltac:(unfold few; lia) ltac:(unfold few; lia) ltac:(lia)) as S4.
  pose proof (ap_mul _ _ _ _ _ _ _ _ S4 SM ltac:(unfold few; lia) ltac:(unfold few; lia) ltac:(lia)) as S5.
  set (wm := if Bltb wB wA then wB else wA).
  assert (W : num64 wm /\ real64 wm = (if Rltb (real64 wB) (real64 wA) then real64 wB else real64 wA)).
  { unfold wm. rewrite Bltb_correct by (apply HA || apply HB). destruct (Rltb_spec (real64 wB) (real64 wA)) as [L|L]; [rewrite Rlt_bool_true by exact L; auto|rewrite Rlt_bool_false by (apply Rnot_lt_le; exact L); auto]. }
  destruct W as [HW EW]. pose proof (ap_mul _ _ _ _ _ _ _ _ (ap_num _ Hvol) (ap_num _ HW) ltac:(unfold few; lia) ltac:(unfold few; lia) ltac:(lia)) as S6.
  assert (PW : 0 < real64 wm) by (rewrite EW; destruct (Rltb _ _); assumption).
  assert (NZ : real64 vol * real64 wm <> 0) by (apply Rgt_not_eq, Rmult_lt_0_compat; assumption).
  pose proof (ap_div _ _ _ _ _ _ _ _ S5 S6 ltac:(unfold few; lia) ltac:(unfold few; lia) NZ ltac:(lia)) as S7.
  assert (EN : ntc same (real64 wA) (real64 wB) nA nB (real64 dt) M' (real64 vol) =
    (if same then real64 wA * real64 wB * INR nA * INR nB * real64 dt * M' / (real64 vol * real64 wm) * / 2 else real64 wA * real64 wB * INR nA * INR nB * real64 dt * M' / (real64 vol * real64 wm))).
  { unfold ntc. rewrite EW. destruct (Rltb_spec (real64 wB) (real64 wA)) as [L|L]; [rewrite Rmax_left by lra|rewrite Rmax_right by lra]; destruct same; field; split; lra. }
  rewrite EN. unfold estimate, nmin. change (@nltb (F64 lm)) with (@Bltb fprec femax). fold wm. destruct same.
  - pose proof (ap_mul _ _ _ _ _ _ _ _ S7 (ap_half lm) ltac:(unfold few; lia) ltac:(unfold few; lia) ltac:(lia)) as S8.
    destruct (ap_weak _ _ _ _ S8 1000 (n + 8) ltac:(lia) ltac:(lia)) as [S9 _]. exact S9.
  - destruct (ap_weak _ _ _ _ S7 1000 (n + 8) ltac:(lia) ltac:(lia)) as [S9 _]. exact S9.
Qed.

(** ** Promotion and counting *)
Lemma near_dist k X y : (Z.of_nat k <= 2 ^ 30)%Z -> near k X y -> Rabs (X - y) <= 2 * INR k * ueps * y.
Proof.
  intros Hk N. pose proof (near_nonneg _ _ _ N). pose proof (uqn_half k ltac:(lia)). pose proof (uqn_bernoulli k) as B. pose proof (uqn_pos k). destruct N as (P & L & U). pose proof ueps_pos. pose proof (pos_INR k). assert (0 <= INR k * ueps) by nra.
  set (a := INR k * ueps) in *. replace (2 * INR k * ueps * y) with (2 * (a * y)) by (unfold a; ring). set (w := uq ^ k) in *.
  assert (X2 : X <= 2 * y) by nra. assert (0 <= a * y) by nra. assert (y * (1 - a) <= y * w) by nra. assert (X * (1 - a) <= X * w) by nra. assert (a * X <= a * (2 * y)) by nra.
  apply Rabs_le. split; lra.
Qed.
Lemma promote_double lm (x draw : binary64) n t (y : R) :
  approx64 n x y -> (Z.of_nat n <= 2 ^ 22)%Z -> y <= 4503599627370496 -> is_finite draw = true -> 0 <= real64 draw <= 1 ->
  (forall i, (i < t)%nat -> (n1 <? dec (N:=F64 lm) (promote (N:=F64 lm) x draw) i)%num = true) ->
  (n1 <? dec (N:=F64 lm) (promote (N:=F64 lm) x draw) t)%num = false ->
  let e := INR (2 * n + 4) * bpow radix2 (-53) * (y + 1) in
  y - 1 - e <= INR t <= y - real64 draw + 1 + e /\ ((forall z, e < Rabs (y - IZR z)) -> y - real64 draw - e <= INR t).
Proof.
  intros [Fx Nx] Ln Ly Fd Hd H1 H2. pose proof (near_dist n _ _ ltac:(lia) Nx) as D. pose proof (near_nonneg _ _ _ Nx) as Px. pose proof (proj1 Nx) as Py.
  change (real64 x) with (fB2R x) in *. change (real64 draw) with (fB2R draw) in *. set (X := fB2R x) in *. set (u := fB2R draw) in *.
  assert (Ue : ueps = / 9007199254740992) by (rewrite ueps_val; lra). change (bpow radix2 (-53)) with ueps. pose proof ueps_pos.
  assert (Hk : 0 <= INR n <= 4194304). { split; [apply pos_INR|]. rewrite INR_IZR_INZ. apply IZR_le. exact Ln. }
  rewrite plus_INR, mult_INR. replace (INR 2) with 2 by (cbn; lra). replace (INR 4) with 4 by (cbn; lra).
  set (e := (2 * INR n + 4) * ueps * (y + 1)). cbv zeta.
  assert (Dx : Rabs (X - y) <= (2 * INR n) * ueps * y) by exact D. clear D. apply Rabs_le_inv in Dx.
  assert (Sm : (2 * INR n + 4) * ueps <= / 1000) by (rewrite Ue; lra). 
  assert (Pk : 0 <= (2 * INR n) * ueps) by nra.
  assert (X1 : X <= y + y * / 1000) by nra.
  assert (D2 : - (e - 4 * ueps * (y + 1)) <= X - y <= e - 4 * ueps * (y + 1)) by (unfold e; split; nra).
  assert (XU : ueps * (X + 1) <= 2 * ueps * (y + 1)) by nra.
  destruct (ffloor_ok x Fx) as [Vf Ff]. fold X in Vf. pose proof (Zfloor_lb X) as Fl. pose proof (Zfloor_ub X) as Fu. assert (F0 : (0 <= Zfloor X)%Z) by (apply Zfloor_lub; exact Px). apply IZR_le in F0 as F0'.
  assert (B1 : 1 <= bpow radix2 1000) by (change 1 with (bpow radix2 0); apply bpow_le; lia).
  destruct (fsub_err x (ffloor x) Fx Ff) as [Fr Er]; [rewrite Vf; fold X; rewrite Rabs_pos_eq by lra; lra|]. rewrite Vf in Er. fold X in Er. rewrite (Rabs_pos_eq (X - IZR (Zfloor X))) in Er by lra.
  apply Rabs_le_inv in Er. set (f := fB2R (fsub x (ffloor x))) in *. assert (Ef : - ueps <= f - (X - IZR (Zfloor X)) <= ueps) by nra.
  unfold promote in H1, H2. change (@nltb (F64 lm) draw) with (@Bltb fprec femax draw) in H1, H2. change (@nsub (F64 lm) x (@nfloor (F64 lm) x)) with (fsub x (ffloor x)) in H1, H2. rewrite Bltb_correct in H1, H2 by assumption. fold u f in H1, H2.
  assert (Big : bpow radix2 53 <= bpow radix2 1000) by (apply bpow_le; lia). change (bpow radix2 53) with 9007199254740992 in Big.
  destruct (Rlt_bool_spec u f) as [L|L].
  - change (@nadd (F64 lm) x (@n1 (F64 lm))) with (fadd x (fofZ 1)) in H1, H2. destruct (fofZ_exact 1) as [V1 F1]; [cbn; lia|].
    assert (XB : Rabs (fB2R x + fB2R (fofZ 1)) <= bpow radix2 1000) by (rewrite V1; fold X; rewrite Rabs_pos_eq by lra; lra).
    destruct (fadd_err x (fofZ 1) Fx F1 XB) as [F2 E2]. destruct (fadd_ok x (fofZ 1) Fx F1 (rnd_fits _ XB)) as [V2 _]. rewrite V1 in E2, V2. fold X in E2, V2. rewrite (Rabs_pos_eq (X + 1)) in E2 by lra. apply Rabs_le_inv in E2.
    set (x2 := fadd x (fofZ 1)) in *. 
    assert (Up : fB2R x2 <= IZR (Zfloor X + 2)).
    { rewrite V2. rewrite <- (round_generic radix2 ffexp ZnearestE (IZR (Zfloor X + 2))). { apply round_le; [typeclasses eauto..|]. rewrite plus_IZR. lra. }
      apply fformat_int. assert (IZR (Zfloor X) <= 4600000000000000) by lra. apply le_IZR in H0. lia. }
    assert (C : Z.of_nat t = Z.max 0 (Zceil (fB2R x2) - 1)) by (apply (count_F (lm:=lm) x2 t); [exact F2|rewrite plus_IZR in Up; lra|exact H1|exact H2]).
    assert (Zc : (Zceil (fB2R x2) <= Zfloor X + 2)%Z) by (apply Zceil_glb; exact Up). pose proof (Zceil_ub (fB2R x2)) as Zu.
    assert (T1 : INR t <= IZR (Zfloor X) + 1). { rewrite INR_IZR_INZ. change 1 with (IZR 1). rewrite <- plus_IZR. apply IZR_le. lia. }
    assert (T2 : fB2R x2 - 1 <= INR t). { rewrite INR_IZR_INZ. apply Rle_trans with (IZR (Zceil (fB2R x2) - 1)); [rewrite minus_IZR; lra|apply IZR_le; lia]. }
    assert (0 <= ueps * y) by nra.
    split; [split; lra|intros _; lra].
  - assert (C : Z.of_nat t = Z.max 0 (Zceil (fB2R x) - 1)) by (apply (count_F (lm:=lm) x t); [exact Fx|fold X; lra|exact H1|exact H2]). fold X in C. assert (0 <= ueps * y) by nra.
    destruct (Req_dec (IZR (Zfloor X)) X) as [I|I].
    + rewrite <- I, Zceil_IZR in C. assert (T1 : INR t <= X). { rewrite <- I, INR_IZR_INZ. apply IZR_le. lia. } assert (T2 : X - 1 <= INR t). { rewrite <- I, INR_IZR_INZ. change 1 with (IZR 1). rewrite <- minus_IZR. apply IZR_le. lia. }
      split; [split; lra|]. intros Hz. specialize (Hz (Zfloor X)). rewrite I in Hz. exfalso. apply (Rlt_not_le _ _ Hz). apply Rabs_le. lra.
    + rewrite (Zceil_floor_neq X I) in C. assert (T : INR t = IZR (Zfloor X)). { rewrite INR_IZR_INZ. f_equal. lia. }
      split; [split; lra|]. intros _. lra.
Qed.

Lemma tests_double lm (K : F64 lm) (K' : R) m fuel inplace (dt : F64 lm) (c : cell (F64 lm)) nprops db (db' : nat -> nat -> list (equation RNum)) res er g k s :
  (Z.of_nat m <= 2 ^ 20)%Z -> frng_ok g -> bounded (2 ^ 32) (c_ranges c) -> (inplace = true -> disjoint (c_ranges c)) ->
  (forall A B, List.Forall (fun e => appends (q_model e)) (db A B)) ->
  List.Forall (fun p : particle (F64 lm) => num64 (p_weight p) /\ 0 < real64 (p_weight p)) (c_mem c) -> num64 (c_volume c) -> 0 < real64 (c_volume c) -> num64 dt ->
  driver K fuel inplace dt c nprops db res er g k = Ok s ->
  forall l1 A B l2, species_pairs (Nat.min (length (c_ranges c)) nprops) = l1 ++ (A, B) :: l2 -> db A B <> [] -> enough A B (s_ranges s) ->
  Forall2 (pair_xs K K' m) (db A B) (db' A B) -> (Z.of_nat (length (db A B)) <= 2 ^ 20)%Z -> num64 (c_maxv c A B) -> 0 < real64 (c_maxv c A B) ->
  exists ra rb pa pb M M', nth_error (c_ranges c) A = Some ra /\ nth_error (c_ranges c) B = Some rb /\
    nth_error (c_mem c) (fst ra) = Some pa /\ nth_error (c_mem c) (fst rb) = Some pb /\
    findMaxSigmaVProduct K (db A B) (c_maxv c A B) = Ok M /\ findMaxSigmaVProduct (N:=RNum) K' (db' A B) (real64 (c_maxv c A B)) = Ok M' /\
    let y := ntc (Nat.eqb A B) (real64 (p_weight pa)) (real64 (p_weight pb)) (rsize ra) (rsize rb) (real64 dt) M' (real64 (c_volume c)) in
    let u := real64 (g_rand g (k + length (filter (has_eqs db) l1))) in
    let e := INR (2 * length (db A B) + 2 * m + 22) * bpow radix2 (-53) * (y + 1) in
    num64 M -> y <= bpow radix2 52 ->
    y - 1 - e <= INR (tested A B s) <= y - u + 1 + e /\
    ((forall z, e < Rabs (y - IZR z)) -> y - u - e <= INR (tested A B s)).
Proof.
  intros Lm Hg Hb Hd Happ Hw Nv Pv Nd H l1 A B l2 Esp Hne Hen Hx Ln Nm Pm.
  destruct (driver_ok K _ _ _ _ _ _ _ _ _ _ _ _ (fpos_ok g Hg) Hb Hd Happ H) as (_ & _ & _ & Hc).
  destruct (Hc l1 A B l2 Esp Hne Hen) as (ra & rb & pa & pb & M & EA & EB & Epa & Epb & Em & H1 & H2).
  destruct (set_max_double K K' m Lm _ _ _ M Hx Nm Pm Ln Em) as (M' & Em' & [AM _]).
  exists ra, rb, pa, pb, M, M'. do 6 (split; [assumption|]). intros y u e NM Ly.
  rewrite Forall_forall in Hw. destruct (Hw _ (nth_error_In _ _ Epa)) as [NA PA]. destruct (Hw _ (nth_error_In _ _ Epb)) as [NB PB].
  assert (Bd : forall r A0, nth_error (c_ranges c) A0 = Some r -> (Z.of_nat (rsize r) <= 2 ^ 32)%Z). { intros r A0 E. apply nth_error_In in E. unfold bounded in Hb. rewrite Forall_forall in Hb. specialize (Hb _ E). lia. }
  pose proof (estimate_double lm (Nat.eqb A B) (p_weight pa) (p_weight pb) (rsize ra) (rsize rb) dt M (c_volume c) M' (m + 1 + length (db A B)) NA NB PA PB (Bd _ _ EA) (Bd _ _ EB) Nd Nv Pv NM AM ltac:(lia)) as AE.
  destruct (unit_draw g (k + length (filter (has_eqs db) l1)) Hg) as [Fd Du].
  pose proof (promote_double lm _ _ (m + 1 + length (db A B) + 8) (tested A B s) y AE ltac:(lia) Ly Fd Du H1 H2) as Q. cbv zeta in Q.
  replace (2 * (m + 1 + length (db A B) + 8) + 4)%nat with (2 * length (db A B) + 2 * m + 22)%nat in Q by lia. exact Q.
Qed.
