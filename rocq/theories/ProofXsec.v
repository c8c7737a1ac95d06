(** Lemmas on the analytic cross sections (C18-C21, C26-C28). *)
From Coq Require Import Reals Lra Lia String List ZArith Bool.
From Coquelicot Require Import Coquelicot.
From Verif Require Import Base Num ModelCollide ModelXsec SpecXsec ProofCollide.
Import ListNotations.
Local Open Scope R_scope.

Ltac unX := unR; change (@nlog10 RNum) with (fun x => ln x / ln 10) in *; cbv beta in *;
  change (@ndblmin RNum) with (Raux.bpow Zaux.radix2 (-1022)) in *;
  change (@nquarter RNum) with (1/4) in *; unfold sqr in *; unR.

(** ** Threshold speed *)
Lemma thr_v mu E v : 0 < mu -> 0 <= E -> 0 <= v ->
  (R_sqrt.sqrt (E / (1 / 2 * mu)) <= v <-> E <= mu * v ^ 2 / 2).
Proof.
  intros Hm HE Hv.
  assert (H0 : 0 <= E / (1 / 2 * mu)) by (apply Rdiv_le_0_compat; lra).
  assert (Hx : E / (1 / 2 * mu) = 2 * E / mu) by (field; lra).
  split; intros H.
  - assert (Hp := sqrt_pos (E / (1 / 2 * mu))).
    assert (H' := pow_incr _ _ 2 (conj Hp H)). clear H; rename H' into H.
    rewrite pow2_sqrt in H by assumption. rewrite Hx in H.
    apply (Rmult_le_compat_l (mu / 2)) in H; [|lra].
    replace (mu / 2 * (2 * E / mu)) with E in H by (field; lra). lra.
  - rewrite <- (sqrt_pow2 v Hv). apply sqrt_le_1_alt. rewrite Hx.
    apply Rmult_le_reg_l with (mu / 2); [lra|].
    replace (mu / 2 * (2 * E / mu)) with E by (field; lra). lra.
Qed.

Lemma load_thr mu t : loadThreshold (N:=RNum) t mu 0 = declared_threshold mu t.
Proof. destruct t as [[e|w]|]; cbn; unfold nhalf, n1, n2; cbn; try reflexivity. unfold ndiv; cbn. field. Qed.

Lemma set_thr_ok mu E : 0 <= E ->
  setThresholdEnergy (N:=RNum) E mu = Ok (E, R_sqrt.sqrt (E / (1 / 2 * rm_value mu))).
Proof. intros H. unfold setThresholdEnergy. unR. destruct (Rltb_spec E 0); [lra|reflexivity]. Qed.
Lemma set_thr_neg mu E : E < 0 -> setThresholdEnergy (N:=RNum) E mu = Throw ExnRuntime.
Proof. intros H. unfold setThresholdEnergy. unR. destruct (Rltb_spec E 0); [reflexivity|lra]. Qed.

Section Load.
Variables (K : R) (fuel : nat) (allowed : bool) (inf ninf : R) (tol : R -> R -> bool)
  (solve : (R -> R) -> R -> R -> R * R).
Notation load := (xs_load (N:=RNum) fuel allowed inf ninf tol solve).

(** C18 *)
Lemma constant_spec (mu : reducedMass RNum) (value : R) t : 0 < rm_value mu ->
  let E := declared_threshold mu t in
  (E < 0 -> load mu (DConstant value t) = Throw ExnRuntime) /\
  (0 <= E -> exists c, load mu (DConstant value t) = Ok c /\
     getThresholdEnergy c = Ok E /\
     (forall v, 0 <= v -> E <= rm_value mu * v ^ 2 / 2 -> sigma_is K c v value) /\
     (forall v, 0 <= v -> rm_value mu * v ^ 2 / 2 < E -> sigma_is K c v 0) /\
     (0 <= value -> forall V, 0 <= V -> exists M vm,
        findMaxSigmaV (N:=RNum) K c V = Ok (M, vm) /\ sv_bound K c V M /\
        0 <= vm <= V /\ exists s, sigma_is K c vm s /\ vm * s = M)).
Proof.
  intros Hmu E. unfold xs_load. change (@n0 RNum) with 0. rewrite load_thr. fold E. split.
  - intros H. rewrite set_thr_neg by assumption. reflexivity.
  - intros H. rewrite set_thr_ok by assumption. cbn [obind].
    set (w := R_sqrt.sqrt (E / (1 / 2 * rm_value mu))).
    assert (Hw0 : 0 <= w) by apply sqrt_pos.
    eexists; split; [reflexivity|]. split; [reflexivity|].
    split; [|split].
    + intros v Hv Hle. apply thr_v in Hle; [|assumption..]. fold w in Hle.
      unfold sigma_is; cbn. unR. destruct (Rleb_spec w v); [reflexivity|lra].
    + intros v Hv Hlt. unfold sigma_is; cbn; unR. destruct (Rleb_spec w v) as [Hc|]; [|reflexivity].
      apply thr_v in Hc; [lra|assumption..].
    + intros Hval V HV. unfold sv_bound, sigma_is; cbn; unR.
      destruct (Rleb_spec w V).
      * exists (value * V), V. split; [reflexivity|]. split; [|split; [lra|]].
        { intros v Hv. eexists; split; [reflexivity|]. destruct (Rleb_spec w v); [|nra].
          rewrite Rmult_comm. apply Rmult_le_compat_l; lra. }
        exists value. split; [|ring]. destruct (Rleb_spec w V); [reflexivity|lra].
      * exists 0, 0. split; [reflexivity|]. split; [|split; [lra|]].
        { intros v Hv. eexists; split; [reflexivity|]. destruct (Rleb_spec w v); lra. }
        eexists; split; [reflexivity|]. ring.
Qed.

(** C19 *)
Lemma inverse_spec (mu : reducedMass RNum) (vref : R) t : 0 < rm_value mu ->
  let E := declared_threshold mu t in
  (E < 0 -> load mu (DInverse vref t) = Throw ExnRuntime) /\
  (0 <= E -> exists c, load mu (DInverse vref t) = Ok c /\
     getThresholdEnergy c = Ok E /\
     (forall v, 0 < v -> E <= rm_value mu * v ^ 2 / 2 -> exists s, sigma_is K c v s /\ v * s = vref) /\
     (forall v, 0 <= v -> rm_value mu * v ^ 2 / 2 < E -> sigma_is K c v 0) /\
     (0 <= vref -> forall V, 0 < V -> exists M vm,
        findMaxSigmaV (N:=RNum) K c V = Ok (M, vm) /\ sv_bound K c V M /\
        0 <= vm <= V /\ (exists s, sigma_is K c V s /\ V * s = M) /\
        (0 < E -> exists s, sigma_is K c vm s /\ vm * s = M))).
Proof.
  intros Hmu E. unfold xs_load. change (@n0 RNum) with 0. rewrite load_thr. fold E. split.
  - intros H. rewrite set_thr_neg by assumption. reflexivity.
  - intros H. rewrite set_thr_ok by assumption. cbn [obind].
    set (w := R_sqrt.sqrt (E / (1 / 2 * rm_value mu))).
    assert (Hw0 : 0 <= w) by apply sqrt_pos.
    eexists; split; [reflexivity|]. split; [reflexivity|].
    split; [|split].
    + intros v Hv Hle. apply thr_v in Hle; [|lra..]. fold w in Hle.
      unfold sigma_is; cbn. unR. destruct (Rltb_spec v w); [lra|].
      eexists; split; [reflexivity|]. field; lra.
    + intros v Hv Hlt. unfold sigma_is; cbn; unR. destruct (Rltb_spec v w) as [Hc|Hc]; [reflexivity|].
      apply Rnot_lt_le, thr_v in Hc; [lra|assumption..].
    + intros Hval V HV. unfold sv_bound, sigma_is; cbn; unR.
      destruct (Rleb_spec w V).
      * exists vref, w. split; [reflexivity|]. split; [|split; [lra|split]].
        { intros v Hv. eexists; split; [reflexivity|]. destruct (Rltb_spec v w); [nra|].
          right; field; lra. }
        { eexists; split; [reflexivity|]. destruct (Rltb_spec V w); [lra|]. field; lra. }
        intros HE. eexists; split; [reflexivity|]. destruct (Rltb_spec w w); [lra|]. 
        assert (0 < w). { apply sqrt_lt_R0. apply Rdiv_lt_0_compat; lra. } field; lra.
      * exists 0, 0. split; [reflexivity|]. split; [|split; [lra|split]].
        { intros v Hv. eexists; split; [reflexivity|]. destruct (Rltb_spec v w); lra. }
        { eexists; split; [reflexivity|]. destruct (Rltb_spec V w); [ring|lra]. }
        intros _. eexists; split; [reflexivity|]. ring.
Qed.
End Load.

(** ** Monotonicity from the sign of the derivative *)
Lemma incr_of_deriv (f f' : R -> R) a b :
  (forall x, a <= x <= b -> is_derive f x (f' x)) -> (forall x, a < x < b -> 0 <= f' x) ->
  a <= b -> f a <= f b.
Proof.
  intros Hd Hp Hab. destruct (Req_dec a b) as [->|Hn]; [lra|].
  destruct (MVT_cor2 f f' a b) as (c & E & Hc); [lra| |].
  - intros c Hc. apply is_derive_Reals, Hd; assumption.
  - specialize (Hp c Hc). nra.
Qed.
Lemma decr_of_deriv (f f' : R -> R) a b :
  (forall x, a <= x <= b -> is_derive f x (f' x)) -> (forall x, a < x < b -> f' x < 0) ->
  a < b -> f b < f a.
Proof.
  intros Hd Hp Hab.
  destruct (MVT_cor2 f f' a b) as (c & E & Hc); [lra| |].
  - intros c Hc. apply is_derive_Reals, Hd; assumption.
  - specialize (Hp c Hc). nra.
Qed.

(** ** C21: logarithmic fit *)
Lemma ln10_pos : 0 < ln 10.
Proof. rewrite <- ln_1. apply ln_increasing; lra. Qed.

Lemma log_deriv A B v : 0 < v ->
  is_derive (fun v => v * (A - B * (ln v / ln 10))) v (A - B * (ln v / ln 10 + 1 / ln 10)).
Proof.
  intros Hv. pose proof ln10_pos. auto_derive; [assumption|]. field. lra.
Qed.

Section Load2.
Variables (K : R) (fuel : nat) (allowed : bool) (inf ninf : R) (tol : R -> R -> bool)
  (solve : (R -> R) -> R -> R -> R * R).
Notation load := (xs_load (N:=RNum) fuel allowed inf ninf tol solve).

Lemma log_spec (mu : reducedMass RNum) (A B : R) t : 0 < rm_value mu ->
  let E := declared_threshold mu t in
  (E < 0 -> load mu (DLog A B t) = Throw ExnRuntime) /\
  (0 <= E -> exists c, load mu (DLog A B t) = Ok c /\
     getThresholdEnergy c = Ok E /\
     (forall v, 0 < v -> E <= rm_value mu * v ^ 2 / 2 -> sigma_is K c v (A - B * (ln v / ln 10))) /\
     (forall v, 0 <= v -> rm_value mu * v ^ 2 / 2 < E -> sigma_is K c v 0) /\
     (0 < B ->
       (forall V, 0 < V -> ln V / ln 10 + 1 / ln 10 <= A / B -> exists M vm,
          findMaxSigmaV (N:=RNum) K c V = Ok (M, vm) /\ sv_bound K c V M) /\
       (forall v V, 0 < v < V -> E <= rm_value mu * v ^ 2 / 2 -> A / B <= ln v / ln 10 + 1 / ln 10 ->
          exists M vm s, findMaxSigmaV (N:=RNum) K c V = Ok (M, vm) /\ sigma_is K c v s /\ M < v * s) /\
       (exists v V, 0 < v < V /\ exists M vm s,
          findMaxSigmaV (N:=RNum) K c V = Ok (M, vm) /\ sigma_is K c v s /\ M < v * s) /\
       (forall v, 0 < v -> E <= rm_value mu * v ^ 2 / 2 -> A / B < ln v / ln 10 ->
          exists s, sigma_is K c v s /\ s < 0))).
Proof.
  intros Hmu E. unfold xs_load. change (@n0 RNum) with 0. rewrite load_thr. fold E. split.
  - intros H. rewrite set_thr_neg by assumption. reflexivity.
  - intros H. rewrite set_thr_ok by assumption. cbn [obind].
    set (w := R_sqrt.sqrt (E / (1 / 2 * rm_value mu))).
    assert (Hw0 : 0 <= w) by apply sqrt_pos. pose proof ln10_pos as H10.
    set (c := XLog (N:=RNum) A B E w).
    assert (Hs : forall v, w <= v -> sigma_is K c v (A - B * (ln v / ln 10))).
    { intros v Hv. unfold sigma_is, c; cbn; unR. destruct (Rltb_spec v w); [lra|]. reflexivity. }
    assert (Hs0 : forall v, v < w -> sigma_is K c v 0).
    { intros v Hv. unfold sigma_is, c; cbn; unR. destruct (Rltb_spec v w); [|lra]. reflexivity. }
    assert (HM : forall V, w <= V -> findMaxSigmaV (N:=RNum) K c V = Ok ((A - B * (ln V / ln 10)) * V, V)).
    { intros V HV. unfold findMaxSigmaV. rewrite (Hs V HV). cbn; unR. destruct (Rleb_spec w V); [reflexivity|lra]. }
    exists c; split; [reflexivity|]. split; [reflexivity|].
    split; [|split].
    + intros v Hv Hle. apply thr_v in Hle; [|lra..]. auto.
    + intros v Hv Hlt. apply Hs0. apply Rnot_le_lt. intros Hc. apply thr_v in Hc; [lra|assumption..].
    + intros HB.
      assert (Hdec : forall v V, 0 < v < V -> w <= v -> A / B <= ln v / ln 10 + 1 / ln 10 ->
          exists M vm s, findMaxSigmaV (N:=RNum) K c V = Ok (M, vm) /\ sigma_is K c v s /\ M < v * s).
      { intros v V Hv Hle Hst. do 3 eexists. split; [apply HM; lra|]. split; [apply Hs; assumption|].
        rewrite Rmult_comm. apply (decr_of_deriv (fun v => v * (A - B * (ln v / ln 10))) (fun v => A - B * (ln v / ln 10 + 1 / ln 10))).
        - intros x Hx. apply log_deriv; lra.
        - intros x Hx. assert (ln v < ln x) by (apply ln_increasing; lra).
          apply (Rmult_le_compat_l B) in Hst; [|lra]. replace (B * (A / B)) with A in Hst by (field; lra).
          assert (ln v / ln 10 < ln x / ln 10) by (apply Rmult_lt_compat_r; [apply Rinv_0_lt_compat|]; lra).
          nra.
        - lra. }
      split; [|split; [|split]].
      * intros V HV Hst.
        apply (Rmult_le_compat_l B) in Hst; [|lra]. replace (B * (A / B)) with A in Hst by (field; lra).
        assert (Hi : 0 < 1 / ln 10) by (apply Rdiv_lt_0_compat; lra).
        destruct (Rle_lt_dec w V) as [HwV|HwV].
        -- do 2 eexists; split; [apply HM; assumption|].
           intros v Hv. destruct (Rle_lt_dec w v).
           ++ eexists; split; [apply Hs; assumption|]. rewrite (Rmult_comm _ V).
              apply (incr_of_deriv (fun v => v * (A - B * (ln v / ln 10))) (fun v => A - B * (ln v / ln 10 + 1 / ln 10))).
              ** intros x Hx. apply log_deriv; lra.
              ** intros x Hx. assert (ln x < ln V) by (apply ln_increasing; lra).
                 assert (ln x / ln 10 < ln V / ln 10) by (apply Rmult_lt_compat_r; [apply Rinv_0_lt_compat|]; lra).
                 nra.
              ** lra.
           ++ exists 0. split; [apply Hs0; assumption|]. rewrite Rmult_0_r. apply Rmult_le_pos; [nra|lra].
        -- exists 0, 0. split.
           ++ unfold findMaxSigmaV, c; unR. destruct (Rleb_spec w V); [lra|reflexivity].
           ++ intros v Hv. exists 0. split; [apply Hs0; lra|lra].
      * intros v V Hv Hle Hst. apply Hdec; [assumption| |assumption]. apply thr_v in Hle; [exact Hle|lra..].
      * set (v0 := Rmax (w + 1) (exp (ln 10 * (A / B)))).
        assert (Hv0 : w + 1 <= v0) by apply Rmax_l.
        assert (Hv1 : exp (ln 10 * (A / B)) <= v0) by apply Rmax_r.
        exists v0, (v0 + 1). split; [lra|]. apply Hdec; [lra|lra|].
        assert (ln (exp (ln 10 * (A / B))) <= ln v0).
        { destruct Hv1 as [Hv1| <-]; [left; apply ln_increasing; [apply exp_pos|assumption]|right; reflexivity]. }
        rewrite ln_exp in *. assert (0 < 1 / ln 10) by (apply Rdiv_lt_0_compat; lra).
        apply (Rmult_le_compat_r (/ ln 10)) in H0; [|left; apply Rinv_0_lt_compat; lra].
        replace (ln 10 * (A / B) * / ln 10) with (A / B) in H0 by (field; lra). unfold Rdiv at 2. lra.
      * intros v Hv Hle Hst. apply thr_v in Hle; [|lra..]. eexists; split; [apply Hs; exact Hle|].
        apply (Rmult_lt_compat_l B) in Hst; [|lra]. replace (B * (A / B)) with A in Hst by (field; lra). lra.
Qed.

(** ** C20: variable hard sphere *)
Definition dmin : R := Raux.bpow Zaux.radix2 (-1022).
Lemma dmin_pos : 0 < dmin. Proof. apply Raux.bpow_gt_0. Qed.

Lemma vhs_deriv k m p v : 0 < k -> 0 < m ->
  is_derive (fun v => v * Rpower (k / (m * (v * v) + dmin)) p) v
    (Rpower (k / (m * (v * v) + dmin)) p * ((m * (v * v) * (1 - 2 * p) + dmin) / (m * (v * v) + dmin))).
Proof.
  intros Hk Hm. pose proof dmin_pos as Hd. assert (0 < m * (v * v) + dmin) by nra.
  unfold Rpower. auto_derive.
  - split; [lra|]. split; [|exact I]. apply Rdiv_lt_0_compat; lra.
  - unfold Rdiv. set (e := exp _). field. split; lra.
Qed.

Lemma vhs_spec (mu : reducedMass RNum) (i : vhsInfo RNum) t :
  0 < rm_value mu -> 0 < K -> 0 < vhs_Tref i -> 0 < vhs_cs i -> 0 < vhs_ginv i ->
  let E := declared_threshold mu t in
  (E < 0 -> load mu (DVHS i t) = Throw ExnRuntime) /\
  (0 <= E -> exists c, load mu (DVHS i t) = Ok c /\
     getThresholdEnergy c = Ok E /\
     (forall v, 0 <= v -> E <= rm_value mu * v ^ 2 / 2 -> exists s, sigma_is K c v s /\ 0 < s) /\
     (forall v, 0 <= v -> rm_value mu * v ^ 2 / 2 < E -> sigma_is K c v 0) /\
     (vhs_visc i <= 1 -> forall V, 0 <= V -> exists M vm,
         findMaxSigmaV (N:=RNum) K c V = Ok (M, vm) /\ sv_bound K c V M /\
         0 <= vm <= V /\ exists s, sigma_is K c vm s /\ vm * s = M) /\
     (1 < vhs_visc i -> exists v0, 0 < v0 /\ forall v V, v0 <= v < V -> exists M vm s,
         findMaxSigmaV (N:=RNum) K c V = Ok (M, vm) /\ sigma_is K c v s /\ M < v * s)).
Proof.
  intros Hmu HK HT Hcs Hg E. unfold xs_load. change (@n0 RNum) with 0. rewrite load_thr. fold E. split.
  - intros H. rewrite set_thr_neg by assumption. reflexivity.
  - intros H. rewrite set_thr_ok by assumption. cbn [obind].
    set (w := R_sqrt.sqrt (E / (1 / 2 * rm_value mu))).
    assert (Hw0 : 0 <= w) by apply sqrt_pos.
    set (c := XVHS (N:=RNum) i mu E w).
    set (m := rm_value mu) in *. set (k := 2 * K * vhs_Tref i). set (p := vhs_visc i - 1 / 2).
    assert (Hk : 0 < k) by (unfold k; apply Rmult_lt_0_compat; lra).
    pose proof dmin_pos as Hd.
    set (P := fun v => Rpower (k / (m * (v * v) + dmin)) p).
    assert (HP : forall v, 0 < P v) by (intros; apply exp_pos).
    assert (Hs : forall v, w <= v -> sigma_is K c v (vhs_cs i * P v * vhs_ginv i)).
    { intros v Hv. unfold sigma_is, c; cbn [sigma]; unfold vhs_sigma; unX.
      destruct (Rltb_spec v w); [lra|]. fold dmin m k p. unfold Rpow.
      assert (0 < k / (m * (v * v) + dmin)) by (apply Rdiv_lt_0_compat; [assumption|nra]).
      destruct (Req_EM_T _ 0) as [e|_]; [lra|]. reflexivity. }
    assert (Hs0 : forall v, v < w -> sigma_is K c v 0).
    { intros v Hv. unfold sigma_is, c; cbn [sigma]; unR. destruct (Rltb_spec v w); [|lra]. reflexivity. }
    assert (HM : forall V, w <= V -> findMaxSigmaV (N:=RNum) K c V = Ok (vhs_cs i * P V * vhs_ginv i * V, V)).
    { intros V HV. unfold findMaxSigmaV. rewrite (Hs V HV). cbn; unR. destruct (Rleb_spec w V); [reflexivity|lra]. }
    assert (Hcg : 0 < vhs_cs i * vhs_ginv i) by (apply Rmult_lt_0_compat; assumption).
    exists c; split; [reflexivity|]. split; [reflexivity|].
    split; [|split; [|split]].
    + intros v Hv Hle. apply thr_v in Hle; [|lra..]. eexists; split; [apply Hs; exact Hle|].
      specialize (HP v). apply Rmult_lt_0_compat; [|assumption]. apply Rmult_lt_0_compat; assumption.
    + intros v Hv Hlt. apply Hs0. apply Rnot_le_lt. intros Hc. apply thr_v in Hc; [lra|assumption..].
    + intros Hvisc V HV. destruct (Rle_lt_dec w V) as [HwV|HwV].
      * do 2 eexists; split; [apply HM; assumption|]. split; [|split; [lra|]].
        -- intros v Hv.
           assert (Hm : v * P v <= V * P V).
           { apply (incr_of_deriv (fun v => v * P v) (fun v => P v * ((m * (v * v) * (1 - 2 * p) + dmin) / (m * (v * v) + dmin)))).
             - intros x Hx. apply vhs_deriv; assumption.
             - intros x Hx. apply Rmult_le_pos; [left; apply HP|]. apply Rdiv_le_0_compat; [|nra].
               assert (0 <= 1 - 2 * p) by (unfold p; lra). assert (0 <= m * (x * x)) by nra. nra.
             - lra. }
           destruct (Rle_lt_dec w v).
           ++ eexists; split; [apply Hs; assumption|].
              replace (v * (vhs_cs i * P v * vhs_ginv i)) with (vhs_cs i * vhs_ginv i * (v * P v)) by ring.
              replace (vhs_cs i * P V * vhs_ginv i * V) with (vhs_cs i * vhs_ginv i * (V * P V)) by ring.
              apply Rmult_le_compat_l; lra.
           ++ exists 0. split; [apply Hs0; assumption|].
              replace (vhs_cs i * P V * vhs_ginv i * V) with (vhs_cs i * vhs_ginv i * (V * P V)) by ring.
              specialize (HP V). rewrite Rmult_0_r. repeat apply Rmult_le_pos; lra.
        -- eexists; split; [apply Hs; assumption|]. ring.
      * exists 0, 0. split; [|split; [|split; [lra|]]].
        -- unfold findMaxSigmaV, c; unR. destruct (Rleb_spec w V); [lra|reflexivity].
        -- intros v Hv. exists 0. split; [apply Hs0; lra|lra].
        -- exists 0. split; [apply Hs0; lra|ring].
    + intros Hvisc. assert (Hp : 0 < 2 * p - 1) by (unfold p; lra).
      set (v0 := R_sqrt.sqrt (dmin / (m * (2 * p - 1)))).
      exists (Rmax 1 (Rmax w v0)). split; [pose proof (Rmax_l 1 (Rmax w v0)); lra|].
      intros v V Hv.
      pose proof (Rmax_r 1 (Rmax w v0)). pose proof (Rmax_l 1 (Rmax w v0)).
      pose proof (Rmax_l w v0). pose proof (Rmax_r w v0).
      do 3 eexists. split; [apply HM; lra|]. split; [apply Hs; lra|].
      replace (v * (vhs_cs i * P v * vhs_ginv i)) with (vhs_cs i * vhs_ginv i * (v * P v)) by ring.
      replace (vhs_cs i * P V * vhs_ginv i * V) with (vhs_cs i * vhs_ginv i * (V * P V)) by ring.
      apply Rmult_lt_compat_l; [assumption|].
      apply (decr_of_deriv (fun v => v * P v) (fun v => P v * ((m * (v * v) * (1 - 2 * p) + dmin) / (m * (v * v) + dmin)))).
      * intros x Hx. apply vhs_deriv; assumption.
      * intros x Hx.
        assert (Hq : dmin / (m * (2 * p - 1)) < x * x).
        { assert (0 < m * (2 * p - 1)) by (apply Rmult_lt_0_compat; lra).
          assert (0 <= dmin / (m * (2 * p - 1))) by (apply Rdiv_le_0_compat; lra).
          rewrite <- (sqrt_sqrt (dmin / (m * (2 * p - 1)))) by assumption. fold v0.
          assert (0 <= v0) by apply sqrt_pos. nra. }
        assert (Hneg : m * (x * x) * (1 - 2 * p) + dmin < 0).
        { apply (Rmult_lt_compat_l (m * (2 * p - 1))) in Hq; [|apply Rmult_lt_0_compat; lra].
          replace (m * (2 * p - 1) * (dmin / (m * (2 * p - 1)))) with dmin in Hq by (field; split; lra). lra. }
        assert (0 < m * (x * x) + dmin) by nra. specialize (HP x).
        assert ((m * (x * x) * (1 - 2 * p) + dmin) / (m * (x * x) + dmin) < 0).
        { unfold Rdiv. assert (0 < / (m * (x * x) + dmin)) by (apply Rinv_0_lt_compat; assumption). nra. }
        nra.
      * lra.
Qed.
End Load2.

(** ** C28: averaged cross sections *)
Lemma mean_facts (s0 s1 : R) : 0 <= s0 -> 0 <= s1 ->
  let m := mean_sigma (N:=RNum) s0 s1 in
  m = sphere ((diameter s0 + diameter s1) / 2) /\ Rmin s0 s1 <= m <= Rmax s0 s1.
Proof.
  intros H0 H1 m. unfold m, mean_sigma. unX.
  pose proof (sqrt_pos s0) as Ha. pose proof (sqrt_pos s1) as Hb.
  pose proof (sqrt_sqrt s0 H0) as Ea. pose proof (sqrt_sqrt s1 H1) as Eb.
  split.
  - unfold sphere, diameter. pose proof PI_RGT_0.
    rewrite !sqrt_div by assumption.
    assert (Hp : 0 < sqrt PI) by (apply sqrt_lt_R0; assumption).
    pose proof (sqrt_sqrt PI ltac:(lra)) as Ep.
    replace (PI * ((2 * (sqrt s0 / sqrt PI) + 2 * (sqrt s1 / sqrt PI)) / 2) ^ 2 / 4)
      with (PI * ((sqrt s0 + sqrt s1) * (sqrt s0 + sqrt s1)) / (sqrt PI * sqrt PI) / 4) by (field; lra).
    rewrite Ep. field. lra.
  - set (x := sqrt s0) in *. set (y := sqrt s1) in *.
    unfold Rmin, Rmax. destruct (Rle_dec s0 s1) as [Hl|Hl].
    + assert (x <= y) by (apply sqrt_le_1_alt; assumption). nra.
    + assert (y <= x) by (apply sqrt_le_1_alt; lra). nra.
Qed.

Lemma mean_mono (s0 s1 t0 t1 v V : R) : 0 <= s0 -> 0 <= s1 -> 0 <= t0 -> 0 <= t1 -> 0 <= v -> 0 <= V ->
  v * s0 <= V * t0 -> v * s1 <= V * t1 ->
  v * mean_sigma (N:=RNum) s0 s1 <= V * mean_sigma (N:=RNum) t0 t1.
Proof.
  intros H0 H1 G0 G1 Hv HV E0 E1. unfold mean_sigma. unX.
  assert (Hx : forall u a b, 0 <= u -> 0 <= a -> 0 <= b ->
     u * (1 / 4 * ((sqrt a + sqrt b) * (sqrt a + sqrt b))) =
     1 / 4 * ((sqrt (u * a) + sqrt (u * b)) * (sqrt (u * a) + sqrt (u * b)))).
  { intros u a b Hu Ha Hb. rewrite !sqrt_mult by assumption.
    pose proof (sqrt_sqrt u Hu) as E. rewrite <- E at 1. ring. }
  rewrite !Hx by assumption.
  assert (sqrt (v * s0) <= sqrt (V * t0)) by (apply sqrt_le_1_alt; assumption).
  assert (sqrt (v * s1) <= sqrt (V * t1)) by (apply sqrt_le_1_alt; assumption).
  pose proof (sqrt_pos (v * s0)). pose proof (sqrt_pos (v * s1)).
  assert (sqrt (v * s0) + sqrt (v * s1) <= sqrt (V * t0) + sqrt (V * t1)) by lra.
  apply Rmult_le_compat_l; [lra|]. apply Rmult_le_compat; lra.
Qed.

Lemma avgeasy_sigma K c0 c1 v s0 s1 : sigma_is K c0 v s0 -> sigma_is K c1 v s1 ->
  sigma_is K (XAvgEasy c0 c1) v (mean_sigma (N:=RNum) s0 s1).
Proof. unfold sigma_is. intros H0 H1. cbn [sigma]. rewrite H0. cbn [obind]. rewrite H1. reflexivity. Qed.

Lemma avgeasy_spec K c0 c1 :
  (forall v s0 s1, sigma_is K c0 v s0 -> sigma_is K c1 v s1 -> 0 <= s0 -> 0 <= s1 ->
     exists s, sigma_is K (XAvgEasy c0 c1) v s /\
       s = sphere ((diameter s0 + diameter s1) / 2) /\ Rmin s0 s1 <= s <= Rmax s0 s1) /\
  (forall V, 0 < V ->
    (forall c, c = c0 \/ c = c1 -> forall v, 0 < v <= V ->
        exists s t, sigma_is K c v s /\ sigma_is K c V t /\ 0 <= s /\ v * s <= V * t) ->
    exists M vm, findMaxSigmaV (N:=RNum) K (XAvgEasy c0 c1) V = Ok (M, vm) /\
      sv_bound K (XAvgEasy c0 c1) V M /\ 0 <= vm <= V /\
      (vm = V -> exists s, sigma_is K (XAvgEasy c0 c1) V s /\ V * s = M)).
Proof.
  split.
  - intros v s0 s1 H0 H1 G0 G1. exists (mean_sigma (N:=RNum) s0 s1).
    split; [apply avgeasy_sigma; assumption|]. apply mean_facts; assumption.
  - intros V HV Hm.
    destruct (Hm c0 (or_introl eq_refl) V ltac:(lra)) as (t0 & t0' & T0 & _ & P0 & _).
    destruct (Hm c1 (or_intror eq_refl) V ltac:(lra)) as (t1 & t1' & T1 & _ & P1 & _).
    pose proof (avgeasy_sigma K c0 c1 V t0 t1 T0 T1) as HsV.
    set (mV := mean_sigma (N:=RNum) t0 t1) in *.
    assert (Hb : forall v, 0 < v <= V -> exists s, sigma_is K (XAvgEasy c0 c1) v s /\ v * s <= V * mV).
    { intros v Hv.
      destruct (Hm c0 (or_introl eq_refl) v Hv) as (a0 & b0 & A0 & B0 & Q0 & L0).
      destruct (Hm c1 (or_intror eq_refl) v Hv) as (a1 & b1 & A1 & B1 & Q1 & L1).
      assert (b0 = t0) as -> by (unfold sigma_is in *; congruence).
      assert (b1 = t1) as -> by (unfold sigma_is in *; congruence).
      eexists; split; [apply avgeasy_sigma; eassumption|]. apply mean_mono; lra. }
    assert (HmV : 0 <= mV).
    { destruct (mean_facts t0 t1 P0 P1) as [_ [Hl _]]. fold mV in Hl.
      pose proof (Rmin_glb t0 t1 0 P0 P1). lra. }
    unfold findMaxSigmaV. unfold sigma_is in HsV. rewrite HsV. cbn [obind]. unR.
    destruct (Rltb_spec 0 mV).
    + do 2 eexists; split; [reflexivity|]. split; [|split; [lra|]].
      * intros v Hv. rewrite (Rmult_comm mV V). auto.
      * intros _. exists mV. split; [assumption|ring].
    + assert (mV = 0) as Hz by lra. exists 0, 0. split; [reflexivity|]. split; [|split; [lra|]].
      * intros v Hv. destruct (Hb v Hv) as (s & Hs & Hle). exists s. split; [assumption|]. rewrite Hz in Hle. lra.
      * intros; lra.
Qed.

(** ** C26, C27: Lotz *)
Lemma fold_sum {A} (f : A -> R) l : forall s, fold_left (fun s p => s + f p) l s = s + fold_left (fun s p => s + f p) l 0.
Proof.
  induction l as [|x l IH]; intros s; cbn; [ring|]. rewrite IH, (IH (0 + f x)). ring.
Qed.

Definition lz_f (v : R) (p : lotzPar RNum) : R :=
  lz_a p * lz_q p * ln (v * v * lz_beta p) / (lz_P p * lz_P p * (v * v * lz_beta p))
  * (1 - lz_b p * exp ((0 - lz_c p) * (v * v * lz_beta p - 1))).
Definition lz_df (v : R) (p : lotzPar RNum) : R :=
  lz_a p * lz_q p * exp (lz_c p - lz_c p * (v * v * lz_beta p)) / (lz_P p * lz_P p * (v * v * lz_beta p))
  * (2 * lz_b p * (ln (v * v * lz_beta p) * (1 / 2 + lz_c p * (v * v * lz_beta p)) - 1)
     - exp ((0 - lz_c p) + lz_c p * (v * v * lz_beta p)) * (ln (v * v * lz_beta p) - 2)).
Lemma lz_f_eq v p : lotz_term (N:=RNum) v p = lz_f v p. Proof. reflexivity. Qed.
Lemma lz_df_eq v p : lotz_dterm (N:=RNum) v p = lz_df v p. Proof. reflexivity. Qed.

Lemma lz_deriv p v : 0 < v -> 0 < lz_beta p -> lz_P p <> 0 ->
  is_derive (fun v => v * lz_f v p) v (lz_df v p).
Proof.
  intros Hv Hb HP. unfold lz_f, lz_df.
  assert (Hx : 0 < v * v * lz_beta p) by (apply Rmult_lt_0_compat; nra).
  auto_derive.
  - split; [assumption|]. split; [|exact I]. intros H. 
    destruct (Rmult_integral _ _ H) as [H'|H']; [destruct (Rmult_integral _ _ H'); contradiction|lra].
  - set (x := v * v * lz_beta p) in *.
    replace ((0 - lz_c p) * (x + - (1))) with (lz_c p - lz_c p * x) by ring.
    replace ((0 - lz_c p) + lz_c p * x) with (- (lz_c p - lz_c p * x)) by ring.
    rewrite exp_Ropp. set (e := exp (lz_c p - lz_c p * x)).
    assert (He : 0 < e) by apply exp_pos.
    set (L := ln x). subst x. field. repeat split; lra.
Qed.

Lemma lotz_sum_deriv ps v : 0 < v -> List.Forall (fun p => 0 < lz_beta p /\ lz_P p <> 0) ps ->
  is_derive (fun v => v * lotz_sum (N:=RNum) ps v) v (DSigmaV (N:=RNum) ps v).
Proof.
  intros Hv Hps. unfold lotz_sum, DSigmaV. unR.
  induction Hps as [|p ps [Hb HP] _ IH]; cbn [fold_left].
  - auto_derive; [exact I|ring].
  - apply is_derive_ext with (fun v => plus (v * lz_f v p) (v * fold_left (fun s p => s + lotz_term (N:=RNum) v p) ps 0)).
    + intros w. rewrite (fold_sum (lotz_term (N:=RNum) w) ps (0 + _)). change (lotz_term (N:=RNum) w p) with (lz_f w p). unfold plus; cbn. ring.
    + rewrite (fold_sum (lotz_dterm (N:=RNum) v) ps (0 + _)). change (lotz_dterm (N:=RNum) v p) with (lz_df v p). rewrite Rplus_0_l.
      apply (is_derive_plus (fun v => v * lz_f v p)); [apply lz_deriv; assumption|exact IH].
Qed.

Lemma lotz_sigma_deriv ps thr v : 0 < v -> thr < v -> List.Forall (fun p => 0 < lz_beta p /\ lz_P p <> 0) ps ->
  derivable_pt_lim (fun w => w * lotz_sigma (N:=RNum) ps thr w) v (DSigmaV (N:=RNum) ps v).
Proof.
  intros Hv Ht Hps. apply is_derive_Reals.
  apply is_derive_ext_loc with (fun v => v * lotz_sum (N:=RNum) ps v); [|apply lotz_sum_deriv; assumption].
  assert (He : 0 < v - thr) by lra. exists (mkposreal _ He). intros y Hy. cbn in Hy.
  unfold ball, AbsRing_ball, abs, minus, plus, opp in Hy; cbn in Hy. apply Rabs_def2 in Hy.
  unfold lotz_sigma. unR. destruct (Rltb_spec y thr); [lra|reflexivity].
Qed.

Lemma lotz_nonneg ps v : 0 < v -> List.Forall (fun p => lotz_ok p /\ 1 <= lz_beta p * v ^ 2) ps ->
  0 <= lotz_sum (N:=RNum) ps v.
Proof.
  intros Hv Hps. unfold lotz_sum. unR.
  induction Hps as [|p ps [(HP & Hb & Ha & Hq & Hb1 & Hc) Hx] _ IH]; cbn [fold_left]; [lra|].
  rewrite fold_sum. change (lotz_term (N:=RNum) v p) with (lz_f v p). rewrite Rplus_0_l. apply Rplus_le_le_0_compat; [|assumption].
  unfold lz_f. replace (lz_beta p * v ^ 2) with (v * v * lz_beta p) in Hx by ring.
  set (x := v * v * lz_beta p) in *.
  assert (0 <= ln x). { rewrite <- ln_1. destruct Hx as [Hx|<-]; [left; apply ln_increasing; lra|right; reflexivity]. }
  assert (exp ((0 - lz_c p) * (x - 1)) <= 1).
  { apply Rle_trans with (exp 0); [|rewrite exp_0; lra]. assert ((0 - lz_c p) * (x - 1) <= 0) as Hle by nra.
    destruct Hle as [Hle|Hle]; [left; apply exp_increasing; assumption|right; rewrite Hle; reflexivity]. }
  pose proof (exp_pos ((0 - lz_c p) * (x - 1))).
  apply Rmult_le_pos; [|nra]. apply Rdiv_le_0_compat.
  - repeat apply Rmult_le_pos; assumption.
  - apply Rmult_lt_0_compat; [apply Rmult_lt_0_compat; assumption|lra].
Qed.

(** Single subshell, b = 0. *)
Lemma lz1_df p v : 0 < v -> 0 < lz_beta p -> 0 < lz_P p -> lz_b p = 0 ->
  DSigmaV (N:=RNum) [p] v = lz_a p * lz_q p / (lz_P p ^ 2 * (v * v * lz_beta p)) * (2 - ln (v * v * lz_beta p)).
Proof.
  intros Hv Hb HP Hb0. unfold DSigmaV. cbn [fold_left]. change (lotz_dterm (N:=RNum) v p) with (lz_df v p). unR. unfold lz_df. rewrite Hb0.
  set (x := v * v * lz_beta p). assert (0 < x) by (apply Rmult_lt_0_compat; nra).
  replace ((0 - lz_c p) + lz_c p * x) with (- (lz_c p - lz_c p * x)) by ring. rewrite exp_Ropp.
  pose proof (exp_pos (lz_c p - lz_c p * x)). field. repeat split; lra.
Qed.

Lemma lotz_one_shell inf ninf tol solve (p : lotzPar RNum) (mu : reducedMass RNum) l K :
  lotz_ok p -> 0 < lz_a p -> 0 < lz_q p -> lz_b p = 0 ->
  ninf < 1 / R_sqrt.sqrt (lz_beta p) < inf -> (forall x, tol x x = true) ->
  (forall a b, 0 < a <= b -> 0 <= DSigmaV (N:=RNum) [p] a -> DSigmaV (N:=RNum) [p] b <= 0 ->
     a <= snd (solve (DSigmaV (N:=RNum) [p]) a b) /\ DSigmaV (N:=RNum) [p] (snd (solve (DSigmaV (N:=RNum) [p]) a b)) = 0) ->
  lotz_new (N:=RNum) inf ninf tol solve [p] mu = Ok l ->
  (forall v, 0 <= v -> v < 1 / R_sqrt.sqrt (lz_beta p) -> sigma_is K (XLotz l) v 0) /\
  (forall v, 1 / R_sqrt.sqrt (lz_beta p) < v -> exists s, sigma_is K (XLotz l) v s /\ 0 < s) /\
  forall V, 0 < V -> exists M vm, findMaxSigmaV (N:=RNum) K (XLotz l) V = Ok (M, vm) /\ sv_bound K (XLotz l) V M /\
     0 < vm <= V /\ exists s, sigma_is K (XLotz l) vm s /\ vm * s = M.
Proof.
  intros (HP & Hb & _ & _ & _ & Hc) Ha Hq Hb0 Hinf Htol Hsolve Hnew.
  set (w := 1 / R_sqrt.sqrt (lz_beta p)) in *.
  assert (Hsb : 0 < R_sqrt.sqrt (lz_beta p)) by (apply sqrt_lt_R0; assumption).
  assert (Hw : 0 < w) by (apply Rdiv_lt_0_compat; lra).
  assert (Hwb : w * w * lz_beta p = 1).
  { unfold w. pose proof (sqrt_sqrt (lz_beta p) ltac:(lra)) as Hqq.
    set (s := R_sqrt.sqrt (lz_beta p)) in *. rewrite <- Hqq. field. lra. }
  set (k := lz_a p * lz_q p / (lz_P p ^ 2)).
  assert (Hk : 0 < k). { apply Rdiv_lt_0_compat; [apply Rmult_lt_0_compat; assumption|apply pow_lt; assumption]. }
  assert (HD : forall v, 0 < v -> DSigmaV (N:=RNum) [p] v = k / (v * v * lz_beta p) * (2 - ln (v * v * lz_beta p))).
  { intros v Hv. rewrite lz1_df by assumption. unfold k. unR. change (@eq (T RNum)) with (@eq R). field. repeat split; try lra. }
  assert (HDs : forall v, 0 < v -> 0 < k / (v * v * lz_beta p)).
  { intros v Hv. apply Rdiv_lt_0_compat; [assumption|]. apply Rmult_lt_0_compat; nra. }
  assert (Hx : forall v, 0 < v -> 0 < v * v * lz_beta p) by (intros; apply Rmult_lt_0_compat; nra).
  unfold lotz_new, lotz_range in Hnew. cbn [fold_left] in Hnew. unR.
  change (@ndiv RNum 1 (R_sqrt.sqrt (lz_beta p))) with w in Hnew. fold w in Hnew.
  destruct (Rltb_spec w inf); [|lra]. destruct (Rltb_spec ninf w); [|lra].
  rewrite Htol in Hnew. cbn [obind] in Hnew.
  set (vmax := lotz_double (N:=RNum) 32 [p] w) in *.
  (* the doubling search ends at 4w *)
  assert (Hln4 : ln 4 < 2).
  { replace 4 with (2 * 2) by ring. rewrite ln_mult by lra.
    assert (ln 2 < 1). { rewrite <- (ln_exp 1). apply ln_increasing; [lra|]. pose proof (exp_ineq1 1). lra. } lra. }
  assert (Hdbl : 2 < ln 16 -> vmax = 4 * w).
  { intros H16. unfold vmax. cbn [lotz_double]. unR. rewrite HD by lra. rewrite Hwb, ln_1.
    destruct (Rltb_spec 0 (k / 1 * (2 - 0))) as [_|Hn]; [|exfalso; apply Hn; unfold Rdiv; rewrite Rinv_1; lra].
    rewrite HD by lra. replace (w * 2 * (w * 2) * lz_beta p) with 4 by (rewrite <- (Rmult_1_r 4), <- Hwb; ring).
    destruct (Rltb_spec 0 (k / 4 * (2 - ln 4))) as [_|Hn]; [|exfalso; apply Hn; apply Rmult_lt_0_compat; lra].
    rewrite HD by lra. replace (w * 2 * 2 * (w * 2 * 2) * lz_beta p) with 16 by (rewrite <- (Rmult_1_r 16), <- Hwb; ring).
    destruct (Rltb_spec 0 (k / 16 * (2 - ln 16))) as [Hn|_]; [exfalso; nra|]. ring. }
  assert (H16 : 2 < ln 16).
  { replace 16 with (4 * 4) by ring. rewrite ln_mult by lra.
    assert (1 < ln 4). { rewrite <- (ln_exp 1) at 1. apply ln_increasing; [apply exp_pos|]. pose proof exp_le_3. lra. } lra. }
  rewrite Hdbl in Hnew by assumption.
  destruct (Hsolve w (4 * w)) as [Hz1 Hz2].
  { lra. }
  { rewrite HD, Hwb, ln_1 by lra. unfold Rdiv; rewrite Rinv_1. lra. }
  { rewrite HD by lra. replace (4 * w * (4 * w) * lz_beta p) with 16 by (rewrite <- (Rmult_1_r 16), <- Hwb; ring).
    nra. }
  set (z := solve (DSigmaV (N:=RNum) [p]) w (4 * w)) in *.
  destruct (tol (fst z) (snd z)); [|discriminate]. injection Hnew as <-.
  set (vm := snd z) in *.
  set (f := fun v => v * lotz_sum (N:=RNum) [p] v).
  assert (Hf : forall v, 0 < v -> is_derive f v (DSigmaV (N:=RNum) [p] v)).
  { intros v Hv. apply lotz_sum_deriv; [assumption|]. constructor; [split; lra|constructor]. }
  assert (Hroot : ln (vm * vm * lz_beta p) = 2).
  { rewrite HD in Hz2 by lra. specialize (HDs vm ltac:(lra)). nra. }
  assert (Hmono : forall a b, 0 < a -> a < b -> ln (a * a * lz_beta p) < ln (b * b * lz_beta p)).
  { intros a b H1 H2. apply ln_increasing; [apply Hx; assumption|]. apply Rmult_lt_compat_r; [assumption|nra]. }
  assert (Hup : forall a b, 0 < a -> a <= b -> b <= vm -> f a <= f b).
  { intros a b H1 H2 H3. apply (incr_of_deriv f (DSigmaV (N:=RNum) [p])); [|  |assumption].
    - intros y Hy. apply Hf; lra.
    - intros y Hy. rewrite HD by lra. pose proof (HDs y ltac:(lra)). 
      pose proof (Hmono y vm ltac:(lra) ltac:(lra)). nra. }
  assert (Hdown : forall b, vm < b -> f b < f vm).
  { intros b H2. apply (decr_of_deriv f (DSigmaV (N:=RNum) [p])); [| |assumption].
    - intros y Hy. apply Hf; lra.
    - intros y Hy. rewrite HD by lra. pose proof (HDs y ltac:(lra)).
      pose proof (Hmono vm y ltac:(lra) ltac:(lra)). nra. }
  assert (Hpos : forall v, w < v -> 0 < lotz_sum (N:=RNum) [p] v).
  { intros v Hv. unfold lotz_sum; cbn [fold_left]. change (lotz_term (N:=RNum) v p) with (lz_f v p). unR. unfold lz_f. rewrite Hb0, Rmult_0_l, Rplus_0_l, Rminus_0_r, Rmult_1_r.
    assert (0 < ln (v * v * lz_beta p)) by (rewrite <- ln_1, <- Hwb; apply Hmono; lra).
    apply Rdiv_lt_0_compat; repeat apply Rmult_lt_0_compat; try assumption; lra. }
  assert (Hw0 : lotz_sum (N:=RNum) [p] w = 0).
  { unfold lotz_sum; cbn [fold_left]. change (lotz_term (N:=RNum) w p) with (lz_f w p). unR. unfold lz_f. rewrite Hwb, ln_1. unfold Rdiv. ring. }
  assert (Hs : forall v, w <= v -> sigma_is K (XLotz (mkLotzCS [p] w (vm * lotz_sigma (N:=RNum) [p] w vm) vm mu)) v (lotz_sum (N:=RNum) [p] v)).
  { intros v Hv. unfold sigma_is; cbn [sigma lo_pars lo_thr]. unfold lotz_sigma. unR. destruct (Rltb_spec v w); [lra|reflexivity]. }
  assert (Hs0 : forall v, v < w -> sigma_is K (XLotz (mkLotzCS [p] w (vm * lotz_sigma (N:=RNum) [p] w vm) vm mu)) v 0).
  { intros v Hv. unfold sigma_is; cbn [sigma lo_pars lo_thr]. unfold lotz_sigma. unR. destruct (Rltb_spec v w); [reflexivity|lra]. }
  assert (Hvm : lotz_sigma (N:=RNum) [p] w vm = lotz_sum (N:=RNum) [p] vm).
  { unfold lotz_sigma. unR. destruct (Rltb_spec vm w); [lra|reflexivity]. }
  split; [intros; apply Hs0; assumption|]. split.
  { intros v Hv. eexists; split; [apply Hs; lra|]. apply Hpos; assumption. }
  intros V HV. cbn [findMaxSigmaV lo_vmax lo_max lo_pars lo_thr]. unR.
  destruct (Rltb_spec vm V) as [HvV|HvV].
  - do 2 eexists; split; [reflexivity|]. split; [|split; [lra|]].
    + intros v Hv. rewrite Hvm. destruct (Rle_lt_dec w v) as [Hwv|Hwv].
      * eexists; split; [apply Hs; assumption|]. destruct (Rle_lt_dec v vm).
        -- apply (Hup v vm); lra.
        -- left. apply (Hdown v). lra.
      * exists 0. split; [apply Hs0; assumption|]. rewrite Rmult_0_r. fold (f vm).
        replace 0 with (f w) by (unfold f; rewrite Hw0; ring). apply Hup; lra.
    + rewrite Hvm. eexists; split; [apply Hs; lra|reflexivity].
  - do 2 eexists; split; [reflexivity|]. destruct (Rle_lt_dec w V) as [HwV|HwV].
    + replace (lotz_sigma (N:=RNum) [p] w V) with (lotz_sum (N:=RNum) [p] V).
      2:{ unfold lotz_sigma. unR. destruct (Rltb_spec V w); [lra|reflexivity]. }
      split; [|split; [lra|eexists; split; [apply Hs; assumption|reflexivity]]].
      intros v Hv. destruct (Rle_lt_dec w v) as [Hwv|Hwv].
      * eexists; split; [apply Hs; assumption|]. apply (Hup v V); lra.
      * exists 0. split; [apply Hs0; assumption|]. rewrite Rmult_0_r. fold (f V).
        replace 0 with (f w) by (unfold f; rewrite Hw0; ring). apply Hup; lra.
    + replace (lotz_sigma (N:=RNum) [p] w V) with 0.
      2:{ unfold lotz_sigma. unR. destruct (Rltb_spec V w); [reflexivity|lra]. }
      split; [|split; [lra|eexists; split; [apply Hs0; assumption|ring]]].
      intros v Hv. exists 0. split; [apply Hs0; lra|lra].
Qed.

Lemma lotz_sigma_nonneg ps v : 0 < v -> List.Forall (fun p => lotz_ok p /\ 1 <= lz_beta p * v ^ 2) ps ->
  forall thr, 0 <= lotz_sigma (N:=RNum) ps thr v.
Proof. intros Hv Hp thr. unfold lotz_sigma. destruct (nltb _ _); [apply Rle_refl|apply lotz_nonneg; assumption]. Qed.
