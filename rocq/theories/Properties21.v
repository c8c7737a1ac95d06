(** Supplements to C25, C28: who allows extrapolation, and the threshold of an average. *)
From Coq Require Import Reals Lra Lia ZArith Bool List String.
From Verif Require Import Base Num ModelTerm ModelCollide ModelXsec SpecXsec ProofCollide ProofXsec Properties2.
From Coq Require Import List.
Import ListNotations.
Local Open Scope R_scope.

(** C25, from the environment: the variable set to "no" forbids extrapolation, any other text allows it, and the
    compiled option decides when it is unset. *)
Theorem C25_environment : forall (fuel : nat) env opt (t : table RNum) (mu : reducedMass RNum) d l x v,
  data_init (N:=RNum) fuel (extrap_allowed env opt) t mu = Ok d -> increasing t -> nonneg_values t ->
  Forall (fun y => 0 <= fst y) t -> d_table d = l ++ [x] -> snd x <> 0 -> fst x < v ->
  (env = Some "no"%string \/ env = None /\ opt = false -> data_sigma (N:=RNum) d v = Throw ExnRuntime) /\
  ((exists text, env = Some text /\ text <> "no"%string) \/ env = None /\ opt = true -> fittable (d_table d) ->
     exists s, data_sigma (N:=RNum) d v = Ok s /\ 0 < s) /\
  (~ fittable (d_table d) -> data_sigma (N:=RNum) d v = Throw ExnRuntime).
Proof.
  intros fuel env opt t mu d l x v Hd Hi Hn H0 Ht Hx Hv. destruct (C25_tail fuel (extrap_allowed env opt) t mu d l x Hd Hi Hn H0 Ht) as (_ & HA & HB).
  split; [|split].
  - intros H. apply HB; [exact Hx| |exact Hv]. intros [Ha _]. destruct H as [->|[-> ->]]; discriminate.
  - intros H Hf. assert (Ha : extrap_allowed env opt = true).
    { destruct H as [(text & -> & Hne)|[-> ->]]; [|reflexivity]. cbn [extrap_allowed]. destruct (String.eqb_spec text "no"); [contradiction|reflexivity]. }
    destruct (HA Hx Ha Hf v (v + 1) Hv ltac:(lra)) as (sv & sw & E & _ & B). exists sv. split; [exact E|lra].
  - intros Hf. apply HB; [exact Hx| |exact Hv]. intros [_ F]. exact (Hf F).
Qed.
Print Assumptions C25_environment.
Definition ext_t : table RNum := [(1, 9); (2, 6); (3, 1)].
Lemma ext_init allowed : exists d, data_init (N:=RNum) (Z.to_nat 9900) allowed ext_t mu2 = Ok d /\ d_table d = [(1, 9); (2, 6)] ++ [(3, 1)] /\ fittable (d_table d).
Proof.
  assert (Hi : increasing ext_t) by (cbn; lra). destruct (C24_leading_zeros (Z.to_nat 9900) allowed ext_t mu2 ltac:(lia)) as (_ & _ & H).
  destruct H as (zs & d & E & _ & Ht & Hz & _ & _ & _); [|exact Hi|].
  { intros H. rewrite Forall_forall in H. specialize (H (1, 9) ltac:(cbn; tauto)). cbn in H. lra. }
  assert (zs = []) as ->.
  { destruct zs as [|z zs]; [reflexivity|]. inversion Hz as [|? ? A _]; subst. injection Ht as Hz0 _. rewrite <- Hz0 in A. cbn in A. lra. }
  exists d. cbn [app] in Ht. split; [exact E|]. rewrite <- Ht. split; [reflexivity|]. exists [], (1, 9), (2, 6), (3, 1). repeat split; unfold mean_slope; cbn; lra.
Qed.
Example C25_environment_case : exists d0 d1,
  data_init (N:=RNum) (Z.to_nat 9900) (extrap_allowed (Some "no"%string) true) ext_t mu2 = Ok d0 /\ data_sigma (N:=RNum) d0 4 = Throw ExnRuntime /\
  data_init (N:=RNum) (Z.to_nat 9900) (extrap_allowed (Some "NO"%string) false) ext_t mu2 = Ok d1 /\ exists s, data_sigma (N:=RNum) d1 4 = Ok s /\ 0 < s.
Proof.
  assert (Hi : increasing ext_t) by (cbn; lra). assert (Hn : nonneg_values ext_t) by (repeat constructor; cbn; lra). assert (H0 : Forall (fun y => 0 <= fst y) ext_t) by (repeat constructor; cbn; lra).
  destruct (ext_init (extrap_allowed (Some "no"%string) true)) as (d0 & E0 & T0 & F0). destruct (ext_init (extrap_allowed (Some "NO"%string) false)) as (d1 & E1 & T1 & F1).
  exists d0, d1. split; [exact E0|]. split; [|split; [exact E1|]].
  - apply (proj1 (C25_environment _ _ _ _ _ _ _ _ 4 E0 Hi Hn H0 T0 ltac:(cbn; lra) ltac:(cbn; lra))). left. reflexivity.
  - apply (proj1 (proj2 (C25_environment _ _ _ _ _ _ _ _ 4 E1 Hi Hn H0 T1 ltac:(cbn; lra) ltac:(cbn; lra)))); [|exact F1]. left. exists "NO"%string. split; [reflexivity|discriminate].
Qed.

(** C28, thresholds: the threshold energy of the average is the lower of the two, the averaged cross section is 0 below it
    when both are 0 below their own, and it is positive wherever one of them is. *)
Theorem C28_threshold : forall K c0 c1 (E0 E1 : R), getThresholdEnergy (N:=RNum) c0 = Ok E0 -> getThresholdEnergy (N:=RNum) c1 = Ok E1 ->
  exists E, getThresholdEnergy (N:=RNum) (XAvgEasy c0 c1) = Ok E /\ E = Rmin E0 E1 /\
    (forall mu v, (mu * v ^ 2 / 2 < E0 -> sigma_is K c0 v 0) -> (mu * v ^ 2 / 2 < E1 -> sigma_is K c1 v 0) -> mu * v ^ 2 / 2 < E -> sigma_is K (XAvgEasy c0 c1) v 0) /\
    (forall v s0 s1, sigma_is K c0 v s0 -> sigma_is K c1 v s1 -> 0 <= s0 -> 0 <= s1 -> 0 < s0 \/ 0 < s1 -> exists s, sigma_is K (XAvgEasy c0 c1) v s /\ 0 < s).
Proof.
  intros K c0 c1 E0 E1 H0 H1. exists (Rmin E0 E1). split; [|split; [reflexivity|split]].
  - cbn [getThresholdEnergy]. rewrite H0, H1. cbn [obind]. f_equal. unfold nmin. cbn. unfold Rltb, Rmin.
    destruct (Rlt_dec E1 E0), (Rle_dec E0 E1); try reflexivity; lra.
  - intros mu v Z0 Z1 Hv. pose proof (Rmin_l E0 E1). pose proof (Rmin_r E0 E1).
    destruct (proj1 (C28_average K c0 c1) v 0 0 (Z0 ltac:(lra)) (Z1 ltac:(lra)) ltac:(lra) ltac:(lra)) as (s & Hs & _ & B).
    rewrite Rmin_left, Rmax_left in B by lra. replace 0 with s by lra. exact Hs.
  - intros v s0 s1 Z0 Z1 P0 P1 P. destruct (proj1 (C28_average K c0 c1) v s0 s1 Z0 Z1 P0 P1) as (s & Hs & E & _). exists s. split; [exact Hs|]. rewrite E. unfold sphere, diameter.
    assert (HP : 0 < PI) by apply PI_RGT_0. assert (Hd : forall x, 0 <= x -> 0 <= R_sqrt.sqrt (x / PI)) by (intros; apply sqrt_pos).
    assert (Hp : forall x, 0 < x -> 0 < R_sqrt.sqrt (x / PI)) by (intros; apply sqrt_lt_R0; apply Rdiv_lt_0_compat; lra).
    pose proof (Hd _ P0). pose proof (Hd _ P1). assert (0 < (2 * R_sqrt.sqrt (s0 / PI) + 2 * R_sqrt.sqrt (s1 / PI)) / 2) by (destruct P as [P|P]; apply Hp in P; lra).
    apply Rdiv_lt_0_compat; [apply Rmult_lt_0_compat; [exact HP|apply pow_lt; assumption]|lra].
Qed.
Print Assumptions C28_threshold.
(** Thresholds 2 and 8 with reduced mass 1: speeds 2 and 4. *)
Example C28_threshold_case : exists E, getThresholdEnergy (N:=RNum) (XAvgEasy (XConstant (N:=RNum) 5 8 4) (XConstant (N:=RNum) 3 2 2)) = Ok E /\ E = 2 /\
  sigma_is 1 (XAvgEasy (XConstant (N:=RNum) 5 8 4) (XConstant (N:=RNum) 3 2 2)) 1 0 /\
  exists s, sigma_is 1 (XAvgEasy (XConstant (N:=RNum) 5 8 4) (XConstant (N:=RNum) 3 2 2)) 3 s /\ 0 < s.
Proof.
  destruct (C28_threshold 1 (XConstant (N:=RNum) 5 8 4) (XConstant (N:=RNum) 3 2 2) 8 2 eq_refl eq_refl) as (E & HE & Em & HZ & HP).
  exists E. split; [exact HE|]. rewrite Rmin_right in Em by lra. split; [exact Em|]. rewrite Em in HZ. split.
  - apply (HZ 1 1); [| |lra]; intros _; unfold sigma_is; cbn; unR; [destruct (Rleb_spec 4 1)|destruct (Rleb_spec 2 1)]; try lra; reflexivity.
  - apply (HP 3 0 3); try lra; unfold sigma_is; cbn; unR; [destruct (Rleb_spec 4 3)|destruct (Rleb_spec 2 3)]; try lra; reflexivity.
Qed.
