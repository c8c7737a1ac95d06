(** C97, C98: cross sections, maxima, acceptance and choice of a channel in binary64. *)
From Coq Require Import Reals Lra Lia ZArith Bool List String.
From Flocq Require Import Core.Core IEEE754.BinarySingleNaN.
From Verif Require Import Base Num ModelTerm ModelCollide ModelXsec ModelSet SpecPhys SpecXsec SpecSet SpecRound SpecDouble ProofFloat ProofDouble ProofDouble2 ProofDouble3 ProofDouble4 Properties1 Properties3 Properties19.
From Coq Require Import List.
Import ListNotations.
Local Open Scope R_scope.

(** C97.  Constant, inverse, VHS and tabulated (not extrapolated) cross sections and hard-sphere means, computed in binary64, are
    those of exact arithmetic up to m roundings, and the reported maxima up to m+1; they throw in the same cases.  m is 0 for
    constant, 1 for inverse, 6 for tabulated, p+8 for VHS with a power function accurate to p roundings, 2k+7 for a mean. *)
Theorem C97_cross_sections : forall lm (K : F64 lm) (K' : R) m (c : xsec (F64 lm)) (c' : xsec RNum) (v : binary64),
  (Z.of_nat m <= 2 ^ 20)%Z -> double_xs K K' m c c' -> num64 v -> 0 < real64 v ->
  agree64 m (fun s => s) (fun s => s) (sigma K c v) (sigma (N:=RNum) K' c' (real64 v)) /\
  agree64 (m + 1) fst fst (findMaxSigmaV K c v) (findMaxSigmaV (N:=RNum) K' c' (real64 v)).
Proof.
  intros lm K K' m c c' v Lm D Hv P. split.
  - pose proof (sigma_agr K K' m Lm c c' v D Hv P) as A. destruct (sigma K c v), (sigma (N:=RNum) K' c' (real64 v)); cbn [agr agree64] in *; try exact A. apply A.
  - pose proof (max_agr K K' m Lm c c' v D Hv P) as A. destruct (findMaxSigmaV K c v), (findMaxSigmaV (N:=RNum) K' c' (real64 v)); cbn [omapf agr agree64] in *; try exact A. apply A.
Qed.
Print Assumptions C97_cross_sections.
(** The maximum of a set of n channels: up to m + 1 + n roundings. *)
Theorem C97_set_maximum : forall lm (K : F64 lm) (K' : R) m rhs rhs' (v M : binary64), (Z.of_nat m <= 2 ^ 20)%Z ->
  Forall2 (fun e e' => double_xs K K' m (q_cs e) (q_cs e')) rhs rhs' -> num64 v -> 0 < real64 v -> (Z.of_nat (length rhs) <= 2 ^ 20)%Z ->
  findMaxSigmaVProduct K rhs v = Ok M ->
  exists M', findMaxSigmaVProduct (N:=RNum) K' rhs' (real64 v) = Ok M' /\ approx64 (m + 1 + length rhs) M M'.
Proof. intros lm K K' m rhs rhs' v M Lm H Hv P L E. destruct (set_max_double K K' m Lm rhs rhs' v M H Hv P L E) as (M' & E' & [A _]). exists M'. split; [exact E'|exact A]. Qed.
Print Assumptions C97_set_maximum.

(** C98.  Acceptance and choice of the channel in binary64 follow exact arithmetic: with d = (2n+2m+4) 2^-53 for n channels
    an interaction happens if the draw is below sigma v / max by a factor 1-d, and does not if it is above by that factor;
    the channel is the one whose interval, widened by d, holds the second draw, and its cross section is positive. *)
Theorem C98_acceptance : forall lm (K : F64 lm) (K' : R) m rhs rhs' (V v M : F64 lm) (g : rng (F64 lm)) k j c k', (Z.of_nat m <= 2 ^ 20)%Z ->
  Forall2 (fun e e' => double_xs K K' m (q_cs e) (q_cs e')) rhs rhs' -> num64 V -> num64 v -> 0 < real64 v -> 0 < real64 V ->
  (Z.of_nat (length rhs) <= 2 ^ 20)%Z -> frng_ok g ->
  findMaxSigmaVProduct K rhs V = Ok M -> calculateOutPath K rhs M v g k = Ok (j, c, k') ->
  exists M' cs, findMaxSigmaVProduct (N:=RNum) K' rhs' (real64 V) = Ok M' /\ channels K' rhs' (real64 v) cs /\
    let d := INR (2 * length rhs + 2 * m + 4) * bpow radix2 (-53) in
    (0 < Rsum cs -> real64 (g_rand g k) * M' <= Rsum cs * real64 v * (1 - d) -> (0 <= j)%Z) /\
    (Rsum cs * real64 v < real64 (g_rand g k) * M' * (1 - d) -> j = (-1)%Z) /\
    (Rsum cs = 0 -> j = (-1)%Z) /\
    ((0 <= j)%Z -> exists i s, j = Z.of_nat i /\ nth_error cs i = Some s /\ 0 < s /\ approx64 m c s /\
       frac cs i - d <= real64 (g_exc g (k + 1)) <= frac cs (S i) + d).
Proof.
  intros lm K K' m rhs rhs' V v M g k j c k' Lm H HV Hv P PV L Hg EM EO.
  destruct (accept_double K K' m Lm rhs rhs' V v M g k j c k' H HV Hv P PV L Hg EM EO) as (M' & cs & EM' & C & HM & HS & A & B & Z0).
  exists M', cs. split; [exact EM'|]. split; [exact C|]. cbv zeta. split; [exact A|]. split; [exact B|]. split; [exact Z0|]. intros Hj.
  assert (Sp : 0 < Rsum cs). { destruct HS as [HS|HS]; [exact HS|]. specialize (Z0 (eq_sym HS)). lia. }
  exact (choice_double K K' m Lm rhs rhs' v M g k j c k' cs H Hv P L Hg EO C Hj Sp).
Qed.
Print Assumptions C98_acceptance.

(** A case: a constant channel 5 and a table through (1,2), (3,7); speeds 2 and at most 3. *)
Definition dtab : list (binary64 * binary64) := [(fofZ 1, fofZ 2); (fofZ 3, fofZ 7)].
Definition dmu : reducedMass (F64 rlm) := ReducedMass (N:=F64 rlm) (fofZ 1) (fofZ 4).
Definition dd : data (F64 rlm) := mkData (N:=F64 rlm) dtab (fofZ 0) (fofZ 0) (fofZ 0) (fofZ 0) dmu.
Definition dd' : data RNum := mkData (N:=RNum) (rtable dtab) 0 0 0 0 (ReducedMass (N:=RNum) 1 4).
Definition dcore : eqcore (F64 rlm) := mkEq (N:=F64 rlm) (mkInput (term_sp 0) (term_sp 1)) [term_sp 0; term_sp 1] dmu.
Definition dq (c : xsec (F64 rlm)) : equation (F64 rlm) := mkEquation dcore c (MElastic dmu).
Definition dq' (c : xsec RNum) : equation RNum := mkEquation exeq c (MElastic (ReducedMass (N:=RNum) 1 4)).
Definition drhs : list (equation (F64 rlm)) := [dq (XConstant (N:=F64 rlm) (fofZ 5) (fofZ 0) (fofZ 0)); dq (XData dd)].
Definition drhs' : list (equation RNum) := [dq' (XConstant (N:=RNum) (real64 (fofZ 5)) (real64 (fofZ 0)) (real64 (fofZ 0))); dq' (XData dd')].
Lemma d_num z : (0 <= z <= 1000)%Z -> num64 (fofZ z).
Proof.
  intros H. split; [apply fofZ_fin; lia|]. rewrite fofZ_val by lia. destruct (Z.eq_dec z 0) as [->|Hz]; [left; reflexivity|right].
  assert (1 <= IZR z <= 1000) by (split; apply IZR_le; lia). split; [apply Rle_trans with 1; [change 1 with (bpow radix2 0); apply bpow_le; lia|lra]|apply Rle_trans with (bpow radix2 10); [cbn; lra|apply bpow_le; lia]].
Qed.
Lemma d_table_ok : double_data dd dd'.
Proof.
  split; [|repeat split]. split.
  - repeat (apply List.Forall_cons; [split; apply d_num; lia|]). apply List.Forall_nil.
  - cbn [dd d_table dtab increasing fst]. rewrite !fofZ_val by lia. split; [lra|exact I].
Qed.
Lemma d_rhs_ok : Forall2 (fun e e' => double_xs (lm:=rlm) (fofZ 1) 1 6 (q_cs e) (q_cs e')) drhs drhs'.
Proof. constructor; [apply (double_simple_xs _ _ _ 0); [constructor; apply d_num; lia|lia]|]. constructor; [apply double_table; [exact d_table_ok|lia]|constructor]. Qed.
Definition dG : rng (F64 rlm) := mkRng (N:=F64 rlm) (fun _ => fhalf) (fun _ => fbelow1).
Lemma dG_ok : frng_ok dG.
Proof. intros n. unfold dG. cbn [g_rand g_exc]. (split; [|split; [|split]]); vm_compute; reflexivity. Qed.
Definition dM : binary64 := match findMaxSigmaVProduct (N:=F64 rlm) (fofZ 1) drhs (fofZ 3) with Ok m => m | _ => fofZ 0 end.
Example C97_C98_case : findMaxSigmaVProduct (N:=F64 rlm) (fofZ 1) drhs (fofZ 3) = Ok dM /\
  path_of (calculateOutPath (N:=F64 rlm) (fofZ 1) drhs dM (fofZ 2) dG 0) = 1%Z /\
  exists M' cs, findMaxSigmaVProduct (N:=RNum) 1 drhs' 3 = Ok M' /\ channels 1 drhs' 2 cs /\ length cs = 2%nat /\ approx64 9 dM M'.
Proof.
  assert (E : findMaxSigmaVProduct (N:=F64 rlm) (fofZ 1) drhs (fofZ 3) = Ok dM).
  { unfold dM. destruct (findMaxSigmaVProduct (N:=F64 rlm) (fofZ 1) drhs (fofZ 3)) eqn:Q; [reflexivity|exfalso..]; apply (f_equal loads) in Q; vm_compute in Q; discriminate. }
  split; [exact E|]. split; [vm_compute; reflexivity|].
  assert (P3 : 0 < real64 (fofZ 3)) by (rewrite fofZ_val by lia; lra). assert (P2 : 0 < real64 (fofZ 2)) by (rewrite fofZ_val by lia; lra).
  destruct (C97_set_maximum rlm (fofZ 1) 1 6 drhs drhs' (fofZ 3) dM ltac:(lia) d_rhs_ok (d_num 3 ltac:(lia)) P3 ltac:(cbn; lia) E) as (M' & E' & A).
  assert (O : exists o, calculateOutPath (N:=F64 rlm) (fofZ 1) drhs dM (fofZ 2) dG 0 = Ok o). { destruct (calculateOutPath (N:=F64 rlm) (fofZ 1) drhs dM (fofZ 2) dG 0) as [o| | |] eqn:Q; [eauto|exfalso..]; apply (f_equal loads) in Q; vm_compute in Q; discriminate. }
  destruct O as [[[j c] k'] O].
  destruct (C98_acceptance rlm (fofZ 1) 1 6 drhs drhs' (fofZ 3) (fofZ 2) dM _ _ _ _ _ ltac:(lia) d_rhs_ok (d_num 3 ltac:(lia)) (d_num 2 ltac:(lia)) P2 P3 ltac:(cbn; lia) dG_ok E O) as (M2 & cs & E2 & C & _).
  rewrite fofZ_val in E', E2, C by lia. exists M', cs. split; [exact E'|]. split; [exact C|]. split; [|exact A].
  inversion C as [|? ? ? ? _ C1]; subst. inversion C1 as [|? ? ? ? _ C2]; subst. inversion C2. reflexivity.
Qed.

(** A power function that rounds the exact power to nearest is accurate up to one rounding. *)
Definition of_real (x : R) : binary64 :=
  binary_normalize fprec femax fprec_gt_0 fprec_lt_emax mode_NE (Ztrunc (scaled_mantissa radix2 ffexp (frnd x))) (cexp radix2 ffexp (frnd x)) false.
Lemma of_real_ok x : Rabs (frnd x) < bpow radix2 femax -> real64 (of_real x) = frnd x /\ is_finite (of_real x) = true.
Proof.
  intros B. assert (G : generic_format radix2 ffexp (frnd x)) by (apply generic_format_round; typeclasses eauto).
  pose proof (binary_normalize_correct fprec femax fprec_gt_0 fprec_lt_emax mode_NE (Ztrunc (scaled_mantissa radix2 ffexp (frnd x))) (cexp radix2 ffexp (frnd x)) false) as C.
  fold (of_real x) in C. unfold generic_format in G. rewrite <- G in C. cbn [round_mode] in C. change (SpecFloat.fexp fprec femax) with ffexp in C.
  rewrite (round_generic radix2 ffexp ZnearestE (frnd x)) in C by (rewrite G at 1; apply generic_format_round; typeclasses eauto).
  rewrite Rlt_bool_true in C by exact B. destruct C as (V & F & _). split; assumption.
Qed.
Definition plm : libm := mkLibm (fun x => x) (fun x => x) (fun x => x) (fun x y => of_real (Rpower (real64 x) (real64 y))) (fun x => x) (fun x => x) (fofZ 3) (fofZ 2).
Lemma plm_ok : pow64 plm 1.
Proof.
  intros x y _ _ Hx Hy. cbn [lm_pow plm]. destruct (span_pow 400 (real64 x) (real64 y) ltac:(lia) Hy Hx) as [L U].
  assert (P : 0 < Rpower (real64 x) (real64 y)) by apply exp_pos. destruct (rnd_near (Rpower (real64 x) (real64 y)) ltac:(lra)) as [N B].
  { right. rewrite Rabs_pos_eq by lra. split; [apply Rle_trans with (bpow radix2 (- (400))); [apply bpow_le; lia|exact L]|apply Rle_trans with (bpow radix2 400); [exact U|apply bpow_le; lia]]. }
  destruct (of_real_ok _ B) as [V F]. split; [exact F|]. rewrite V. exact N.
Qed.
(** VHS, reference cross section 5 at temperature 3, exponent 3/4, masses 2 and 2, speed 2: 5 * (6/4)^(1/4) up to 9 roundings. *)
Definition pmu : reducedMass (F64 plm) := ReducedMass (N:=F64 plm) (fofZ 2) (fofZ 2).
Definition pw : binary64 := fdiv (fofZ 3) (fofZ 4).
Definition pvhs : xsec (F64 plm) := XVHS (N:=F64 plm) (mkVHS (N:=F64 plm) (fofZ 5) (fofZ 3) pw (fofZ 1)) pmu (fofZ 0) (fofZ 0).
Example C97_vhs_case : exists s s', sigma (N:=F64 plm) (fofZ 1) pvhs (fofZ 2) = Ok s /\ approx64 9 s s' /\
  s' = 5 * Rpower (2 * 1 * 3 / (1 * (2 * 2) + bpow radix2 (-1022))) (3 / 4 - 1 / 2) * 1.
Proof.
  assert (Vm : real64 (rm_value pmu) = 1) by (vm_compute; lra). assert (Vw : real64 pw = 3 / 4) by (vm_compute; lra).
  assert (Nm : pos64 (rm_value pmu)). { split; [split; [vm_compute; reflexivity|right; rewrite Vm]|rewrite Vm; lra]. split; [change 1 with (bpow radix2 0)|change 1 with (bpow radix2 0)]; apply bpow_le; lia. }
  assert (P : forall z, (1 <= z <= 1000)%Z -> pos64 (fofZ z)). { intros z Hz. split; [apply d_num; lia|]. rewrite fofZ_val by lia. apply IZR_lt. lia. }
  set (mu' := ReducedMass (N:=RNum) 2 2). assert (Em : rm_value mu' = 1) by (change (2 * 2 / (2 + 2) = 1); lra).
  assert (D : double_xs (lm:=plm) (fofZ 1) (real64 (fofZ 1)) 9 pvhs (XVHS (N:=RNum) (mkVHS (N:=RNum) (real64 (fofZ 5)) (real64 (fofZ 3)) (real64 pw) (real64 (fofZ 1))) mu' (real64 (fofZ 0)) (real64 (fofZ 0)))).
  { apply (double_simple_xs _ _ _ (1 + 8)); [|lia]. apply double_vhs; try (apply d_num; lia); try (apply P; lia); [exact plm_ok|vm_compute; reflexivity|rewrite Vw; lra|exact Nm|rewrite Vm; exact Em|reflexivity]. }
  destruct (C97_cross_sections plm (fofZ 1) (real64 (fofZ 1)) 9 _ _ (fofZ 2) ltac:(lia) D (d_num 2 ltac:(lia)) (proj2 (P 2%Z ltac:(lia)))) as [A _].
  rewrite !fofZ_val in A by lia. rewrite Vw in A. cbn [sigma] in A.
  change (nltb (n:=RNum) 2 0) with (Rltb 2 0) in A. unfold Rltb in A. destruct (Rlt_dec 2 0); [exfalso; lra|].
  destruct (sigma (N:=F64 plm) (fofZ 1) pvhs (fofZ 2)) as [s| | |]; cbn [agree64] in A; try contradiction. exists s. eexists. split; [reflexivity|]. split; [exact A|].
  unfold vhs_sigma. cbn [vhs_cs vhs_Tref vhs_visc vhs_ginv]. rewrite Em. change (npow (n:=RNum)) with Rpow. unfold Rpow.
  pose proof (bpow_gt_0 radix2 (-1022)) as B. change (@ndblmin RNum) with (bpow radix2 (-1022)).
  assert (Y : 0 < 2 * 1 * 3 / (1 * (2 * 2) + bpow radix2 (-1022))) by (apply Rdiv_lt_0_compat; lra).
  match goal with |- context [Req_EM_T ?a 0] => destruct (Req_EM_T a 0) as [Q|Q] end; [exfalso; change (2 * 1 * 3 / (1 * (2 * 2) + bpow radix2 (-1022)) = 0) in Q; lra|reflexivity].
Qed.
