(** Statement-level lemmas for loaded inelastic reactions. *)
From Coq Require Import Reals Lra Lia String List ZArith Bool.
From Flocq Require Import IEEE754.BinarySingleNaN.
From Verif Require Import Base Num ModelTerm ModelCollide ModelFactories SpecTerm SpecPhys SpecFactories
  ProofTerm ProofCollide ProofInelastic ProofFactories ProofF64.
Import ListNotations.
Local Open Scope R_scope.

Notation positive := (fun m : R => 0 < m).

Lemma Forall2_two {A B} (P : A -> B -> Prop) l b0 b1 : Forall2 P l [b0; b1] ->
  exists a0 a1, l = [a0; a1] /\ P a0 b0 /\ P a1 b1.
Proof. intros H. inversion H as [|? ? ? ? ? H1]; subst. inversion H1 as [|? ? ? ? ? H2]; subst. inversion H2; subst. eauto. Qed.
Lemma Forall2_three {A B} (P : A -> B -> Prop) l b0 b1 b2 : Forall2 P l [b0; b1; b2] ->
  exists a0 a1 a2, l = [a0; a1; a2] /\ P a0 b0 /\ P a1 b1 /\ P a2 b2.
Proof.
  intros H. inversion H as [|? ? ? ? ? H1]; subst. apply Forall2_two in H1 as (a0 & a1 & -> & ? & ?).
  eexists _, _, _. eauto.
Qed.

Lemma react22 db spf parse fcm fcq kec thrE (e : eqcore RNum) model mA mB M0 M1 inplace (p1 p2 : rpart) l g k :
  reaction (N:=RNum) positive db e mA mB [M0; M1] ->
  hasExpressions (e_products e) = false ->
  inelastic_new_load db spf parse fcm fcq kec thrE e = Ok model ->
  let dE := match kec with Some d => d | None => - thrE end in
  exists q1 q2,
    model_interact inplace model p1 p2 l g k = Ok (p1, p2, l ++ [q1; q2], (k + 2)%nat) /\
    momentum2 M0 (p_vel q1) M1 (p_vel q2)
      = scale3 ((M0 + M1) / (mA + mB)) (momentum2 mA (p_vel p1) mB (p_vel p2)) /\
    (M0 + M1 = mA + mB ->
     momentum2 M0 (p_vel q1) M1 (p_vel q2) = momentum2 mA (p_vel p1) mB (p_vel p2)) /\
    (M0 + M1 = mA + mB -> 0 <= g_rand g k <= 1 ->
     0 <= mA * mB / (mA + mB) / 2 * dist2 (p_vel p1) (p_vel p2) + dE ->
     kinetic M0 (p_vel q1) + kinetic M1 (p_vel q2) = kinetic mA (p_vel p1) + kinetic mB (p_vel p2) + dE).
Proof.
  intros (HA & HB & Hmu & Hok & HF & HmA & HmB & Hms) Hx Hload dE.
  apply Forall2_two in HF as (s0 & s1 & Hexp & (q0 & Hd0) & (q1 & Hd1)).
  apply Forall_cons_iff in Hms as [HM0 Hms]. apply Forall_cons_iff in Hms as [HM1 _].
  destruct (load22 _ _ _ _ _ _ _ _ _ _ _ Hok Hexp Hload)
    as (m & M0' & Q0 & M1' & Q1 & -> & E0 & E1 & Em1 & Esc & EdV & EhE & EuX & Hcl & _).
  rewrite Hd0 in E0. injection E0 as <- <-. rewrite Hd1 in E1. injection E1 as <- <-.
  destruct Hcl as [Hcmu Hnf Hne _ _].
  destruct (interact22_shape inplace m p1 p2 l g k) as (f0 & f1 & _ & ->); [congruence|assumption|assumption|].
  cbv zeta. eexists _, _. split; [reflexivity|].
  unfold built, setVelocity; cbn [p_vel].
  unfold vel22. rewrite Hcmu, Hmu, Em1. cbn [fst snd].
  set (W := isoVel _ _ _). rewrite splits_momentum, cm_momentum by assumption.
  split; [reflexivity|]. split.
  { intros Hb. rewrite Hb. replace ((mA + mB) / (mA + mB)) with 1 by (field; lra).
    unfold scale3, momentum2. rewrite !Rmult_1_l. reflexivity. }
  intros Hb Hr Hnn. rewrite splits_energy, Hb, cm_energy by assumption.
  rewrite Esc, Hmu. unR.
  pose proof (rm_pos _ _ HmA HmB) as Hp. pose proof (rm_pos _ _ HM0 HM1) as Hp1.
  rewrite !rm_val, (scale_sq _ _ Hp Hp1).
  unfold W. rewrite iso_norm2 by assumption.
  change (energy_change (N:=RNum) kec thrE) with (match kec with Some d => d | None => 0 - thrE end) in *.
  assert (HdE : (match kec with Some d => d | None => 0 - thrE end) = dE) by (unfold dE; destruct kec; [reflexivity|unR; ring]).
  rewrite HdE in EdV, EhE. rewrite EdV. rewrite <- EhE. rewrite Hmu, rm_val.
  rewrite (vrel_sq (i2_hasE m) (p_vel p1) (p_vel p2) dE _ Hp EhE Hnn). ring.
Qed.

Lemma react23 db spf parse fcm fcq kec thrE (e : eqcore RNum) model mA mB M0 M1 M2 inplace (p1 p2 : rpart) l g k :
  reaction (N:=RNum) positive db e mA mB [M0; M1; M2] ->
  hasExpressions (e_products e) = false ->
  inelastic_new_load db spf parse fcm fcq kec thrE e = Ok model ->
  let dE := match kec with Some d => d | None => - thrE end in
  exists q1 q2 q3,
    model_interact inplace model p1 p2 l g k = Ok (p1, p2, l ++ [q1; q2; q3], (k + 5)%nat) /\
    momentum3 M0 (p_vel q1) M1 (p_vel q2) M2 (p_vel q3)
      = scale3 ((M0 + M1 + M2) / (mA + mB)) (momentum2 mA (p_vel p1) mB (p_vel p2)) /\
    (M0 + M1 + M2 = mA + mB ->
     momentum3 M0 (p_vel q1) M1 (p_vel q2) M2 (p_vel q3) = momentum2 mA (p_vel p1) mB (p_vel p2)) /\
    (M0 + M1 + M2 = mA + mB -> rng_ok g ->
     0 <= mA * mB / (mA + mB) / 2 * dist2 (p_vel p1) (p_vel p2) + dE ->
     kinetic M0 (p_vel q1) + kinetic M1 (p_vel q2) + kinetic M2 (p_vel q3)
     = kinetic mA (p_vel p1) + kinetic mB (p_vel p2) + dE).
Proof.
  intros (HA & HB & Hmu & Hok & HF & HmA & HmB & Hms) Hx Hload dE.
  apply Forall2_three in HF as (s0 & s1 & s2 & Hexp & (q0 & Hd0) & (q1 & Hd1) & (q2 & Hd2)).
  apply Forall_cons_iff in Hms as [HM0 Hms]. apply Forall_cons_iff in Hms as [HM1 Hms].
  apply Forall_cons_iff in Hms as [HM2 _].
  destruct (load23 _ _ _ _ _ _ _ _ _ _ _ _ Hok Hexp Hload)
    as (m & M0' & Q0 & M1' & Q1 & M2' & Q2 & -> & E0 & E1 & E2 & Em1 & Em2 & Es1 & Es2 & EdV & EhE & EuX & Hcl & _).
  rewrite Hd0 in E0. injection E0 as <- <-. rewrite Hd1 in E1. injection E1 as <- <-.
  rewrite Hd2 in E2. injection E2 as <- <-.
  destruct Hcl as [Hcmu Hnf Hne _ _].
  destruct (interact23_shape inplace m p1 p2 l g k) as (f0 & f1 & f2 & _ & ->); [congruence|assumption|assumption|].
  cbv zeta. eexists _, _, _. split; [reflexivity|].
  unfold built, setVelocity; cbn [p_vel].
  unfold vel23. rewrite Hcmu, Hmu, Em1, Em2. cbn [fst snd].
  set (W1 := isoVel (g_rand g (k + 1)) _ _). set (W2 := isoVel (g_rand g (k + 3)) _ _).
  set (cm := VelCM _ _ _).
  change (nadd (n:=RNum) M1 M2) with (M1 + M2).
  set (cm' := vsub cm _).
  assert (HM12 : 0 < M1 + M2) by lra.
  pose proof (splits_momentum M1 M2 (i3_mu2_scale m) cm' W2 HM1 HM2) as P2.
  pose proof (splits_momentum M0 (M1 + M2) (i3_mu1_scale m) cm W1 HM0 HM12) as P1.
  pose proof (splits_energy M1 M2 (i3_mu2_scale m) cm' W2 HM1 HM2) as K2.
  pose proof (splits_energy M0 (M1 + M2) (i3_mu1_scale m) cm W1 HM0 HM12) as K1.
  cbv zeta in *. fold cm' in P1, K1.
  assert (P : momentum3 M0 (vadd cm (vscale (nmul (over_m1 (ReducedMass (N:=RNum) M0 (M1 + M2)%R)) (i3_mu1_scale m)) W1))
     M1 (vadd cm' (vscale (nmul (over_m1 (ReducedMass (N:=RNum) M1 M2)) (i3_mu2_scale m)) W2))
     M2 (vsub cm' (vscale (nmul (over_m2 (ReducedMass (N:=RNum) M1 M2)) (i3_mu2_scale m)) W2))
     = scale3 ((M0 + M1 + M2) / (mA + mB)) (momentum2 mA (p_vel p1) mB (p_vel p2))).
  { rewrite <- cm_momentum by assumption. fold cm.
    replace (M0 + M1 + M2) with (M0 + (M1 + M2)) by ring.
    rewrite <- P1. unfold momentum2, momentum3, scale3 in *.
    apply pair_equal_spec in P2 as [P2 P2z]. apply pair_equal_spec in P2 as [P2x P2y].
    unR. apply f_equal2; [apply f_equal2|]; lra. }
  rewrite P. split; [reflexivity|]. split.
  { intros Hb. rewrite Hb. replace ((mA + mB) / (mA + mB)) with 1 by (field; lra).
    unfold scale3, momentum2. rewrite !Rmult_1_l. reflexivity. }
  intros Hb Hg Hnn.
  rewrite Rplus_assoc, K2.
  match goal with |- ?a + (?b + ?c) = _ => transitivity ((a + b) + c); [ring|] end.
  rewrite K1.
  replace (M0 + (M1 + M2)) with (mA + mB) by lra.
  unfold cm. rewrite cm_energy by assumption.
  rewrite Es1, Es2, Hmu. unR.
  pose proof (rm_pos _ _ HmA HmB) as Hp. pose proof (rm_pos _ _ HM0 HM12) as Hp1. pose proof (rm_pos _ _ HM1 HM2) as Hp2.
  rewrite !rm_val, (scale_sq _ _ Hp Hp1), (scale_sq _ _ Hp Hp2).
  unfold W1, W2. rewrite !iso_norm2 by apply Hg.
  change (energy_change (N:=RNum) kec thrE) with (match kec with Some d => d | None => 0 - thrE end) in *.
  assert (HdE : (match kec with Some d => d | None => 0 - thrE end) = dE) by (unfold dE; destruct kec; [reflexivity|unR; ring]).
  rewrite HdE in EdV, EhE. rewrite EdV. rewrite <- EhE. rewrite Hmu, rm_val.
  pose proof (vrel_sq (i3_hasE m) (p_vel p1) (p_vel p2) dE _ Hp EhE Hnn) as Hv.
  unR. revert Hv. generalize (CalculateVRel (N:=RNum) (i3_hasE m) (p_vel p1) (p_vel p2) ((if i3_hasE m then dE else 0) / (1 / 2 * (mA * mB / (mA + mB))))%R). unR. intros SS Hv.
  assert (Hq : 0 <= g_rand g k <= 1) by apply Hg.
  set (q := g_rand g k) in *.
  assert (S1 : R_sqrt.sqrt q * R_sqrt.sqrt q = q) by (apply sqrt_sqrt; lra).
  assert (S2 : R_sqrt.sqrt (1 - q) * R_sqrt.sqrt (1 - q) = 1 - q) by (apply sqrt_sqrt; lra).
  replace ((SS * R_sqrt.sqrt q) ^ 2) with (SS ^ 2 * (R_sqrt.sqrt q * R_sqrt.sqrt q)) by ring.
  replace ((SS * R_sqrt.sqrt (1 - q)) ^ 2) with (SS ^ 2 * (R_sqrt.sqrt (1 - q) * R_sqrt.sqrt (1 - q))) by ring.
  rewrite S1, S2. set (mu := mA * mB / (mA + mB)) in *.
  replace (mu / 2 * (SS ^ 2 * q)) with ((mu / 2 * SS ^ 2) * q) by ring.
  replace (mu / 2 * (SS ^ 2 * (1 - q))) with ((mu / 2 * SS ^ 2) * (1 - q)) by ring.
  rewrite Hv. ring.
Qed.

(** ** NaN below threshold *)
Section Nan.
Context (lm : libm).
Notation N := (F64 lm).
Definition all_nan (v : vec N) : Prop := vx v = fnan /\ vy v = fnan /\ vz v = fnan.

Lemma react22_nan db spf parse fcm fcq kec thrE (e : eqcore N) model s0 s1 inplace (p1 p2 : particle N) l g k :
  terms_ok (e_products e) -> expand_species (e_products e) = [s0; s1] ->
  hasExpressions (e_products e) = false ->
  inelastic_new_load db spf parse fcm fcq kec thrE e = Ok model ->
  let dE := match kec with Some d => d | None => fsub (fofZ 0) thrE end in
  Beqb dE (fofZ 0) = false ->
  Bltb (fadd (vsqr (N:=N) (vsub (p_vel p1) (p_vel p2))) (fdiv dE (fmul (fdiv (fofZ 1) (fofZ 2)) (rm_value (e_mu e))))) (fofZ 0) = true ->
  exists q1 q2, model_interact inplace model p1 p2 l g k = Ok (p1, p2, l ++ [q1; q2], (k + 2)%nat) /\
    all_nan (p_vel q1) /\ all_nan (p_vel q2).
Proof.
  intros Hok Hexp Hx Hload dE HdE Hlt.
  destruct (load22 _ _ _ _ _ _ _ _ _ _ _ Hok Hexp Hload)
    as (m & M0' & Q0 & M1' & Q1 & -> & E0 & E1 & Em1 & Esc & EdV & EhE & EuX & Hcl & _).
  destruct Hcl as [Hcmu Hnf Hne _ _].
  destruct (interact22_shape inplace m p1 p2 l g k) as (f0 & f1 & _ & ->); [congruence|assumption|assumption|].
  assert (HdE' : neqb (n:=N) (energy_change (N:=N) kec thrE) n0 = false) by exact HdE.
  rewrite HdE' in *. cbn [negb] in *.
  rewrite vel22_nan; [|assumption|].
  2:{ rewrite EdV. exact Hlt. }
  cbv zeta. eexists _, _. split; [reflexivity|]. cbn. repeat split.
Qed.

Lemma react23_nan db spf parse fcm fcq kec thrE (e : eqcore N) model s0 s1 s2 inplace (p1 p2 : particle N) l g k :
  terms_ok (e_products e) -> expand_species (e_products e) = [s0; s1; s2] ->
  hasExpressions (e_products e) = false ->
  inelastic_new_load db spf parse fcm fcq kec thrE e = Ok model ->
  let dE := match kec with Some d => d | None => fsub (fofZ 0) thrE end in
  Beqb dE (fofZ 0) = false ->
  Bltb (fadd (vsqr (N:=N) (vsub (p_vel p1) (p_vel p2))) (fdiv dE (fmul (fdiv (fofZ 1) (fofZ 2)) (rm_value (e_mu e))))) (fofZ 0) = true ->
  exists q1 q2 q3, model_interact inplace model p1 p2 l g k = Ok (p1, p2, l ++ [q1; q2; q3], (k + 5)%nat) /\
    all_nan (p_vel q1) /\ all_nan (p_vel q2) /\ all_nan (p_vel q3).
Proof.
  intros Hok Hexp Hx Hload dE HdE Hlt.
  destruct (load23 _ _ _ _ _ _ _ _ _ _ _ _ Hok Hexp Hload)
    as (m & M0' & Q0 & M1' & Q1 & M2' & Q2 & -> & E0 & E1 & E2 & Em1 & Em2 & Es1 & Es2 & EdV & EhE & EuX & Hcl & _).
  destruct Hcl as [Hcmu Hnf Hne _ _].
  destruct (interact23_shape inplace m p1 p2 l g k) as (f0 & f1 & f2 & _ & ->); [congruence|assumption|assumption|].
  assert (HdE' : neqb (n:=N) (energy_change (N:=N) kec thrE) n0 = false) by exact HdE.
  rewrite HdE' in *. cbn [negb] in *.
  rewrite vel23_nan; [|assumption|].
  2:{ rewrite EdV. exact Hlt. }
  cbv zeta. eexists _, _, _. split; [reflexivity|]. cbn. repeat split.
Qed.
End Nan.

(** ** Dispatch on the number of products *)
Lemma dispatch {N : Num} db spf parse fcm fcq kec thrE (e : eqcore N) :
  let dE := energy_change kec thrE in
  (numberProducts e <> 2 -> numberProducts e <> 3 ->
     exists model, inelastic_new_load db spf parse fcm fcq kec thrE e = Ok model /\
     forall inplace p1 p2 l g k, model_interact inplace model p1 p2 l g k = Throw ExnRuntime)%Z /\
  (forall model, inelastic_new_load db spf parse fcm fcq kec thrE e = Ok model ->
     (numberProducts e = 2%Z -> exists m, model = MIn22 m /\ i2_hasE m = negb (neqb dE n0) /\
         i2_useX m = hasExpressions (e_products e)) /\
     (numberProducts e = 3%Z -> exists m, model = MIn23 m /\ i3_hasE m = negb (neqb dE n0) /\
         i3_useX m = hasExpressions (e_products e))).
Proof.
  cbv zeta. split.
  - intros H2 H3. exists MInBare. unfold inelastic_new_load.
    destruct (Z.eqb_spec (numberProducts e) 2); [contradiction|].
    destruct (Z.eqb_spec (numberProducts e) 3); [contradiction|]. split; reflexivity.
  - intros model H. split; intros Hn; unfold inelastic_new_load in H; fold (energy_change kec thrE) in H; rewrite Hn in H.
    + change (2 =? 2)%Z with true in H. cbv iota in H. oinv H. oinv E0. injection E2 as <-.
      exists a0. split; [reflexivity|]. unfold make22 in E1.
      destruct (_ && _)%bool in E1; [discriminate|]. destruct (_ || _)%bool in E1; [discriminate|].
      destruct (negb (Bool.eqb _ _)) in E1; [discriminate|]. destruct (existsb _ _) in E1; [discriminate|].
      oinv E1. oinv E2. oinv E3. destruct a3. oinv E4. destruct a3. injection E5 as <-. split; reflexivity.
    + change (3 =? 2)%Z with false in H. change (3 =? 3)%Z with true in H. cbv iota in H. oinv H. oinv E0. injection E2 as <-.
      exists a0. split; [reflexivity|]. unfold make23 in E1.
      destruct (_ && _)%bool in E1; [discriminate|]. destruct (_ || _)%bool in E1; [discriminate|].
      destruct (negb (Bool.eqb _ _)) in E1; [discriminate|]. destruct (existsb _ _) in E1; [discriminate|].
      oinv E1. oinv E2. oinv E3. oinv E4. destruct a4. oinv E5. destruct a4. oinv E6. destruct a4. injection E7 as <-. split; reflexivity.
Qed.

(** ** Species and sources of the products *)
Section Sources.
Context {N : Num}.

Lemma mc_copies_facts (m q : N) sp from n l : mc_copies m q sp from n = Ok l ->
  map mc_species l = repeat sp n /\ map mc_from l = firstn n from /\ length l = n /\
  map mc_mass l = repeat m n /\ map mc_charge l = repeat q n.
Proof.
  revert from l; induction n as [|n IH]; intros from l H; cbn in H.
  - injection H as <-. repeat split.
  - destruct from as [|f from]; [discriminate|]. oinv H. injection E0 as <-.
    destruct (IH _ _ E) as (H1 & H2 & H3 & H4 & H5). cbn. rewrite H1, H2, H3, H4, H5. repeat split.
Qed.

Lemma massChargeOut_facts db ps (mout : list (massCharge N)) : massChargeOut db ps = Ok mout ->
  map mc_species mout = expand_species ps /\
  map mc_from mout = concat (map (fun t => firstn (Z.to_nat (t_n t)) (t_from t)) ps).
Proof.
  intros H. unfold massChargeOut in H. oinv H. injection E0 as <-. apply omap_ok in E.
  unfold expand_species. rewrite !concat_map. induction E as [|t l ps ls Ht _ IH]; [split; reflexivity|].
  destruct IH as [IH1 IH2]. cbn [map concat]. rewrite IH1, IH2.
  cbv beta in Ht. destruct (Z.leb_spec (t_n t) 0) as [Hn|Hn] in Ht.
  - injection Ht as <-. replace (Z.to_nat (t_n t)) with 0%nat by lia. split; reflexivity.
  - oinv Ht. destruct a as [m q]. apply mc_copies_facts in E0 as (H1 & H2 & _). rewrite H1, H2. split; reflexivity.
Qed.

Lemma fold_or_true {A} (h : A -> bool) l b : b = true -> fold_left (fun b f => b || h f)%bool l b = true.
Proof. intros ->. induction l; auto. Qed.
Lemma fold_or_in {A} (h : A -> bool) l b x : In x l -> h x = true -> fold_left (fun b f => b || h f)%bool l b = true.
Proof.
  revert b; induction l as [|y l IH]; intros b Hin Hx; [destruct Hin|].
  cbn. destruct Hin as [->|Hin]; [|eauto]. rewrite Hx, orb_true_r. apply fold_or_true. reflexivity.
Qed.

Lemma built_realises (b : inelastic N) (o : massCharge N) pl f p1 p2 w :
  In f (ie_factories b) -> realises o pl f ->
  p_species (built b f p1 p2 w) = mc_species o /\ starts_at (ie_mu b) (ie_muQ b) p1 p2 pl (built b f p1 p2 w) /\
  p_vel (built b f p1 p2 w) = w.
Proof.
  intros Hin [Ht Hp]. unfold built, factory_create, make_scratch.
  destruct pl; destruct Hp as [Hs Ho]; rewrite Ho, Ht.
  - rewrite Hs. cbn. auto.
  - rewrite Hs. cbn. auto.
  - rewrite (fold_or_in (fun f => fop_eqb (f_op f) CM) _ _ f Hin) by (rewrite Ho; reflexivity).
    cbn [s_cm]. destruct Hs as [-> | ->]; cbn; auto.
  - rewrite (fold_or_in (fun f => fop_eqb (f_op f) CQ) _ _ f Hin) by (rewrite Ho; reflexivity).
    cbn [s_cq]. destruct Hs as [-> | ->]; cbn; auto.
Qed.
End Sources.

Section SourcesG.
Context {N : Num} (inf : N).
Hypothesis irr : forall x : N, nltb x x = false.
Hypothesis trs : forall x y z : N, nltb x y = true -> nltb y z = true -> nltb x z = true.

Lemma react_sources_gen db parse fcm fcq kec thrE (e : eqcore N) model inplace (p1 p2 : particle N) l g k :
  terms_ok (e_products e) ->
  (length (expand_species (e_products e)) = 2 \/ length (expand_species (e_products e)) = 3)%nat ->
  hasExpressions (e_products e) = false ->
  inelastic_new_load db (setParticleFactories (N:=N) inf) parse fcm fcq kec thrE e = Ok model ->
  exists qs pls k' mA qA mB qB,
    model_interact inplace model p1 p2 l g k = Ok (p1, p2, l ++ qs, k') /\
    db (t_species (e_A e)) = Ok (mA, qA) /\ db (t_species (e_B e)) = Ok (mB, qB) /\
    map p_species qs = expand_species (e_products e) /\
    Forall2 (fun fr pl => (0 <= fr)%Z -> place_index pl = fr)
       (concat (map (fun t => firstn (Z.to_nat (t_n t)) (t_from t)) (e_products e))) pls /\
    Forall2 (starts_at (e_mu e) (ReducedMass qA qB) p1 p2) pls qs.
Proof.
  intros Hok Hlen Hx Hload.
  assert (Hgen : forall (b : inelastic N) n (ws : list (vec N)),
     common_loaded db (setParticleFactories (N:=N) inf) e b n ->
     length ws = n ->
     exists pls mA qA mB qB, db (t_species (e_A e)) = Ok (mA, qA) /\ db (t_species (e_B e)) = Ok (mB, qB) /\
       ie_mu b = e_mu e /\ ie_muQ b = ReducedMass qA qB /\
       let qs := map (fun fw => built b (fst fw) p1 p2 (snd fw)) (combine (ie_factories b) ws) in
       map p_species qs = expand_species (e_products e) /\
       Forall2 (fun fr pl => (0 <= fr)%Z -> place_index pl = fr)
         (concat (map (fun t => firstn (Z.to_nat (t_n t)) (t_from t)) (e_products e))) pls /\
       Forall2 (starts_at (ie_mu b) (ie_muQ b) p1 p2) pls qs).
  { intros b n ws [Hmu Hnf Hne (mout & min & Hout & Hin & Hspf) (mA & qA & mB & qB & HdA & HdB & HmuQ)] Hws.
    destruct (massChargeOut_facts _ _ _ Hout) as [Hsp Hfr].
    unfold massChargeIn in Hin. rewrite HdA, HdB in Hin. cbn [obind] in Hin. injection Hin as <-.
    unfold setParticleFactories in Hspf. oinv Hspf. destruct a as [s fs]. injection E0 as ->.
    destruct (factories_spec (N:=N) inf _ _ irr trs _ _ _ E) as (pls & Hadm & _ & HF & _).
    exists pls, mA, qA, mB, qB. do 4 (split; [assumption|]). cbv zeta.
    assert (HFin : Forall2 (fun op f => realises (fst op) (snd op) f /\ In f (ie_factories b)) (combine mout pls) (ie_factories b)).
    { clear -HF. assert (forall l', incl (ie_factories b) l' -> Forall2 (fun op f => realises (fst op) (snd op) f /\ In f l') (combine mout pls) (ie_factories b)).
      { intros l' Hl. induction HF; constructor; auto. - split; auto. apply Hl; left; reflexivity.
        - apply IHHF. intros z Hz; apply Hl; right; assumption. }
      apply H, incl_refl. }
    rewrite <- Hsp, <- Hfr. clear -HFin Hadm Hws Hnf.
    assert (length ws = length (ie_factories b)) by congruence. clear Hws Hnf.
    set (fs := ie_factories b) in HFin at 2, H |- *. clearbody fs.
    split; [|split].
    - revert fs ws H HFin. induction Hadm as [|o pl mo pls Ho Ha IH]; intros fs ws Hl HF; inversion HF; subst; [reflexivity|].
      destruct ws as [|w ws]; [discriminate|]. cbn [combine map fst snd].
      destruct H1 as [Hr Hi]. destruct (built_realises b o pl y p1 p2 w Hi Hr) as [-> _]. f_equal.
      apply IH; [injection Hl; auto|assumption].
    - clear -Hadm. induction Hadm; constructor; auto.
    - revert fs ws H HFin. induction Hadm as [|o pl mo pls Ho Ha IH]; intros fs ws Hl HF; inversion HF; subst; [constructor|].
      destruct ws as [|w ws]; [discriminate|]. cbn [combine map fst snd].
      destruct H1 as [Hr Hi]. destruct (built_realises b o pl y p1 p2 w Hi Hr) as (_ & Hst & _). constructor; [assumption|].
      apply IH; [injection Hl; auto|assumption]. }
  destruct Hlen as [Hlen|Hlen].
  - destruct (expand_species (e_products e)) as [|s0 [|s1 [|? ?]]] eqn:Hexp; try discriminate.
    destruct (load22 _ _ _ _ _ _ _ _ _ _ _ Hok Hexp Hload)
      as (m & M0' & Q0 & M1' & Q1 & -> & E0 & E1 & Em1 & Esc & EdV & EhE & EuX & Hcl & _).
    destruct (interact22_shape inplace m p1 p2 l g k) as (f0 & f1 & Hf & ->); [congruence|apply Hcl|apply Hcl|].
    cbv zeta. set (w := vel22 _ _ _ _ _).
    destruct (Hgen (i2_base m) 2%nat [fst w; snd w] Hcl eq_refl) as (pls & mA & qA & mB & qB & HA & HB & Hm & HmQ & H1 & H2 & H3).
    cbv zeta in *. rewrite Hf in *. cbn [combine map fst snd] in *.
    rewrite Hm, HmQ in H3. eexists _, pls, _, mA, qA, mB, qB. split; [reflexivity|]. auto 10.
  - destruct (expand_species (e_products e)) as [|s0 [|s1 [|s2 [|? ?]]]] eqn:Hexp; try discriminate.
    destruct (load23 _ _ _ _ _ _ _ _ _ _ _ _ Hok Hexp Hload)
      as (m & M0' & Q0 & M1' & Q1 & M2' & Q2 & -> & E0 & E1 & E2 & Em1 & Em2 & Es1 & Es2 & EdV & EhE & EuX & Hcl & _).
    destruct (interact23_shape inplace m p1 p2 l g k) as (f0 & f1 & f2 & Hf & ->); [congruence|apply Hcl|apply Hcl|].
    cbv zeta. set (w := vel23 _ _ _ _ _ _ _ _).
    destruct (Hgen (i3_base m) 3%nat [fst (fst w); snd (fst w); snd w] Hcl eq_refl) as (pls & mA & qA & mB & qB & HA & HB & Hm & HmQ & H1 & H2 & H3).
    cbv zeta in *. rewrite Hf in *. cbn [combine map fst snd] in *.
    rewrite Hm, HmQ in H3. eexists _, pls, _, mA, qA, mB, qB. split; [reflexivity|]. auto 10.
Qed.
End SourcesG.

Lemma react_sources (lm : libm) db parse fcm fcq kec thrE (e : eqcore (F64 lm)) model inplace (p1 p2 : particle (F64 lm)) l g k :
  terms_ok (e_products e) ->
  (length (expand_species (e_products e)) = 2 \/ length (expand_species (e_products e)) = 3)%nat ->
  hasExpressions (e_products e) = false ->
  inelastic_new_load db (setParticleFactories (N:=F64 lm) finf) parse fcm fcq kec thrE e = Ok model ->
  exists qs pls k' mA qA mB qB,
    model_interact inplace model p1 p2 l g k = Ok (p1, p2, l ++ qs, k') /\
    db (t_species (e_A e)) = Ok (mA, qA) /\ db (t_species (e_B e)) = Ok (mB, qB) /\
    map p_species qs = expand_species (e_products e) /\
    Forall2 (fun fr pl => (0 <= fr)%Z -> place_index pl = fr)
       (concat (map (fun t => firstn (Z.to_nat (t_n t)) (t_from t)) (e_products e))) pls /\
    Forall2 (starts_at (e_mu e) (ReducedMass qA qB) p1 p2) pls qs.
Proof. exact (react_sources_gen (N:=F64 lm) finf fltb_irrefl fltb_trans _ _ _ _ _ _ _ _ _ _ _ _ _ _). Qed.
