(** C12, C30-C44, C64: interaction sets, pair selection and the driver. *)
From Coq Require Import Reals Lra Lia String List ZArith Bool Permutation.
From Flocq Require Import Core.Core IEEE754.BinarySingleNaN.
From Verif Require Import Base Num ModelTerm ModelCollide ModelFactories ModelXsec ModelSet SpecTerm SpecPhys SpecFactories SpecXsec SpecSet
  ProofCollide ProofF64 ProofInelastic ProofReact ProofXsec ProofData ProofSet ProofThr ProofFloat ProofSelect ProofDriver ProofDriver2
  ProofDriver3 ProofDriver4 ProofDriver5 ProofTop3 Properties1 Properties2.
From Coq Require Import List.
Import ListNotations.
Local Open Scope R_scope.

(** C12.  Real arithmetic, any cross section class: when a channel whose energy change is
    the default one (minus its threshold energy E) is selected by Set::interact, the
    products carry exactly the reactants' momentum and kinetic energy less E. *)
Theorem C12_selected_two : forall K fuel allowed inf ninf tol solve db spf parse fcm fcq
    (e : eqcore RNum) doc c E model rhs (max : R) inplace (pA pB : rpart) l g k j path a b l' k' mA mB M0 M1 cs,
  reaction (N:=RNum) positive db e mA mB [M0; M1] -> M0 + M1 = mA + mB -> hasExpressions (e_products e) = false ->
  doc_ok doc -> 0 <= inf -> solver_in_bracket solve ->
  xs_load (N:=RNum) fuel allowed inf ninf tol solve (e_mu e) doc = Ok c -> getThresholdEnergy c = Ok E ->
  inelastic_new_load (N:=RNum) db spf parse fcm fcq None E e = Ok model ->
  nth_error rhs j = Some (mkEquation (N:=RNum) e c model) ->
  channels K rhs (relspeed (p_vel pA) (p_vel pB)) cs -> List.Forall (fun x => 0 <= x) cs -> rng_ok g ->
  set_interact (N:=RNum) K inplace rhs max pA pB l g k = Ok (path, a, b, l', k') -> fst path = Z.of_nat j ->
  exists q1 q2, l' = l ++ [q1; q2] /\
    momentum2 M0 (p_vel q1) M1 (p_vel q2) = momentum2 mA (p_vel (low pA pB)) mB (p_vel (high pA pB)) /\
    kinetic M0 (p_vel q1) + kinetic M1 (p_vel q2)
      = kinetic mA (p_vel (low pA pB)) + kinetic mB (p_vel (high pA pB)) - E.
Proof. exact selected22. Qed.
Print Assumptions C12_selected_two.
Theorem C12_selected_three : forall K fuel allowed inf ninf tol solve db spf parse fcm fcq
    (e : eqcore RNum) doc c E model rhs (max : R) inplace (pA pB : rpart) l g k j path a b l' k' mA mB M0 M1 M2 cs,
  reaction (N:=RNum) positive db e mA mB [M0; M1; M2] -> M0 + M1 + M2 = mA + mB -> hasExpressions (e_products e) = false ->
  doc_ok doc -> 0 <= inf -> solver_in_bracket solve ->
  xs_load (N:=RNum) fuel allowed inf ninf tol solve (e_mu e) doc = Ok c -> getThresholdEnergy c = Ok E ->
  inelastic_new_load (N:=RNum) db spf parse fcm fcq None E e = Ok model ->
  nth_error rhs j = Some (mkEquation (N:=RNum) e c model) ->
  channels K rhs (relspeed (p_vel pA) (p_vel pB)) cs -> List.Forall (fun x => 0 <= x) cs -> rng_ok g ->
  set_interact (N:=RNum) K inplace rhs max pA pB l g k = Ok (path, a, b, l', k') -> fst path = Z.of_nat j ->
  exists q1 q2 q3, l' = l ++ [q1; q2; q3] /\
    momentum3 M0 (p_vel q1) M1 (p_vel q2) M2 (p_vel q3) = momentum2 mA (p_vel (low pA pB)) mB (p_vel (high pA pB)) /\
    kinetic M0 (p_vel q1) + kinetic M1 (p_vel q2) + kinetic M2 (p_vel q3)
      = kinetic mA (p_vel (low pA pB)) + kinetic mB (p_vel (high pA pB)) - E.
Proof. exact selected23. Qed.
Print Assumptions C12_selected_three.

(** Masses 2+3 -> 1+4, threshold energy 1, relative speed 5. *)
Lemma ex_speed : relspeed (p_vel exA) (p_vel exB) = 5.
Proof. unfold relspeed, dist2; cbn. replace ((3 - 0) * ((3 - 0) * 1) + (0 - 0) * ((0 - 0) * 1) + (4 - 0) * ((4 - 0) * 1)) with (5²) by (unfold Rsqr; ring). apply sqrt_Rsqr. lra. Qed.
Example C12_case : exists c model path a b l' k',
  xs_load (N:=RNum) 0 true 0 0 dtol dsolve (e_mu exeq) (DConstant 5 (Some (QEnergy (N:=RNum) 1))) = Ok c /\ getThresholdEnergy c = Ok 1 /\
  inelastic_new_load (N:=RNum) exdb exspf (fun _ => Ok []) false false None 1 exeq = Ok model /\
  channels 1 [mkEquation exeq c model] (relspeed (p_vel exA) (p_vel exB)) [5] /\
  set_interact (N:=RNum) 1 true [mkEquation exeq c model] 50 exA exB [] exG 0 = Ok (path, a, b, l', k') /\ fst path = 0%Z /\
  solver_in_bracket dsolve.
Proof.
  assert (Hmu : 0 < rm_value (e_mu exeq)) by (unfold exeq; cbn [e_mu]; rewrite rm_val; unR; lra).
  destruct (C18_constant 1 0 true 0 0 dtol dsolve (e_mu exeq) 5 (Some (QEnergy (N:=RNum) 1)) Hmu) as [_ H].
  destruct H as (c & Ec & Et & Hs & _); [cbn; lra|].
  assert (Hm : exists m, inelastic_new_load (N:=RNum) exdb exspf (fun _ => Ok []) false false None 1 exeq = Ok m).
  { assert (Hq : neqb (n:=RNum) (nsub (n:=RNum) n0 1) n0 = false) by (cbn; destruct (Reqb_spec (0 - 1) 0); [lra|reflexivity]).
    unfold inelastic_new_load. change (numberProducts exeq) with 2%Z. cbv beta zeta. rewrite Hq.
    unfold make_inelastic, make22. change (numberProducts exeq) with 2%Z. cbn [negb andb]. rewrite Hq.
    cbn -[ReducedMass nsqrt ndiv]. eexists. reflexivity. }
  destruct Hm as (m & Em).
  assert (Hc : channels 1 [mkEquation exeq c m] (relspeed (p_vel exA) (p_vel exB)) [5]).
  { constructor; [|constructor]. rewrite ex_speed. cbn [q_cs]. apply Hs; [lra|]. cbn [declared_threshold exeq e_mu]. rewrite rm_val. unR. lra. }
  destruct (C07_C08_two_products exdb exspf (fun _ => Ok []) false false None 1 exeq m 2 3 1 4 true exA exB [] exG 2) as (q1 & q2 & Ei & _); [apply C07_case|reflexivity|exact Em|].
  exists c, m, (0%Z, 5), exA, exB, ([] ++ [q1; q2]), (2 + 2)%nat.
  split; [exact Ec|]. split; [exact Et|]. split; [exact Em|]. split; [exact Hc|]. split; [|split; [reflexivity|]].
  - unfold set_interact. rewrite vabs_relspeed. rewrite (outpath_ok _ _ _ _ _ _ _ Hc). cbn [Rsum exG g_rand g_exc]. rewrite ex_speed.
    destruct (Rltb_spec ((5 + 0) * 5) (/ 2 * 50)) as [L|L]; [lra|]. cbn [pick]. unR. destruct (Rltb_spec (/ 2 * (5 + 0)) (0 + 5)); [|lra].
    change (p_species exB <? p_species exA)%Z with false. cbn [obind fst Z.leb Z.compare oget nth_error Z.to_nat q_model]. change (0 + 2)%nat with 2%nat. rewrite Ei. reflexivity.
  - intros f x y Hxy. cbn. lra.
Qed.

(** In binary64 the same fails at the threshold: masses 4 and 4, Constant cross section with
    threshold energy 3 and relative speed sqrt(3) (rounded), which is the stored threshold
    speed.  The channel is taken and both products have NaN velocities. *)
Definition tdb (s : Z) : outcome (F * F) :=
  match s with 0%Z => Ok (fofZ 4, fofZ 0) | 1%Z => Ok (fofZ 4, fofZ 1) | 2%Z => Ok (fofZ 1, fofZ 0) | 3%Z => Ok (fofZ 7, fofZ 1) | _ => UB end.
Definition teq : eqcore F := mkEq (mkInput (term_sp 0) (term_sp 1)) [term_sp 2; term_sp 3] (ReducedMass (N:=F) (fofZ 4) (fofZ 4)).
Definition fdsolve (f : F -> F) (a b : F) : F * F := (a, b).
Definition tcs : outcome (xsec F) := xs_load (N:=F) 10 true finf finf (fun _ _ => true) fdsolve (e_mu teq) (DConstant (N:=F) (fofZ 1) (Some (QEnergy (N:=F) (fofZ 3)))).
Definition tmodel : outcome (imodel F) := inelastic_new_load tdb (setParticleFactories (N:=F) finf) (fun _ => Ok []) false false None (fofZ 3) teq.
Definition fhalf : binary64 := fdiv (fofZ 1) (fofZ 2).
Definition fbelow1 : binary64 := fdiv (fofZ (2 ^ 53 - 1)) (fofZ (2 ^ 53)).
Definition fG (r e : binary64) : rng F := mkRng (N:=F) (fun _ => r) (fun _ => e).
Definition out {A} (d : A) (o : outcome A) : A := match o with Ok x => x | _ => d end.
Lemma out_ok {A} (d : A) o : loads o = true -> o = Ok (out d o).
Proof. destruct o; try discriminate. reflexivity. Qed.
Definition tc := out (XConstant (N:=F) (fofZ 0) (fofZ 0) (fofZ 0)) tcs.
Definition tm := out (MInBare (N:=F)) tmodel.
Definition tA : particle F := mkParticle (N:=F) (V3 (N:=F) (fofZ 0) (fofZ 0) (fofZ 0)) (V3 (N:=F) (nsqrt (n:=F) (fofZ 3)) (fofZ 0) (fofZ 0)) 0 (fofZ 1).
Definition tB : particle F := mkParticle (N:=F) (V3 (N:=F) (fofZ 0) (fofZ 0) (fofZ 0)) (V3 (N:=F) (fofZ 0) (fofZ 0) (fofZ 0)) 1 (fofZ 1).
Definition tmax := out (fofZ 0) (findMaxSigmaVProduct (N:=F) (fofZ 1) [mkEquation teq tc tm] (fofZ 2)).
Definition nan3 (v : vec F) : bool := (is_nan (vx v) && is_nan (vy v) && is_nan (vz v))%bool.
Definition fin3 (v : vec F) : bool := (is_finite (vx v) && is_finite (vy v) && is_finite (vz v))%bool.
Definition two_nan (o : outcome ((Z * F) * particle F * particle F * list (particle F) * nat)) : bool :=
  match o with Ok (path, _, _, [q1; q2], _) => ((fst path =? 0)%Z && nan3 (p_vel q1) && nan3 (p_vel q2))%bool | _ => false end.
Theorem C12_binary64_refuted : exists c model (pA pB : particle F) max,
  tcs = Ok c /\ getThresholdEnergy c = Ok (fofZ 3) /\ tmodel = Ok model /\
  findMaxSigmaVProduct (N:=F) (fofZ 1) [mkEquation teq c model] (fofZ 2) = Ok max /\
  fin3 (p_vel pA) = true /\ fin3 (p_vel pB) = true /\
  two_nan (set_interact (N:=F) (fofZ 1) true [mkEquation teq c model] max pA pB [] (fG fhalf fhalf) 0) = true.
Proof.
  exists tc, tm, tA, tB, tmax.
  split; [apply out_ok; vm_compute; reflexivity|]. split; [reflexivity|]. split; [apply out_ok; vm_compute; reflexivity|].
  split; [apply out_ok; vm_compute; reflexivity|]. split; [vm_compute; reflexivity|]. split; [vm_compute; reflexivity|]. vm_compute. reflexivity.
Qed.
Print Assumptions C12_binary64_refuted.

(** C30.  If every channel's own maximum is a bound then so is the set's. *)
Theorem C30_set_max : forall K rhs (V : R),
  (forall e, In e rhs -> exists M vm, findMaxSigmaV (N:=RNum) K (q_cs e) V = Ok (M, vm) /\ sv_bound K (q_cs e) V M) ->
  exists MM, findMaxSigmaVProduct (N:=RNum) K rhs V = Ok MM /\
    forall v, 0 < v <= V -> exists cs, channels K rhs v cs /\ v * Rsum cs <= MM.
Proof. exact set_max. Qed.
Print Assumptions C30_set_max.
(** Two constant channels, 5 and 2; V = 10. *)
Definition rc (s : R) : equation RNum := mkEquation exeq (XConstant (N:=RNum) s 0 0) (MElastic (ReducedMass (N:=RNum) 2 3)).
Lemma rc_sigma s v : 0 <= v -> sigma_is 1 (q_cs (rc s)) v s.
Proof. intros H. unfold sigma_is. cbn. destruct (Rleb_spec 0 v); [reflexivity|lra]. Qed.
Lemma rc_max s V : 0 <= V -> findMaxSigmaV (N:=RNum) 1 (q_cs (rc s)) V = Ok (s * V, V).
Proof. intros H. cbn. destruct (Rleb_spec 0 V); [reflexivity|lra]. Qed.
Example C30_case : (forall e, In e [rc 5; rc 2] -> exists M vm, findMaxSigmaV (N:=RNum) 1 (q_cs e) 10 = Ok (M, vm) /\ sv_bound 1 (q_cs e) 10 M) /\
  findMaxSigmaVProduct (N:=RNum) 1 [rc 5; rc 2] 10 = Ok (0 + 5 * 10 + 2 * 10).
Proof.
  split.
  - intros e [<-|[<-|[]]]; eexists _, _; (split; [apply rc_max; lra|]); intros v Hv; eexists; (split; [apply rc_sigma; lra|]); lra.
  - unfold findMaxSigmaVProduct. cbn [ofold]. rewrite !rc_max by lra. reflexivity.
Qed.

(** C31, C32, C33.  Real arithmetic, non-negative cross sections: validity of the result,
    the acceptance condition, and the selection interval of every channel. *)
Theorem C31_C32_C33_outpath : forall K rhs (max v : R) g k (cs : list R),
  channels K rhs v cs -> List.Forall (fun x => 0 <= x) cs -> rng_ok g ->
  exists j c k', calculateOutPath (N:=RNum) K rhs max v g k = Ok (j, c, k') /\
    (Rsum cs = 0 -> j = (-1)%Z) /\
    (0 < Rsum cs -> ((0 <= j)%Z <-> g_rand g k * max <= Rsum cs * v)) /\
    (j = (-1)%Z \/ exists i, j = Z.of_nat i /\ nth_error cs i = Some c /\ 0 < c) /\
    (0 < Rsum cs -> g_rand g k * max <= Rsum cs * v -> k' = (k + 2)%nat /\
       forall i, (i < length cs)%nat -> (j = Z.of_nat i <-> frac cs i <= g_exc g (k + 1) < frac cs (S i))).
Proof. exact outpath_spec. Qed.
Print Assumptions C31_C32_C33_outpath.
(** C33.  The intervals partition [0,1) and have the channels' relative lengths. *)
Theorem C33_intervals : forall (cs : list R), List.Forall (fun x => 0 <= x) cs -> 0 < Rsum cs ->
  frac cs 0 = 0 /\ frac cs (length cs) = 1 /\
  (forall i c, nth_error cs i = Some c -> frac cs (S i) - frac cs i = c / Rsum cs) /\
  (forall x, 0 <= x < 1 -> exists i, (i < length cs)%nat /\ frac cs i <= x < frac cs (S i)).
Proof. exact frac_facts. Qed.
Print Assumptions C33_intervals.
(** C31 in binary64: the same validity for any non-negative (possibly infinite) values. *)
Theorem C31_binary64 : forall lm (K : F64 lm) rhs max v g k j c k' cs, frng_ok g ->
  channel_cs K rhs v = Ok cs -> List.Forall (fun c : F64 lm => fnonneg c) cs ->
  calculateOutPath (N:=F64 lm) K rhs max v g k = Ok (j, c, k') ->
  j = (-1)%Z \/ exists i, j = Z.of_nat i /\ nth_error cs i = Some c /\ Bltb (fofZ 0) c = true.
Proof. exact @foutpath_valid. Qed.
Print Assumptions C31_binary64.
(** Channels 5 and 2 at speed 3: draw 1/2 < 5/7 selects channel 0. *)
Example C31_case : channels 1 [rc 5; rc 2] 3 [5; 2] /\ List.Forall (fun x => 0 <= x) [5; 2] /\ rng_ok exG /\ 0 < Rsum [5; 2] /\
  exists c k', calculateOutPath (N:=RNum) 1 [rc 5; rc 2] 40 3 exG 0 = Ok (0%Z, c, k').
Proof.
  assert (Hc : channels 1 [rc 5; rc 2] 3 [5; 2]) by (repeat constructor; apply rc_sigma; lra).
  assert (Hn : List.Forall (fun x => 0 <= x) [5; 2]) by (repeat constructor; lra).
  split; [exact Hc|]. split; [exact Hn|]. split; [exact exG_ok|]. split; [cbn; lra|].
  destruct (C31_C32_C33_outpath 1 [rc 5; rc 2] 40 3 exG 0 [5; 2] Hc Hn exG_ok) as (j & c & k' & E & _ & _ & _ & H).
  destruct H as [_ H]; [cbn; lra|cbn; lra|]. assert (j = 0%Z) as ->; [|eauto]. apply (H 0%nat); [cbn; lia|].
  unfold frac. cbn. lra.
Qed.

(** C34.  In binary64 an accepted test selects a channel whenever the total is finite and
    above the smallest normal number ... *)
Theorem C34_total : forall lm (K : F64 lm) rhs max v g k j c k' cs, frng_ok g ->
  channel_cs K rhs v = Ok cs -> is_finite (cs_total cs) = true -> Bltb fmin_normal (cs_total cs) = true ->
  calculateOutPath (N:=F64 lm) K rhs max v g k = Ok (j, c, k') ->
  ((0 <= j)%Z <-> Bltb (fmul (cs_total cs) v) (fmul (g_rand g k) max) = false).
Proof. exact @foutpath_total. Qed.
Print Assumptions C34_total.
Definition fc (s : F) : equation F := mkEquation feq (XConstant (N:=F) s (fofZ 0) (fofZ 0)) (MElastic (ReducedMass (N:=F) (fofZ 2) (fofZ 3))).
Definition ftiny : binary64 := binary_normalize fprec femax fprec_gt_0 fprec_lt_emax mode_NE 1 (-1074) false.
Definition path_of (o : outcome (Z * F * nat)) : Z := match o with Ok (j, _, _) => j | _ => (-99)%Z end.
Definition pos_of (o : outcome (Z * F * nat)) : nat := match o with Ok (_, _, k) => k | _ => 99 end.
Lemma fG_ok r e : fnonneg r -> Bleb r (fofZ 1) = true -> fnonneg e -> Bltb e (fofZ 1) = true -> frng_ok (fG r e).
Proof. intros H1 H2 H3 H4 k. cbn. auto. Qed.
Example C34_case : frng_ok (fG fhalf fbelow1) /\
  Bltb fmin_normal (cs_total (N:=F) [fofZ 5; fofZ 2]) = true /\ is_finite (cs_total (N:=F) [fofZ 5; fofZ 2]) = true /\
  path_of (calculateOutPath (N:=F) (fofZ 1) [fc (fofZ 5); fc (fofZ 2)] (fofZ 40) (fofZ 3) (fG fhalf fbelow1) 0) = 1%Z.
Proof. split; [apply fG_ok; vm_compute; reflexivity|]. split; [|split]; vm_compute; reflexivity. Qed.
(** ... and not below, nor for an infinite total: both draws are made (position 2), so the
    test was accepted, yet -1 is returned. *)
Theorem C34_not_above_refuted : exists g1 g2 : rng F, frng_ok g1 /\ frng_ok g2 /\
  (forall f, In f [(fmin_normal, g1); (ftiny, g2); (B754_infinity false, g1)] ->
     let o := calculateOutPath (N:=F) (fofZ 1) [fc (fst f)] (fofZ 1) (fofZ 1) (snd f) 0 in
     Bltb (fofZ 0) (fst f) = true /\ path_of o = (-1)%Z /\ pos_of o = 2%nat).
Proof.
  exists (fG (fofZ 0) fbelow1), (fG (fofZ 0) (fdiv (fofZ 3) (fofZ 4))).
  split; [apply fG_ok; vm_compute; reflexivity|]. split; [apply fG_ok; vm_compute; reflexivity|].
  intros f [<-|[<-|[<-|[]]]]; cbv zeta; (split; [|split]); vm_compute; reflexivity.
Qed.
Print Assumptions C34_not_above_refuted.

(** C35.  Any arithmetic. *)
Theorem C35_species_order : forall (N : Num) (K : N) inplace rhs max pA pB l g k path a b l' k',
  set_interact K inplace rhs max pA pB l g k = Ok (path, a, b, l', k') ->
  exists k1, calculateOutPath K rhs max (vabs (vsub (p_vel pA) (p_vel pB))) g k = Ok (path, k1) /\
  (((fst path < 0)%Z /\ a = pA /\ b = pB /\ l' = l /\ k' = k1) \/
   (exists e, (0 <= fst path)%Z /\ nth_error rhs (Z.to_nat (fst path)) = Some e /\
      (((p_species pA <= p_species pB)%Z /\ model_interact inplace (q_model e) pA pB l g k1 = Ok (a, b, l', k')) \/
       ((p_species pB < p_species pA)%Z /\ model_interact inplace (q_model e) pB pA l g k1 = Ok (b, a, l', k'))))).
Proof. exact @set_interact_order. Qed.
Print Assumptions C35_species_order.
(** Selected in the order (1,0): the products still come out in the model's order. *)
Definition prod_species (o : outcome ((Z * F) * particle F * particle F * list (particle F) * nat)) : list Z :=
  match o with Ok (_, _, _, l, _) => map (fun p => p_species p) l | _ => [] end.
Example C35_case :
  prod_species (set_interact (N:=F) (fofZ 1) true [mkEquation teq tc tm] (fofZ 0) (fp 0 5 1) (fp 1 0 0) [] (fG fhalf fhalf) 0) = [2; 3]%Z /\
  prod_species (set_interact (N:=F) (fofZ 1) true [mkEquation teq tc tm] (fofZ 0) (fp 1 0 0) (fp 0 5 1) [] (fG fhalf fhalf) 0) = [2; 3]%Z.
Proof. split; vm_compute; reflexivity. Qed.

(** C36. *)
Theorem C36_pairs_binary64 : forall lm fuel (a b : range) (g : rng (F64 lm)) k i j k', frng_ok g ->
  (0 < Z.of_nat (rsize a) < 2 ^ 32)%Z -> (0 < Z.of_nat (rsize b) < 2 ^ 32)%Z ->
  selectRandomPair fuel a b g k = Ok (i, j, k') -> in_range i a /\ in_range j b /\ i <> j.
Proof. exact @fselect_ok. Qed.
Print Assumptions C36_pairs_binary64.
Theorem C36_pairs_real : forall fuel (a b : range) (g : rng RNum) k i j k', rng_ok g ->
  (0 < Z.of_nat (rsize a) < 2 ^ 31)%Z -> (0 < Z.of_nat (rsize b) < 2 ^ 31)%Z ->
  selectRandomPair fuel a b g k = Ok (i, j, k') -> in_range i a /\ in_range j b /\ i <> j.
Proof. exact rselect_ok. Qed.
Print Assumptions C36_pairs_real.
Definition fG2 : rng F := mkRng (N:=F) (fun _ => fhalf) (fun n => if Nat.even n then fbelow1 else fhalf).
Definition pair_of (o : outcome (nat * nat * nat)) : nat * nat * nat := match o with Ok x => x | _ => (99, 99, 99)%nat end.
Example C36_case : frng_ok fG2 /\ pair_of (selectRandomPair (N:=F) 3 (2, 7)%nat (2, 7)%nat fG2 0) = (6, 4, 2)%nat.
Proof. split; [intros n; cbn [fG2 g_rand g_exc]; destruct (Nat.even n); (split; [|split; [|split]]); vm_compute; reflexivity|vm_compute; reflexivity]. Qed.

(** C37. *)
Theorem C37_single_diverges : forall lm fuel b (g : rng (F64 lm)) k, frng_ok g ->
  selectRandomPair fuel (b, S b) (b, S b) g k = Diverge.
Proof. exact @fselect_single. Qed.
Print Assumptions C37_single_diverges.
Theorem C37_disjoint_two_draws : forall lm fuel (a b : range) (g : rng (F64 lm)) k, frng_ok g ->
  (snd a <= fst b \/ snd b <= fst a)%nat ->
  (0 < Z.of_nat (rsize a) < 2 ^ 31)%Z -> (0 < Z.of_nat (rsize b) < 2 ^ 31)%Z ->
  exists i j, selectRandomPair (S fuel) a b g k = Ok (i, j, (k + 2)%nat) /\ in_range i a /\ in_range j b.
Proof. exact @fselect_disjoint. Qed.
Print Assumptions C37_disjoint_two_draws.
Theorem C37_every_pair : forall lm (a b : range) i j, in_range i a -> in_range j b -> i <> j ->
  (Z.of_nat (rsize a) < 2 ^ 31)%Z -> (Z.of_nat (rsize b) < 2 ^ 31)%Z -> forall k,
  exists g : rng (F64 lm), frng_ok g /\ forall fuel, selectRandomPair (S fuel) a b g k = Ok (i, j, (k + 2)%nat).
Proof. exact @fselect_reach. Qed.
Print Assumptions C37_every_pair.
Theorem C37_every_pair_real : forall (a b : range) i j, in_range i a -> in_range j b -> i <> j ->
  (Z.of_nat (rsize a) < 2 ^ 31)%Z -> (Z.of_nat (rsize b) < 2 ^ 31)%Z -> forall k,
  exists g : rng RNum, rng_ok g /\ forall fuel, selectRandomPair (S fuel) a b g k = Ok (i, j, (k + 2)%nat).
Proof. exact rselect_reach. Qed.
Print Assumptions C37_every_pair_real.
Example C37_case : in_range 6 (2, 7)%nat /\ in_range 3 (2, 7)%nat /\ frng_ok fG2.
Proof. unfold in_range; cbn. split; [lia|]. split; [lia|]. apply C36_case. Qed.

(** C38.  Real arithmetic: tests done for a pair of species that still has enough
    particles at the end of the run. *)
Theorem C38_test_count : forall K fuel inplace (dt : R) (c : cell RNum) nprops db res er g k s,
  rng_ok g -> bounded (2 ^ 31) (c_ranges c) -> (inplace = true -> disjoint (c_ranges c)) ->
  (forall A B, List.Forall (fun e => appends (q_model e)) (db A B)) ->
  List.Forall (fun p => 0 < p_weight p) (c_mem c) -> c_volume c <> 0 ->
  driver K fuel inplace dt c nprops db res er g k = Ok s ->
  forall l1 A B l2, species_pairs (Nat.min (length (c_ranges c)) nprops) = l1 ++ (A, B) :: l2 -> db A B <> [] -> enough A B (s_ranges s) ->
  exists ra rb pa pb msv, nth_error (c_ranges c) A = Some ra /\ nth_error (c_ranges c) B = Some rb /\
    nth_error (c_mem c) (fst ra) = Some pa /\ nth_error (c_mem c) (fst rb) = Some pb /\
    findMaxSigmaVProduct K (db A B) (c_maxv c A B) = Ok msv /\
    let x := ntc (Nat.eqb A B) (p_weight pa) (p_weight pb) (rsize ra) (rsize rb) dt msv (c_volume c) in
    let draw := g_rand g (k + length (filter (has_eqs db) l1)) in
    0 <= x ->
    (IZR (Zfloor x) <> x ->
       (draw < x - IZR (Zfloor x) -> Z.of_nat (tested A B s) = (Zfloor x + 1)%Z) /\
       (x - IZR (Zfloor x) <= draw -> Z.of_nat (tested A B s) = Zfloor x)) /\
    (forall z, x = IZR z -> Z.of_nat (tested A B s) = Z.max 0 (z - 1)).
Proof. exact driver_count_R. Qed.
Print Assumptions C38_test_count.
(** Such runs exist: out-of-place runs finish when draws do not stick to one position. *)
Theorem C38_terminates : forall (K : R) (dt : R) (c : cell RNum) nprops db res er g k m,
  rng_ok g -> (forall A r, nth_error (c_ranges c) A = Some r -> (snd r <= length (c_mem c))%nat) ->
  disjoint (c_ranges c) ->
  (forall A B, (A <= B < Nat.min (length (c_ranges c)) nprops)%nat -> db A B <> [] ->
     List.Forall (total_eq (N:=RNum) K) (db A B) /\ (exists msv, findMaxSigmaVProduct (N:=RNum) K (db A B) (c_maxv c A B) = Ok msv) /\
     forall r, nth_error (c_ranges c) A = Some r \/ nth_error (c_ranges c) B = Some r ->
       (0 < Z.of_nat (rsize r) < 2 ^ 31)%Z /\ (A = B -> (2 <= rsize r)%nat -> fair g r m)) ->
  exists f0, forall fuel, (f0 <= fuel)%nat -> exists s, driver (N:=RNum) K fuel false dt c nprops db res er g k = Ok s.
Proof. exact driver_terminates. Qed.
Print Assumptions C38_terminates.
(** One particle of each of two species, one elastic channel: the estimate is 5/2 and the
    draw 1/2, so two tests; with volume 25 the estimate is the whole number 2: one test. *)
Definition rcell (vol : R) : cell RNum := mkCell (N:=RNum) [exA; exB] [(0, 1); (1, 2)]%nat vol (fun _ _ => 5).
Definition rdb (A B : nat) : list (equation RNum) := if (Nat.eqb A 0 && Nat.eqb B 1)%bool then [rc 5] else [].
Lemma rdb_total : forall e, In e [rc 5] -> total_eq (N:=RNum) 1 e.
Proof.
  intros e [<-|[]]. split; [intros v; eexists; reflexivity|]. intros p q l g k.
  destruct (C03_elastic_out_in RNum (ReducedMass (N:=RNum) 2 3) p q l g k) as (q1 & q2 & _ & E & _). eexists. exact E.
Qed.
Lemma rcell_disjoint vol : disjoint (c_ranges (rcell vol)).
Proof.
  intros [|[|A]] [|[|B]] ra rb p Hne EA EB; cbn in EA, EB; try (destruct A; discriminate); try (destruct B; discriminate); try congruence;
    injection EA as <-; injection EB as <-; unfold in_range; cbn; lia.
Qed.
Lemma rcell_run vol fuel0 : exists fuel s, (fuel0 <= fuel)%nat /\ driver (N:=RNum) 1 fuel false 1 (rcell vol) 2 rdb [] [] exG 0 = Ok s.
Proof.
  destruct (C38_terminates 1 1 (rcell vol) 2 rdb [] [] exG 0 0 exG_ok) as (f0 & H).
  - intros [|[|A]] r E; cbn in *; [injection E as <-; cbn; lia..|destruct A; discriminate].
  - apply rcell_disjoint.
  - intros A B HAB Hne. unfold rdb in *. destruct (Nat.eqb_spec A 0); [|contradiction]. destruct (Nat.eqb_spec B 1); [|contradiction]. subst. cbn [andb].
    split; [apply Forall_forall; exact rdb_total|]. split.
    + eexists. unfold findMaxSigmaVProduct. cbn [ofold]. rewrite rc_max by (cbn; lra). reflexivity.
    + intros r [E|E]; cbn in E; injection E as <-; (split; [unfold rsize; cbn; lia|discriminate]).
  - exists (f0 + fuel0)%nat. destruct (H (f0 + fuel0)%nat ltac:(lia)) as (s & E). exists s. split; [lia|exact E].
Qed.
Example C38_case : (exists fuel s, driver (N:=RNum) 1 fuel false 1 (rcell 20) 2 rdb [] [] exG 0 = Ok s /\ tested 0 1 s = 2%nat) /\
  (exists fuel s, driver (N:=RNum) 1 fuel false 1 (rcell 25) 2 rdb [] [] exG 0 = Ok s /\ tested 0 1 s = 1%nat).
Proof.
  assert (Happ : forall A B, List.Forall (fun e => appends (q_model e)) (rdb A B)).
  { intros A B. unfold rdb. destruct (_ && _)%bool; repeat constructor. }
  assert (Hbd : forall vol, bounded (2 ^ 31) (c_ranges (rcell vol))) by (intros; repeat constructor; unfold rsize; cbn; lia).
  assert (G : forall vol, vol <> 0 -> exists fuel s, driver (N:=RNum) 1 fuel false 1 (rcell vol) 2 rdb [] [] exG 0 = Ok s /\
     let x := ntc false 1 2 1 1 1 (0 + 5 * 5) vol in 0 <= x ->
     (IZR (Zfloor x) <> x -> (x - IZR (Zfloor x) <= / 2 -> Z.of_nat (tested 0 1 s) = Zfloor x)) /\
     (forall z, x = IZR z -> Z.of_nat (tested 0 1 s) = Z.max 0 (z - 1))).
  { intros vol Hvol. destruct (rcell_run vol 0) as (fuel & s & _ & E). exists fuel, s. split; [exact E|].
    destruct (driver_outofplace (N:=RNum) 1 fuel 1 (rcell vol) 2 rdb [] [] exG 0 s _ (rpos_ok exG exG_ok) (Hbd vol) Happ E) as (_ & Er & _).
    destruct (C38_test_count 1 fuel false 1 (rcell vol) 2 rdb [] [] exG 0 s exG_ok (Hbd vol)) with (l1 := [(0, 0)]%nat) (A := 0%nat) (B := 1%nat) (l2 := [(1, 1)]%nat)
      as (ra & rb & pa & pb & msv & EA & EB & Epa & Epb & Em & H); try assumption; try reflexivity; try discriminate.
    - repeat constructor; cbn; lra.
    - rewrite Er. exists (0, 1)%nat, (1, 2)%nat. cbn. auto.
    - cbn in EA, EB. injection EA as <-. injection EB as <-. cbn in Epa, Epb. injection Epa as <-. injection Epb as <-.
      unfold findMaxSigmaVProduct in Em. cbn [rdb Nat.eqb andb ofold] in Em. rewrite rc_max in Em by (cbn; lra). injection Em as <-.
      cbv zeta in *. intros Hx. destruct (H Hx) as [H1 H2]. split; [|exact H2]. intros Hn Hd. apply (H1 Hn). exact Hd. }
  split.
  - destruct (G 20 ltac:(lra)) as (fuel & s & E & H). exists fuel, s. split; [exact E|].
    assert (Ex : ntc false 1 2 1 1 1 (0 + 5 * 5) 20 = 5 / 2) by (unfold ntc; rewrite Rmax_right by lra; cbn [INR]; field).
    cbv zeta in H. rewrite Ex in H. assert (Ef : Zfloor (5 / 2) = 2%Z) by (apply Zfloor_imp; cbn; lra). rewrite Ef in H.
    destruct H as [H _]; [lra|]. specialize (H ltac:(lra) ltac:(lra)). lia.
  - destruct (G 25 ltac:(lra)) as (fuel & s & E & H). exists fuel, s. split; [exact E|].
    assert (Ex : ntc false 1 2 1 1 1 (0 + 5 * 5) 25 = 2) by (unfold ntc; rewrite Rmax_right by lra; cbn [INR]; field).
    cbv zeta in H. rewrite Ex in H. destruct H as [_ H]; [lra|]. specialize (H 2%Z eq_refl). cbn in H. lia.
Qed.

(** C39.  binary64, any state: a loop that ends with enough particles left has made
    exactly ceil(x)-1 tests for finite x <= 2^53; from 2^54 on (and for infinity) it can
    end only for lack of particles, so out of place it never ends; NaN makes no test. *)
Theorem C39_loop_count : forall lm (K : F64 lm) fuel inplace sfuel rhs msv A B (x : F64 lm) g s s',
  frng_ok g -> bounded (2 ^ 32) (s_ranges s) -> (inplace = true -> disjoint (s_ranges s)) ->
  List.Forall (fun e => appends (q_model e)) rhs ->
  test_loop K fuel inplace sfuel rhs msv A B x g s = Ok s' ->
  (is_finite x = true -> fB2R x <= 9007199254740992 -> enough A B (s_ranges s') ->
     Z.of_nat (length (s_log s')) = (Z.of_nat (length (s_log s)) + Z.max 0 (Zceil (fB2R x) - 1))%Z) /\
  (x = B754_infinity false \/ is_finite x = true /\ 18014398509481984 <= fB2R x -> ~ enough A B (s_ranges s')) /\
  (is_nan x = true -> s' = s).
Proof. exact @loop_count_F. Qed.
Print Assumptions C39_loop_count.
Theorem C39_loop_diverges : forall lm (K : F64 lm) fuel sfuel rhs msv A B (x : F64 lm) g s,
  frng_ok g -> bounded (2 ^ 32) (s_ranges s) -> List.Forall (fun e => appends (q_model e)) rhs -> enough A B (s_ranges s) ->
  x = B754_infinity false \/ is_finite x = true /\ 18014398509481984 <= fB2R x ->
  forall s', test_loop K fuel false sfuel rhs msv A B x g s <> Ok s'.
Proof. exact @loop_diverges_F. Qed.
Print Assumptions C39_loop_diverges.
(** Three particles of species 0 and two of species 1, an elastic channel. *)
Definition fmem : list (particle F) := [fp 0 5 0; fp 1 4 0; fp 2 3 0; fp 3 0 1; fp 4 1 1].
Definition fst0 : dstate F := mkState (N:=F) fmem [(0, 3); (3, 5)]%nat [] [] 0 [].
Definition run_log (o : outcome (dstate F)) : list (nat * nat * (nat * nat) * Z) := match o with Ok s => s_log s | _ => [] end.
Definition run_ranges (o : outcome (dstate F)) : list range := match o with Ok s => s_ranges s | _ => [] end.
Definition run_erase (o : outcome (dstate F)) : list nat := match o with Ok s => s_erase s | _ => [] end.
Definition run_res (o : outcome (dstate F)) : list Z := match o with Ok s => map (fun p => p_species p) (s_res s) | _ => [] end.
Definition run_pos (o : outcome (dstate F)) : list Z := match o with Ok s => map (fun p : particle F => ntrunc (n:=F) (vx (p_pos p))) (s_mem s) | _ => [] end.
Example C39_case : frng_ok fG2 /\ bounded (2 ^ 32) (s_ranges fst0) /\ enough 0 1 (s_ranges fst0) /\
  length (run_log (test_loop (N:=F) (fofZ 1) 9 false 9 [fc (fofZ 5)] (fofZ 0) 0 1 (fdiv (fofZ 7) (fofZ 2)) fG2 fst0)) = 3%nat.
Proof.
  split; [apply C36_case|]. split; [repeat constructor; unfold rsize; cbn; lia|].
  split; [exists (0, 3)%nat, (3, 5)%nat; cbn; repeat split; lia|vm_compute; reflexivity].
Qed.

(** C40. *)
Theorem C40_estimate : forall same (wA wB : R) nA nB (dt msv vol : R), 0 < wA -> 0 < wB -> vol <> 0 ->
  estimate (N:=RNum) same wA wB nA nB dt msv vol = ntc same wA wB nA nB dt msv vol.
Proof. exact estimate_R. Qed.
Print Assumptions C40_estimate.
Theorem C40_symmetric : forall same (wA wB : R) nA nB (dt msv vol : R), 0 < wA -> 0 < wB -> vol <> 0 ->
  estimate (N:=RNum) same wA wB nA nB dt msv vol = estimate (N:=RNum) same wB wA nB nA dt msv vol.
Proof. exact estimate_sym. Qed.
Print Assumptions C40_symmetric.
Example C40_case : 12%R = estimate (N:=RNum) false 1 2 3 4 1 5 10.
Proof. rewrite C40_estimate by lra. unfold ntc. rewrite Rmax_right by lra. cbn [INR]. field. Qed.

(** C41.  Any arithmetic, either mode, any fuel: undefined behaviour exactly when a range
    of a species that has equations is empty, given channels and models without undefined
    behaviour of their own, ranges inside the storage and sound random positions. *)
Theorem C41_undefined_iff : forall (N : Num) (K : N) fuel inplace dt (c : cell N) nprops db res er g k bnd,
  pos_total g bnd -> bounded bnd (c_ranges c) -> (inplace = true -> disjoint (c_ranges c)) ->
  (forall A r, nth_error (c_ranges c) A = Some r -> (snd r <= length (c_mem c))%nat) ->
  (forall A B, List.Forall (fun e => safe_eq K inplace e /\ appends (q_model e)) (db A B) /\
     (db A B <> [] -> exists m, findMaxSigmaVProduct K (db A B) (c_maxv c A B) = Ok m)) ->
  (driver K fuel inplace dt c nprops db res er g k = UB <-> empty_needed db (Nat.min (length (c_ranges c)) nprops) (c_ranges c)).
Proof. exact @driver_ub. Qed.
Print Assumptions C41_undefined_iff.
(** The hypothesis on positions holds for documented generators. *)
Theorem C41_positions : (forall g : rng RNum, rng_ok g -> pos_total g (2 ^ 31)) /\
  (forall lm (g : rng (F64 lm)), frng_ok g -> pos_total g (2 ^ 31)).
Proof. exact (conj rpos_total (@fpos_total)). Qed.
Print Assumptions C41_positions.
(** Species 1 empty, one equation for the pair. *)
Definition ecell : cell RNum := mkCell (N:=RNum) [exA] [(0, 1); (1, 1)]%nat 20 (fun _ _ => 5).
Lemma rdb_safe inplace A B : List.Forall (fun e => safe_eq (N:=RNum) 1 inplace e /\ appends (q_model e)) (rdb A B) /\
     (rdb A B <> [] -> exists m, findMaxSigmaVProduct (N:=RNum) 1 (rdb A B) 5 = Ok m).
Proof.
  unfold rdb. destruct (_ && _)%bool.
  - split.
    + constructor; [|constructor]. split; [|exact I]. split; [intros v; discriminate|]. intros p q l g k.
      destruct (C03_elastic_out_in RNum (ReducedMass (N:=RNum) 2 3) p q l g k) as (q1 & q2 & E1 & E2 & _). destruct inplace; cbn [rc q_model]; [rewrite E1|rewrite E2]; discriminate.
    + intros _. eexists. unfold findMaxSigmaVProduct. cbn [ofold]. rewrite rc_max by lra. reflexivity.
  - split; [constructor|congruence].
Qed.
Example C41_case : driver (N:=RNum) 1 7 true 1 ecell 2 rdb [] [] exG 0 = UB /\ driver (N:=RNum) 1 7 true 1 (rcell 20) 2 rdb [] [] exG 0 <> UB.
Proof.
  split.
  - apply (C41_undefined_iff RNum 1 7 true 1 ecell 2 rdb [] [] exG 0 (2 ^ 31)).
    + apply C41_positions. exact exG_ok.
    + repeat constructor; unfold rsize; cbn; lia.
    + intros _ A B ra rb p Hne EA EB. destruct A as [|[|[|A]]], B as [|[|[|B]]]; cbn in EA, EB; try congruence; injection EA as <-; injection EB as <-; unfold in_range; cbn; lia.
    + intros [|[|[|A]]] r E; cbn in E; try discriminate; injection E as <-; cbn; lia.
    + intros A B. apply rdb_safe.
    + exists 0%nat, 1%nat, (1, 1)%nat. split; [cbn; lia|]. split; [discriminate|]. split; [right; reflexivity|reflexivity].
  - intros H. apply (C41_undefined_iff RNum 1 7 true 1 (rcell 20) 2 rdb [] [] exG 0 (2 ^ 31)) in H.
    + destruct H as (A & B & r & HAB & _ & Hr & Hz). cbn in HAB. destruct A as [|[|A]], B as [|[|B]]; try lia; cbn in Hr; destruct Hr as [E|E]; injection E as <-; discriminate.
    + apply C41_positions. exact exG_ok.
    + repeat constructor; unfold rsize; cbn; lia.
    + intros _. apply rcell_disjoint.
    + intros [|[|[|A]]] r E; cbn in E; try discriminate; injection E as <-; cbn; lia.
    + intros A B. apply rdb_safe.
Qed.

(** C42.  Any arithmetic with sound positions. *)
Theorem C42_out_of_place : forall (N : Num) (K : N) fuel dt (c : cell N) nprops db res er g k s bnd,
  pos_ok g bnd -> bounded bnd (c_ranges c) -> (forall A B, List.Forall (fun e => appends (q_model e)) (db A B)) ->
  driver K fuel false dt c nprops db res er g k = Ok s ->
  s_mem s = c_mem c /\ s_ranges s = c_ranges c /\ s_erase s = er /\ (exists new, s_res s = res ++ new) /\
  List.Forall (fun e => exists A B, (A <= B < Nat.min (length (c_ranges c)) nprops)%nat /\ db A B <> [] /\
    entry_ok (c_ranges c) (db A B) A B e) (s_log s).
Proof. exact @driver_outofplace. Qed.
Print Assumptions C42_out_of_place.
Theorem C42_in_place : forall (N : Num) (K : N) fuel dt (c : cell N) nprops db res er g k s bnd,
  pos_ok g bnd -> bounded bnd (c_ranges c) -> disjoint (c_ranges c) -> (forall A B, List.Forall (fun e => appends (q_model e)) (db A B)) ->
  driver K fuel true dt c nprops db res er g k = Ok s ->
  (exists new, s_res s = res ++ new) /\
  List.Forall (fun e => exists A B, (A <= B < Nat.min (length (c_ranges c)) nprops)%nat /\ db A B <> [] /\
    entry_ok (c_ranges c) (db A B) A B e) (s_log s).
Proof. exact @driver_log. Qed.
Print Assumptions C42_in_place.
Theorem C42_positions : (forall g : rng RNum, rng_ok g -> pos_ok g (2 ^ 31)) /\
  (forall lm (g : rng (F64 lm)), frng_ok g -> pos_ok g (2 ^ 32)).
Proof. exact (conj rpos_ok (@fpos_ok)). Qed.
Print Assumptions C42_positions.
(** Species 0 x3, 1 x2; 0+0 elastic, 0+1 reacts to 2+3. *)
Definition fdbe (A B : nat) : list (equation F) :=
  match A, B with 0%nat, 0%nat => [fc (fofZ 5)] | 0%nat, 1%nat => [mkEquation teq tc tm] | _, _ => [] end.
Definition fcell : cell F := mkCell (N:=F) fmem [(0, 3); (3, 5)]%nat (fofZ 8) (fun _ _ => fofZ 5).
Definition frun (inplace : bool) := driver (N:=F) (fofZ 1) 20 inplace (fofZ 1) fcell 2 fdbe [] [] fG2 0.
Lemma fdbe_appends A B : List.Forall (fun e => appends (q_model e)) (fdbe A B).
Proof.
  assert (H : appends tm).
  { assert (Hn : match tm with MUser _ => false | _ => true end = true) by (vm_compute; reflexivity). destruct tm; try exact I; discriminate. }
  destruct A, B as [|[|B]]; cbn [fdbe]; try apply List.Forall_nil; (apply List.Forall_cons; [|apply List.Forall_nil]); [exact I|exact H].
Qed.
Lemma fcell_ok : bounded (2 ^ 32) (c_ranges fcell) /\ disjoint (c_ranges fcell) /\ wf_ranges (c_ranges fcell).
Proof.
  split; [repeat constructor; unfold rsize; cbn; lia|]. split; [|repeat constructor; cbn; lia].
  intros A B ra rb p Hne EA EB. destruct A as [|[|[|A]]], B as [|[|[|B]]]; cbn in EA, EB; try congruence; injection EA as <-; injection EB as <-; unfold in_range; cbn; lia.
Qed.
Example C42_case : pos_ok fG2 (2 ^ 32) /\ loads (frun false) = true /\ run_log (frun false) <> [] /\ run_pos (frun false) = [0; 1; 2; 3; 4]%Z /\
  loads (frun true) = true.
Proof.
  split; [apply C42_positions, C36_case|]. split; [vm_compute; reflexivity|]. split; [|split; vm_compute; reflexivity].
  assert (H : length (run_log (frun false)) <> 0%nat) by (vm_compute; discriminate). intros E. rewrite E in H. apply H. reflexivity.
Qed.

(** C43. *)
Theorem C43_removal : forall (N : Num) (K : N) sfuel rhs msv A B g bnd (s s' : dstate N) ra rb,
  pos_ok g bnd -> bounded bnd (s_ranges s) -> disjoint (s_ranges s) ->
  enough A B (s_ranges s) -> nth_error (s_ranges s) A = Some ra -> nth_error (s_ranges s) B = Some rb ->
  one_test K true sfuel rhs msv A B g s = Ok s' ->
  exists i j path, s_log s' = s_log s ++ [(A, B, (i, j), path)] /\ in_range i ra /\ in_range j rb /\ i <> j /\
   ((path < 0)%Z \/ (length (s_res s') <= length (s_res s))%nat ->
      s_ranges s' = s_ranges s /\ s_erase s' = s_erase s /\
      forall p, p <> i -> p <> j -> nth_error (s_mem s') p = nth_error (s_mem s) p) /\
   ((0 <= path)%Z -> (length (s_res s) < length (s_res s'))%nat ->
     exists ra' rb', nth_error (s_ranges s') A = Some ra' /\ nth_error (s_ranges s') B = Some rb' /\
      fst ra' = fst ra /\ fst rb' = fst rb /\
      (forall C, C <> A -> C <> B -> nth_error (s_ranges s') C = nth_error (s_ranges s) C) /\
      (forall p, ~ in_range p ra -> ~ in_range p rb -> nth_error (s_mem s') p = nth_error (s_mem s) p) /\
      (if Nat.eqb A B then snd ra = S (S (snd ra')) /\ s_erase s' = s_erase s ++ [S (snd ra'); snd ra'] /\
         Permutation (live (s_mem s') ra') (others (s_mem s) ra [i; j])
       else snd ra = S (snd ra') /\ snd rb = S (snd rb') /\ s_erase s' = s_erase s ++ [snd ra'; snd rb'] /\
         Permutation (live (s_mem s') ra') (others (s_mem s) ra [i]) /\
         Permutation (live (s_mem s') rb') (others (s_mem s) rb [j]))).
Proof. exact @test_removes. Qed.
Print Assumptions C43_removal.
(** Positions 2 and 4 react: 2 is the last of its range, 4 too. *)
Definition ft := one_test (N:=F) (fofZ 1) true 9 [mkEquation teq tc tm] (fofZ 0) 0 1 fG2 fst0.
Example C43_case : run_log ft = [(0, 1, (2, 4), 0%Z)]%nat /\ run_ranges ft = [(0, 2); (3, 4)]%nat /\ run_erase ft = [2; 4]%nat /\ run_res ft = [2; 3]%Z.
Proof. split; [|split; [|split]]; vm_compute; reflexivity. Qed.

(** C44.  Each test keeps the tiling, hence so does a whole run; slots are neither lost
    nor queued twice. *)
Theorem C44_step : forall (N : Num) (K : N) sfuel rhs msv A B g bnd (s s' : dstate N) rs0 er0 q,
  pos_ok g bnd -> bounded bnd rs0 -> wf_ranges rs0 -> disjoint rs0 ->
  List.Forall (fun e => appends (q_model e)) rhs -> enough A B (s_ranges s) ->
  s_erase s = er0 ++ q -> tiles rs0 (s_ranges s) q ->
  one_test K true sfuel rhs msv A B g s = Ok s' ->
  exists q', s_erase s' = er0 ++ q' /\ tiles rs0 (s_ranges s') q'.
Proof. exact @tiles_step. Qed.
Print Assumptions C44_step.
Theorem C44_run : forall (N : Num) (K : N) fuel dt (c : cell N) nprops db res er g k s bnd,
  pos_ok g bnd -> bounded bnd (c_ranges c) -> wf_ranges (c_ranges c) -> disjoint (c_ranges c) ->
  (forall A B, List.Forall (fun e => appends (q_model e)) (db A B)) ->
  driver K fuel true dt c nprops db res er g k = Ok s ->
  (exists new, s_res s = res ++ new) /\ exists q, s_erase s = er ++ q /\ tiles (c_ranges c) (s_ranges s) q.
Proof. exact @tiles_run. Qed.
Print Assumptions C44_run.
Theorem C44_slots : forall rs0 rs q, wf_ranges rs0 -> disjoint rs0 -> tiles rs0 rs q -> (length q + slots rs = slots rs0)%nat.
Proof. exact tiles_slots. Qed.
Print Assumptions C44_slots.
Example C44_case : pos_ok fG2 (2 ^ 32) /\ bounded (2 ^ 32) (c_ranges fcell) /\ disjoint (c_ranges fcell) /\ wf_ranges (c_ranges fcell) /\
  loads (frun true) = true /\ run_erase (frun true) <> [].
Proof.
  split; [apply C42_positions, C36_case|]. destruct fcell_ok as (H1 & H2 & H3). do 3 (split; [assumption|]). split; [vm_compute; reflexivity|].
  assert (H : length (run_erase (frun true)) <> 0%nat) by (vm_compute; discriminate). intros E. rewrite E in H. apply H. reflexivity.
Qed.

(** C64. *)
Theorem C64_acceptance : forall K rhs (V : R), 0 < K -> 0 < V -> List.Forall simple_channel rhs ->
  exists M, findMaxSigmaVProduct (N:=RNum) K rhs V = Ok M /\ 0 <= M /\
  forall v, 0 < v <= V -> exists cs, channels K rhs v cs /\ List.Forall (fun x => 0 <= x) cs /\
    v * Rsum cs <= M /\ (0 < M -> 0 <= Rsum cs * v / M <= 1) /\
    forall g k, rng_ok g -> exists j c k', calculateOutPath (N:=RNum) K rhs M v g k = Ok (j, c, k') /\
      ((0 <= j)%Z <-> 0 < Rsum cs /\ g_rand g k <= Rsum cs * v / M).
Proof. exact acceptance. Qed.
Print Assumptions C64_acceptance.
Example C64_case : exists c, List.Forall simple_channel [mkEquation exeq c (MElastic (ReducedMass (N:=RNum) 2 3))] /\ sigma_is 1 c 3 5 /\ sigma_is 1 c 1 0.
Proof.
  destruct C18_case as (c & E & H1 & H2). exists c. split; [|auto]. constructor; [|constructor].
  exists 0%nat, true, 0, 0, dtol, dsolve, mu2, (DConstant (N:=RNum) 5 (Some (QVelocity (N:=RNum) 2))).
  split; [exact mu2_pos|]. split; [|exact E]. split; [lra|]. cbn [declared_threshold]. rewrite mu2_val. lra.
Qed.
