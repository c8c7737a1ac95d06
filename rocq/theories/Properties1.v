(** C01-C11, C13-C17: collision models. *)
From Coq Require Import Reals Lra Lia String List ZArith Bool.
From Flocq Require Import IEEE754.BinarySingleNaN.
From Verif Require Import Base Num ModelTerm ModelCollide ModelFactories SpecTerm SpecPhys SpecFactories
  ProofTerm ProofCollide ProofInelastic ProofFactories ProofF64 ProofReact ProofTop1.
Import ListNotations.
Local Open Scope R_scope.

Ltac fall t := repeat (apply Forall_cons; [t|]); apply Forall_nil.

(** Two concrete particles used by the examples. *)
Definition exA : rpart := mkParticle (N:=RNum) (V3 (N:=RNum) 0 0 0) (V3 (N:=RNum) 3 0 4) 0 1.
Definition exB : rpart := mkParticle (N:=RNum) (V3 (N:=RNum) 1 1 1) (V3 (N:=RNum) 0 0 0) 1 2.
Definition exG : rng RNum := mkRng (N:=RNum) (fun _ => / 2) (fun _ => / 2).
Lemma exG_ok : rng_ok exG. Proof. intros k; cbn; lra. Qed.

(** C01.  For all positive masses, particles, product lists and random streams,
    an elastic collision conserves every component of momentum. *)
Theorem C01_elastic_momentum : forall m1 m2 (p1 p2 : rpart) l g k, 0 < m1 -> 0 < m2 ->
  exists q1 q2,
    model_interact true (MElastic (ReducedMass (N:=RNum) m1 m2)) p1 p2 l g k = Ok (q1, q2, l, (k + 2)%nat) /\
    momentum2 m1 (p_vel q1) m2 (p_vel q2) = momentum2 m1 (p_vel p1) m2 (p_vel p2).
Proof. exact top_momentum. Qed.
Print Assumptions C01_elastic_momentum.
Example C01_case : (0 < 1)%R /\ (0 < 4)%R /\ momentum2 1 (p_vel exA) 4 (p_vel exB) = (1 * 3 + 4 * 0, 1 * 0 + 4 * 0, 1 * 4 + 4 * 0).
Proof. repeat split; lra. Qed.

(** C02.  With draws in [0,1] relative speed and kinetic energy are conserved. *)
Theorem C02_elastic_energy : forall m1 m2 (p1 p2 : rpart) l g k, 0 < m1 -> 0 < m2 -> rng_ok g ->
  exists q1 q2,
    model_interact true (MElastic (ReducedMass (N:=RNum) m1 m2)) p1 p2 l g k = Ok (q1, q2, l, (k + 2)%nat) /\
    relspeed (p_vel q1) (p_vel q2) = relspeed (p_vel p1) (p_vel p2) /\
    kinetic m1 (p_vel q1) + kinetic m2 (p_vel q2) = kinetic m1 (p_vel p1) + kinetic m2 (p_vel p2).
Proof. exact top_energy. Qed.
Print Assumptions C02_elastic_energy.
Example C02_case : rng_ok exG /\ kinetic 1 (p_vel exA) + kinetic 4 (p_vel exB) = 25 / 2.
Proof. split; [exact exG_ok|]. unfold kinetic, norm2, exA, exB; cbn. lra. Qed.

(** C03.  Both elastic models, over any arithmetic: out-of-place appends exactly the
    two particles that in-place collision produces; only velocities differ; the
    earlier list content, the reactants and the number of draws (2) are as stated. *)
Theorem C03_elastic_out_in : forall (N : Num) mu p1 p2 l (g : rng N) k,
  exists q1 q2,
    model_interact true (MElastic mu) p1 p2 l g k = Ok (q1, q2, l, (k + 2)%nat) /\
    model_interact false (MElastic mu) p1 p2 l g k = Ok (p1, p2, l ++ [q1; q2], (k + 2)%nat) /\
    p_pos q1 = p_pos p1 /\ p_species q1 = p_species p1 /\ p_weight q1 = p_weight p1 /\
    p_pos q2 = p_pos p2 /\ p_species q2 = p_species p2 /\ p_weight q2 = p_weight p2 /\
    (q1, q2) = elastic_collide mu p1 p2 (g_rand g k) (g_rand g (k + 1)).
Proof. exact @elastic_out_in. Qed.
Print Assumptions C03_elastic_out_in.
Theorem C03_vss_out_in : forall (N : Num) mu al p1 p2 l (g : rng N) k,
  exists q1 q2,
    model_interact true (MVSS mu al) p1 p2 l g k = Ok (q1, q2, l, (k + 2)%nat) /\
    model_interact false (MVSS mu al) p1 p2 l g k = Ok (p1, p2, l ++ [q1; q2], (k + 2)%nat) /\
    p_pos q1 = p_pos p1 /\ p_species q1 = p_species p1 /\ p_weight q1 = p_weight p1 /\
    p_pos q2 = p_pos p2 /\ p_species q2 = p_species p2 /\ p_weight q2 = p_weight p2 /\
    (q1, q2) = vss_collide mu al p1 p2 (g_rand g k) (g_rand g (k + 1)).
Proof. exact @vss_out_in. Qed.
Print Assumptions C03_vss_out_in.
Example C03_case : exists q1 q2,
  model_interact false (MElastic (ReducedMass (N:=RNum) 1 4)) exA exB [exB] exG 7 = Ok (exA, exB, [exB; q1; q2], 9%nat).
Proof. eexists _, _. reflexivity. Qed.

(** C04.  Every direction is reached by some generator with draws in [0,1]: the
    relative velocity afterwards is |v1-v2| times the direction. *)
Theorem C04_isotropic_reach : forall m1 m2 (p1 p2 : rpart) l (d : rvec), 0 < m1 -> 0 < m2 -> norm2 d = 1 ->
  exists g, rng_ok g /\ forall k, exists q1 q2,
    model_interact true (MElastic (ReducedMass (N:=RNum) m1 m2)) p1 p2 l g (2 * k) = Ok (q1, q2, l, (2 * k + 2)%nat) /\
    let s := relspeed (p_vel p1) (p_vel p2) in
    relvel q1 q2 = V3 (N:=RNum) (s * vx d)%R (s * vy d)%R (s * vz d)%R.
Proof. exact top_iso. Qed.
Print Assumptions C04_isotropic_reach.
Example C04_case : norm2 (V3 (N:=RNum) (3 / 5)%R 0%R (- (4 / 5))%R) = 1.
Proof. unfold norm2; cbn [vx vy vz]. field. Qed.

(** C05, C06.  VSS: momentum always; off the cone 0 < D <= 1e-6 the relative speed and
    energy are kept and the deflection cosine is the drawn one, whatever the second
    draw; inside it the squared relative speed drops by D^2 <= 1e-12. *)
Theorem C05_C06_vss : forall m1 m2 (al : R) (p1 p2 : rpart) l (g : rng RNum) k, 0 < m1 -> 0 < m2 ->
  let v := relvel p1 p2 in
  let D := R_sqrt.sqrt (vy v ^ 2 + vz v ^ 2) in
  let B := 2 * Rpow (g_rand g k) al - 1 in
  exists q1 q2,
    model_interact true (MVSS (ReducedMass (N:=RNum) m1 m2) al) p1 p2 l g k = Ok (q1, q2, l, (k + 2)%nat) /\
    momentum2 m1 (p_vel q1) m2 (p_vel q2) = momentum2 m1 (p_vel p1) m2 (p_vel p2) /\
    (0 <= g_rand g k <= 1 -> 0 <= al ->
      (1 / 1000000 < D \/ D = 0 ->
        norm2 (relvel q1 q2) = norm2 v /\
        kinetic m1 (p_vel q1) + kinetic m2 (p_vel q2) = kinetic m1 (p_vel p1) + kinetic m2 (p_vel p2) /\
        dot3 v (relvel q1 q2) = norm2 v * B) /\
      (D <= 1 / 1000000 ->
        norm2 (relvel q1 q2) = norm2 v - D ^ 2 /\ D ^ 2 <= 1 / 1000000000000)).
Proof. exact top_vss. Qed.
Print Assumptions C05_C06_vss.
Example C05_case : 1 / 1000000 < R_sqrt.sqrt (vy (relvel exA exB) ^ 2 + vz (relvel exA exB) ^ 2).
Proof.
  unfold relvel, exA, exB; cbn [p_vel vx vy vz].
  replace ((0 - 0) ^ 2 + (4 - 0) ^ 2) with (4²) by (unfold Rsqr; ring). rewrite sqrt_Rsqr; lra.
Qed.

(** C05.  Energy conservation inside the cone is refuted by a concrete collision. *)
Theorem C05_cone_energy_refuted : exists (p1 p2 : rpart) g m1 m2, 0 < m1 /\ 0 < m2 /\ rng_ok g /\
  forall l k, exists q1 q2,
    model_interact true (MVSS (ReducedMass (N:=RNum) m1 m2) 1) p1 p2 l g k = Ok (q1, q2, l, (k + 2)%nat) /\
    kinetic m1 (p_vel q1) + kinetic m2 (p_vel q2) < kinetic m1 (p_vel p1) + kinetic m2 (p_vel p2).
Proof. exact top_vss_loss. Qed.
Print Assumptions C05_cone_energy_refuted.

(** C07, C08.  A loaded 2->2 reaction without 'ops' expressions: total momentum is
    scaled by (product mass)/(reactant mass), hence conserved when masses balance,
    and with balanced masses kinetic energy changes by exactly dE (the document's
    KineticEnergyChange, else minus the threshold energy) whenever affordable. *)
Theorem C07_C08_two_products :
  forall db spf parse fcm fcq kec thrE (e : eqcore RNum) model mA mB M0 M1 inplace (p1 p2 : rpart) l g k,
  reaction (N:=RNum) (fun m : R => 0 < m) db e mA mB [M0; M1] ->
  hasExpressions (e_products e) = false ->
  inelastic_new_load db spf parse fcm fcq kec thrE e = Ok model ->
  let dE := match kec with Some d => d | None => - thrE end in
  exists q1 q2,
    model_interact inplace model p1 p2 l g k = Ok (p1, p2, l ++ [q1; q2], (k + 2)%nat) /\
    momentum2 M0 (p_vel q1) M1 (p_vel q2)
      = scale3 ((M0 + M1) / (mA + mB)) (momentum2 mA (p_vel p1) mB (p_vel p2)) /\
    (M0 + M1 = mA + mB ->
     momentum2 M0 (p_vel q1) M1 (p_vel q2) = momentum2 mA (p_vel p1) mB (p_vel p2)) /\
    (M0 + M1 = mA + mB -> 0 <= g_rand g k <= 1 ->
     0 <= mA * mB / (mA + mB) / 2 * dist2 (p_vel p1) (p_vel p2) + dE ->
     kinetic M0 (p_vel q1) + kinetic M1 (p_vel q2) = kinetic mA (p_vel p1) + kinetic mB (p_vel p2) + dE).
Proof. exact react22. Qed.
Print Assumptions C07_C08_two_products.

(** A database with masses 2,3 (reactants 0,1) and 1,4 (products 2,3), no charges. *)
Definition exdb (s : Z) : outcome (RNum * RNum) :=
  match s with 0%Z => Ok (2%R, 0%R) | 1%Z => Ok (3%R, 0%R) | 2%Z => Ok (1%R, 0%R) | 3%Z => Ok (4%R, 0%R) | _ => UB end.
Definition exspf (a b : list (massCharge RNum)) : outcome (list factory) :=
  Ok (map (fun o => mkFactory 0 (mc_species o) NOOP) b).
Definition exeq : eqcore RNum :=
  mkEq (mkInput (term_sp 0) (term_sp 1)) [term_sp 2; term_sp 3] (ReducedMass (N:=RNum) 2 3).
Example C07_case :
  reaction (N:=RNum) (fun m : R => 0 < m) exdb exeq 2 3 [1; 4] /\ hasExpressions (e_products exeq) = false /\
  (1 + 4 = 2 + 3)%R /\
  exists model, inelastic_new_load exdb exspf (fun _ => Ok []) false false (Some 1%R) 0 exeq = Ok model.
Proof.
  split; [|split; [reflexivity|split; [lra|]]].
  - unfold reaction, exeq. split; [eexists; reflexivity|]. split; [eexists; reflexivity|]. split; [reflexivity|].
    split; [split; [fall ltac:(cbn; lia)|vm_compute; reflexivity]|].
    split; [repeat (apply Forall2_cons; [eexists; reflexivity|]); apply Forall2_nil|]. split; [cbn; lra|split; [cbn; lra|]]. fall ltac:(cbn; lra).
  - assert (Hq : neqb (n:=RNum) 1%R n0 = false) by (cbn; destruct (Reqb_spec 1 0); [lra|reflexivity]).
    unfold inelastic_new_load. change (numberProducts exeq) with 2%Z. cbv beta zeta. rewrite Hq.
    unfold make_inelastic, make22. change (numberProducts exeq) with 2%Z. cbn [negb andb]. rewrite Hq.
    cbn -[ReducedMass nsqrt ndiv]. eexists. reflexivity.
Qed.

(** C09, C10.  The same for three products, for every energy split drawn. *)
Theorem C09_C10_three_products :
  forall db spf parse fcm fcq kec thrE (e : eqcore RNum) model mA mB M0 M1 M2 inplace (p1 p2 : rpart) l g k,
  reaction (N:=RNum) (fun m : R => 0 < m) db e mA mB [M0; M1; M2] ->
  hasExpressions (e_products e) = false ->
  inelastic_new_load db spf parse fcm fcq kec thrE e = Ok model ->
  let dE := match kec with Some d => d | None => - thrE end in
  exists q1 q2 q3,
    model_interact inplace model p1 p2 l g k = Ok (p1, p2, l ++ [q1; q2; q3], (k + 5)%nat) /\
    momentum3 M0 (p_vel q1) M1 (p_vel q2) M2 (p_vel q3)
      = scale3 ((M0 + M1 + M2) / (mA + mB)) (momentum2 mA (p_vel p1) mB (p_vel p2)) /\
    (M0 + M1 + M2 = mA + mB ->
     momentum3 M0 (p_vel q1) M1 (p_vel q2) M2 (p_vel q3) = momentum2 mA (p_vel p1) mB (p_vel p2)) /\
    (M0 + M1 + M2 = mA + mB -> rng_ok g ->
     0 <= mA * mB / (mA + mB) / 2 * dist2 (p_vel p1) (p_vel p2) + dE ->
     kinetic M0 (p_vel q1) + kinetic M1 (p_vel q2) + kinetic M2 (p_vel q3)
     = kinetic mA (p_vel p1) + kinetic mB (p_vel p2) + dE).
Proof. exact react23. Qed.
Print Assumptions C09_C10_three_products.
Definition exeq3 : eqcore RNum :=
  mkEq (mkInput (term_sp 0) (term_sp 1)) [term_sn 2 2; term_sp 1] (ReducedMass (N:=RNum) 2 3).
Example C09_case :
  reaction (N:=RNum) (fun m : R => 0 < m) exdb exeq3 2 3 [1; 1; 3] /\ hasExpressions (e_products exeq3) = false /\
  (1 + 1 + 3 = 2 + 3)%R /\
  exists model, inelastic_new_load exdb exspf (fun _ => Ok []) false false (Some 1%R) 0 exeq3 = Ok model.
Proof.
  split; [|split; [reflexivity|split; [lra|]]].
  - unfold reaction, exeq3. split; [eexists; reflexivity|]. split; [eexists; reflexivity|]. split; [reflexivity|].
    split; [split; [fall ltac:(cbn; lia)|vm_compute; reflexivity]|].
    split; [repeat (apply Forall2_cons; [eexists; reflexivity|]); apply Forall2_nil|]. split; [cbn; lra|split; [cbn; lra|]]. fall ltac:(cbn; lra).
  - assert (Hq : neqb (n:=RNum) 1%R n0 = false) by (cbn; destruct (Reqb_spec 1 0); [lra|reflexivity]).
    unfold inelastic_new_load. change (numberProducts exeq3) with 3%Z. cbv beta zeta. rewrite Hq.
    unfold make_inelastic, make23. change (numberProducts exeq3) with 3%Z. cbn [negb andb]. rewrite Hq.
    cbn -[ReducedMass nsqrt ndiv]. eexists. reflexivity.
Qed.

(** C11.  In binary64, for any libm: when |v1-v2|^2 + dE/(mu/2) evaluates to a negative
    number, every velocity component of every product is NaN, for all draws. *)
Theorem C11_nan_two : forall lm db spf parse fcm fcq kec thrE (e : eqcore (F64 lm)) model s0 s1
    inplace (p1 p2 : particle (F64 lm)) l g k,
  terms_ok (e_products e) -> expand_species (e_products e) = [s0; s1] ->
  hasExpressions (e_products e) = false ->
  inelastic_new_load db spf parse fcm fcq kec thrE e = Ok model ->
  let dE := match kec with Some d => d | None => fsub (fofZ 0) thrE end in
  Beqb dE (fofZ 0) = false ->
  Bltb (fadd (vsqr (N:=F64 lm) (vsub (p_vel p1) (p_vel p2)))
             (fdiv dE (fmul (fdiv (fofZ 1) (fofZ 2)) (rm_value (e_mu e))))) (fofZ 0) = true ->
  exists q1 q2, model_interact inplace model p1 p2 l g k = Ok (p1, p2, l ++ [q1; q2], (k + 2)%nat) /\
    all_nan lm (p_vel q1) /\ all_nan lm (p_vel q2).
Proof. exact react22_nan. Qed.
Print Assumptions C11_nan_two.
Theorem C11_nan_three : forall lm db spf parse fcm fcq kec thrE (e : eqcore (F64 lm)) model s0 s1 s2
    inplace (p1 p2 : particle (F64 lm)) l g k,
  terms_ok (e_products e) -> expand_species (e_products e) = [s0; s1; s2] ->
  hasExpressions (e_products e) = false ->
  inelastic_new_load db spf parse fcm fcq kec thrE e = Ok model ->
  let dE := match kec with Some d => d | None => fsub (fofZ 0) thrE end in
  Beqb dE (fofZ 0) = false ->
  Bltb (fadd (vsqr (N:=F64 lm) (vsub (p_vel p1) (p_vel p2)))
             (fdiv dE (fmul (fdiv (fofZ 1) (fofZ 2)) (rm_value (e_mu e))))) (fofZ 0) = true ->
  exists q1 q2 q3, model_interact inplace model p1 p2 l g k = Ok (p1, p2, l ++ [q1; q2; q3], (k + 5)%nat) /\
    all_nan lm (p_vel q1) /\ all_nan lm (p_vel q2) /\ all_nan lm (p_vel q3).
Proof. exact react23_nan. Qed.
Print Assumptions C11_nan_three.

(** A libm of constants is enough for the examples. *)
Definition exlm : libm :=
  mkLibm (fun x => x) (fun x => x) (fun x => x) (fun x y => x) (fun x => fofZ 0) (fun x => fofZ 1) (fofZ 3) (fofZ 3).
Notation F := (F64 exlm).
Definition fdb (s : Z) : outcome (F * F) :=
  match s with
  | 0%Z => Ok (fofZ 2, fofZ 0) | 1%Z => Ok (fofZ 3, fofZ 1) | 2%Z => Ok (fofZ 1, fofZ 0)
  | 3%Z => Ok (fofZ 4, fofZ 1) | _ => UB end.
Definition feq : eqcore F :=
  mkEq (mkInput (term_sp 0) (term_sp 1)) [term_sp 2; term_sp 3] (ReducedMass (N:=F) (fofZ 2) (fofZ 3)).
Definition feq3 : eqcore F :=
  mkEq (mkInput (term_sp 0) (term_sp 1)) [term_sp 2; term_sp 2; mkTerm 1 1 [0%Z] [""%string]] (ReducedMass (N:=F) (fofZ 2) (fofZ 3)).
Definition fp (x v s : Z) : particle F := mkParticle (N:=F) (V3 (N:=F) (fofZ x) (fofZ 0) (fofZ 0)) (V3 (N:=F) (fofZ v) (fofZ 0) (fofZ 0)) s (fofZ 1).
Definition loads {A} (o : outcome A) : bool := match o with Ok _ => true | _ => false end.
Example C11_case :
  terms_ok (e_products feq) /\ expand_species (e_products feq) = [2; 3]%Z /\
  loads (inelastic_new_load fdb (setParticleFactories (N:=F) finf) (fun _ => Ok []) false false None (fofZ 5) feq) = true /\
  Bltb (fadd (vsqr (N:=F) (vsub (p_vel (fp 0 1 0)) (p_vel (fp 1 0 1))))
             (fdiv (fsub (fofZ 0) (fofZ 5)) (fmul (fdiv (fofZ 1) (fofZ 2)) (rm_value (e_mu feq))))) (fofZ 0) = true.
Proof.
  split; [split; [fall ltac:(cbn; lia)|vm_compute; reflexivity]|]. split; [reflexivity|].
  split; vm_compute; reflexivity.
Qed.

(** C13.  Counts other than 2 and 3 load without error and throw at every collision;
    counts 2 and 3 give the matching model, with energy change iff dE <> 0. *)
Theorem C13_dispatch : forall (N : Num) db spf parse fcm fcq kec thrE (e : eqcore N),
  let dE := match kec with Some d => d | None => nsub n0 thrE end in
  (numberProducts e <> 2 -> numberProducts e <> 3 ->
     exists model, inelastic_new_load db spf parse fcm fcq kec thrE e = Ok model /\
     forall inplace p1 p2 l g k, model_interact inplace model p1 p2 l g k = Throw ExnRuntime)%Z /\
  (forall model, inelastic_new_load db spf parse fcm fcq kec thrE e = Ok model ->
     (numberProducts e = 2%Z -> exists m, model = MIn22 m /\ i2_hasE m = negb (neqb dE n0) /\
         i2_useX m = hasExpressions (e_products e)) /\
     (numberProducts e = 3%Z -> exists m, model = MIn23 m /\ i3_hasE m = negb (neqb dE n0) /\
         i3_useX m = hasExpressions (e_products e))).
Proof. exact @dispatch. Qed.
Print Assumptions C13_dispatch.
Example C13_case :
  numberProducts (mkEq (N:=F) (mkInput (term_sp 0) (term_sp 1)) [term_sn 2 4] (ReducedMass (N:=F) (fofZ 2) (fofZ 3))) = 4%Z /\
  numberProducts feq = 2%Z /\ numberProducts feq3 = 3%Z /\
  loads (inelastic_new_load fdb (setParticleFactories (N:=F) finf) (fun _ => Ok []) false false None (fofZ 5) feq) = true /\
  loads (inelastic_new_load fdb (setParticleFactories (N:=F) finf) (fun _ => Ok []) false false None (fofZ 5) feq3) = true.
Proof. repeat split; vm_compute; reflexivity. Qed.

(** C14.  A loaded reaction with 2 or 3 products and no expressions appends exactly the
    declared species in declared order and leaves reactants and earlier results alone;
    every product starts at one of the four places, explicit 'from's are honoured
    (0, 1: that reactant; 2: centre of mass; 3: centre of charge) and the weight is
    that of one of the reactants. *)
Theorem C14_products : forall lm db parse fcm fcq kec thrE (e : eqcore (F64 lm)) model inplace
    (p1 p2 : particle (F64 lm)) l g k,
  terms_ok (e_products e) ->
  (length (expand_species (e_products e)) = 2 \/ length (expand_species (e_products e)) = 3)%nat ->
  hasExpressions (e_products e) = false ->
  inelastic_new_load db (setParticleFactories (N:=F64 lm) finf) parse fcm fcq kec thrE e = Ok model ->
  exists qs pls k' mA qA mB qB,
    model_interact inplace model p1 p2 l g k = Ok (p1, p2, l ++ qs, k') /\
    db (t_species (e_A e)) = Ok (mA, qA) /\ db (t_species (e_B e)) = Ok (mB, qB) /\
    map p_species qs = expand_species (e_products e) /\
    Forall2 (fun fr pl => (0 <= fr)%Z -> place_index pl = fr)
       (concat (map (fun t => firstn (Z.to_nat (t_n t)) (t_from t)) (e_products e))) pls /\
    Forall2 (starts_at (e_mu e) (ReducedMass qA qB) p1 p2) pls qs.
Proof. exact react_sources. Qed.
Print Assumptions C14_products.
Example C14_case :
  terms_ok (e_products feq3) /\ length (expand_species (e_products feq3)) = 3%nat /\
  hasExpressions (e_products feq3) = false /\
  concat (map (fun t => firstn (Z.to_nat (t_n t)) (t_from t)) (e_products feq3)) = [-1; -1; 0]%Z /\
  loads (inelastic_new_load fdb (setParticleFactories (N:=F) finf) (fun _ => Ok []) false false None (fofZ 5) feq3) = true.
Proof.
  split; [split; [fall ltac:(cbn; lia)|vm_compute; reflexivity]|]. repeat split; vm_compute; reflexivity.
Qed.

(** C15.  For two reactants and any products, a successful choice realises an
    admissible assignment of places whose displacement score no admissible assignment
    undercuts (binary64 arithmetic). *)
Theorem C15_minimal_score : forall lm (a b : massCharge (F64 lm)) outs s fs,
  setParticleFactories_score (N:=F64 lm) finf [a; b] outs = Ok (s, fs) ->
  exists ps, admissible outs ps /\ s = score (N:=F64 lm) finf a b outs ps /\
    Forall2 (fun op f => realises (fst op) (snd op) f) (combine outs ps) fs /\
    forall ps', admissible outs ps' -> Bltb (score (N:=F64 lm) finf a b outs ps') s = false.
Proof. exact (fun lm a b => factories_spec (N:=F64 lm) finf a b fltb_irrefl fltb_trans). Qed.
Print Assumptions C15_minimal_score.
Definition mc (m q s f : Z) : massCharge F := mkMC (N:=F) (fofZ m) (fofZ q) s f.
Example C15_case :
  setParticleFactories (N:=F) finf [mc 1 0 0 (-1); mc 3 1 1 (-1)] [mc 1 1 2 (-1); mc 3 0 3 0]
  = Ok [mkFactory 1 2 NOOP; mkFactory 0 3 NOOP].
Proof. vm_compute. reflexivity. Qed.

(** C16.  Exactly when the choice is undefined behaviour for two reactants: 16 or more
    products (the candidate count overflows int), a 'from' above 3, or a third or later
    product that may be placed at CM/CQ and has a reactant's mass. *)
Theorem C16_out_of_bounds : forall lm (a b : massCharge (F64 lm)) outs,
  setParticleFactories (N:=F64 lm) finf [a; b] outs = UB <->
  (16 <= length outs)%nat \/
  exists i o, nth_error outs i = Some o /\
    ((4 <= mc_from o)%Z \/
     ((2 <= i)%nat /\ (mc_from o < 0 \/ 2 <= mc_from o)%Z /\
      (Beqb (mc_mass o) (mc_mass a) || Beqb (mc_mass o) (mc_mass b))%bool = true)).
Proof. exact (fun lm a b => factories_ub_all (N:=F64 lm) finf a b fltb_irrefl fltb_trans). Qed.
Print Assumptions C16_out_of_bounds.
(** photon + electron + atom from electron + atom: the atom is the third product. *)
Example C16_case :
  setParticleFactories (N:=F) finf [mc 1 (-1) 1 (-1); mc 1836 0 2 (-1)] [mc 0 0 0 (-1); mc 1 (-1) 1 (-1); mc 1836 0 2 (-1)] = UB.
Proof. vm_compute. reflexivity. Qed.

(** C17.  Reduced-mass factors. *)
Theorem C17_reduced_mass : forall m1 m2, 0 < m1 -> 0 < m2 ->
  let mu := ReducedMass (N:=RNum) m1 m2 in
  (rm_value mu = m1 * m2 / (m1 + m2) /\
  over_m1 mu * m1 = rm_value mu /\ over_m2 mu * m2 = rm_value mu /\
  over_m1 mu + over_m2 mu = 1 /\
  over_m1 (ReducedMass (N:=RNum) m2 m1) = over_m2 mu /\
  over_m2 (ReducedMass (N:=RNum) m2 m1) = over_m1 mu /\
  rm_value (ReducedMass (N:=RNum) m2 m1) = rm_value mu /\
  0 < rm_value mu /\ rm_value mu < m1 /\ rm_value mu < m2)%R.
Proof. exact reduced_mass_facts. Qed.
Print Assumptions C17_reduced_mass.
Example C17_case : rm_value (ReducedMass (N:=RNum) 3 6) = 2%R.
Proof. cbn; unR; field. Qed.
