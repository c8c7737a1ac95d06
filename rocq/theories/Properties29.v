(** C76 for collisions with three products. *)
From Coq Require Import String List ZArith Bool Arith Lia Reals Lra.
From Verif Require Import Base Num ModelTerm ModelCollide ModelXsec ModelSet ModelEq ModelFilter ModelDB ModelMore
  SpecTerm SpecPhys SpecXsec SpecEq SpecFilter SpecDB SpecMore SpecMean3
  ProofCollide ProofInelastic ProofTop1 ProofMean3
  Properties1 Properties2 Properties4 Properties5 Properties6 Properties8.
From Coquelicot Require Import Coquelicot.
From Coq Require Import List.
Import ListNotations.
Local Open Scope R_scope.

(** Each of the three products leaves on average with the velocity of the centre of
    mass, whether or not the masses balance or the energy suffices. *)
Theorem C76_three_mean : forall db spf parse fcm fcq kec thrE (e : eqcore RNum) model mA mB M0 M1 M2 inplace (p1 p2 : rpart) i j,
  reaction (N:=RNum) (fun m : R => 0 < m) db e mA mB [M0; M1; M2] ->
  hasExpressions (e_products e) = false ->
  inelastic_new_load db spf parse fcm fcq kec thrE e = Ok model ->
  (j < 3)%nat ->
  mean5_is (fun q r r' s s' => component i (product3 j (model_interact inplace model p1 p2 [] (five_draws q r r' s s') 0)))
    (cm_velocity mA (p_vel p1) mB (p_vel p2) i).
Proof.
  intros db spf parse fcm fcq kec thrE e model mA mB M0 M1 M2 inplace p1 p2 i j H1 H2 H3 H4.
  exact (proj1 (react23_mean db spf parse fcm fcq kec thrE e model mA mB M0 M1 M2 inplace p1 p2 j H1 H2 H3 H4) i).
Qed.
Print Assumptions C76_three_mean.
(** On average each product carries, relative to the centre of mass, half of the
    available energy times the mass fraction of the two others: the order in which the
    equation lists the products does not matter. *)
Theorem C76_three_energy : forall db spf parse fcm fcq kec thrE (e : eqcore RNum) model mA mB M0 M1 M2 inplace (p1 p2 : rpart) j,
  reaction (N:=RNum) (fun m : R => 0 < m) db e mA mB [M0; M1; M2] ->
  hasExpressions (e_products e) = false ->
  inelastic_new_load db spf parse fcm fcq kec thrE e = Ok model ->
  let dE := match kec with Some d => d | None => - thrE end in
  let E := mA * mB / (mA + mB) / 2 * dist2 (p_vel p1) (p_vel p2) + dE in
  0 <= E -> (j < 3)%nat ->
  let M := nth j [M0; M1; M2] 0 in
  mean5_is (fun q r r' s s' => kinetic_from M (cm_velocity mA (p_vel p1) mB (p_vel p2))
      (product3 j (model_interact inplace model p1 p2 [] (five_draws q r r' s s') 0)))
    (E / 2 * ((M0 + M1 + M2 - M) / (M0 + M1 + M2))).
Proof.
  intros db spf parse fcm fcq kec thrE e model mA mB M0 M1 M2 inplace p1 p2 j H1 H2 H3 dE E H4 H5.
  exact (proj1 (proj2 (react23_mean db spf parse fcm fcq kec thrE e model mA mB M0 M1 M2 inplace p1 p2 j H1 H2 H3 H5)) H4).
Qed.
Print Assumptions C76_three_energy.
(** Products of masses 1, 1 and 3: the light ones carry twice the energy of the heavy one. *)
Example C76_three_case : reaction (N:=RNum) (fun m : R => 0 < m) exdb exeq3 2 3 [1; 1; 3] /\
  hasExpressions (e_products exeq3) = false /\
  (exists model, inelastic_new_load exdb exspf (fun _ => Ok []) false false (Some 1%R) 0 exeq3 = Ok model) /\
  0 <= 2 * 3 / (2 + 3) / 2 * dist2 (p_vel exA) (p_vel exB) + 1 /\
  (1 + 1 + 3 - 1) / (1 + 1 + 3) = 2 * ((1 + 1 + 3 - 3) / (1 + 1 + 3)).
Proof.
  destruct C77_case as (A & B & _ & _ & C). split; [exact A|]. split; [reflexivity|]. split; [exact B|]. split; [exact C|]. field.
Qed.

(** Three products of the same mass: the mean square of the energy is 4/27 of the square
    of the available energy for the first one and 5/36 for the two others.  So it does
    matter for the distribution which product the equation lists first. *)
Theorem C76_three_spread : forall db spf parse fcm fcq kec thrE (e : eqcore RNum) model mA mB M inplace (p1 p2 : rpart) j,
  reaction (N:=RNum) (fun m : R => 0 < m) db e mA mB [M; M; M] ->
  hasExpressions (e_products e) = false ->
  inelastic_new_load db spf parse fcm fcq kec thrE e = Ok model ->
  let dE := match kec with Some d => d | None => - thrE end in
  let E := mA * mB / (mA + mB) / 2 * dist2 (p_vel p1) (p_vel p2) + dE in
  0 <= E -> (j < 3)%nat ->
  mean5_is (fun q r r' s s' => kinetic_from M (cm_velocity mA (p_vel p1) mB (p_vel p2))
      (product3 j (model_interact inplace model p1 p2 [] (five_draws q r r' s s') 0)) ^ 2)
    (E ^ 2 * match j with 0%nat => 4 / 27 | _ => 5 / 36 end).
Proof.
  intros db spf parse fcm fcq kec thrE e model mA mB M inplace p1 p2 j H1 H2 H3 dE E H4 H5.
  pose proof (proj2 (proj2 (react23_mean db spf parse fcm fcq kec thrE e model mA mB M M M inplace p1 p2 j H1 H2 H3 H5)) H4 eq_refl eq_refl) as K.
  destruct j as [|[|[|j]]]; [exact K|exact K|exact K|lia].
Qed.
Print Assumptions C76_three_spread.
Theorem C76_three_order_refuted : forall db spf parse fcm fcq kec thrE (e : eqcore RNum) model mA mB M inplace (p1 p2 : rpart) j,
  reaction (N:=RNum) (fun m : R => 0 < m) db e mA mB [M; M; M] ->
  hasExpressions (e_products e) = false ->
  inelastic_new_load db spf parse fcm fcq kec thrE e = Ok model ->
  0 < mA * mB / (mA + mB) / 2 * dist2 (p_vel p1) (p_vel p2) + match kec with Some d => d | None => - thrE end ->
  (0 < j < 3)%nat ->
  let T2 k := fun q r r' s s' => kinetic_from M (cm_velocity mA (p_vel p1) mB (p_vel p2))
      (product3 k (model_interact inplace model p1 p2 [] (five_draws q r r' s s') 0)) ^ 2 in
  ~ exists m, mean5_is (T2 0%nat) m /\ mean5_is (T2 j) m.
Proof.
  intros db spf parse fcm fcq kec thrE e model mA mB M inplace p1 p2 j H1 H2 H3 H4 H5 T2 (m & A & B).
  pose proof (C76_three_spread db spf parse fcm fcq kec thrE e model mA mB M inplace p1 p2 0 H1 H2 H3 (Rlt_le _ _ H4) ltac:(lia)) as A'.
  pose proof (C76_three_spread db spf parse fcm fcq kec thrE e model mA mB M inplace p1 p2 j H1 H2 H3 (Rlt_le _ _ H4) ltac:(lia)) as B'.
  cbv zeta in A', B'. set (E := _ + _) in H4, A', B'. pose proof (mean5_unique _ _ _ A A') as X. pose proof (mean5_unique _ _ _ B B') as Y.
  destruct j as [|j]; [lia|]. pose proof (pow_lt E 2 H4). lra.
Qed.
Print Assumptions C76_three_order_refuted.
(** Masses 2 + 1 -> 1 + 1 + 1. *)
Definition exeq111 : eqcore RNum :=
  mkEq (mkInput (term_sp 0) (term_sp 2)) [term_sn 2 3] (ReducedMass (N:=RNum) 2 1).
Example C76_three_spread_case : reaction (N:=RNum) (fun m : R => 0 < m) exdb exeq111 2 1 [1; 1; 1] /\
  hasExpressions (e_products exeq111) = false /\
  (exists model, inelastic_new_load exdb exspf (fun _ => Ok []) false false (Some 1%R) 0 exeq111 = Ok model) /\
  0 < 2 * 1 / (2 + 1) / 2 * dist2 (p_vel exA) (p_vel exB) + 1.
Proof.
  split; [|split; [reflexivity|split]].
  - unfold reaction, exeq111. split; [eexists; reflexivity|]. split; [eexists; reflexivity|]. split; [reflexivity|].
    split; [split; [repeat (apply Forall_cons; [cbn; lia|]); apply Forall_nil|vm_compute; reflexivity]|].
    split; [repeat (apply Forall2_cons; [eexists; reflexivity|]); apply Forall2_nil|]. split; [cbn; lra|split; [cbn; lra|]]. repeat (apply Forall_cons; [cbn; lra|]); apply Forall_nil.
  - assert (Hq : neqb (n:=RNum) 1%R n0 = false) by (cbn; destruct (Reqb_spec 1 0); [lra|reflexivity]).
    unfold inelastic_new_load. change (numberProducts exeq111) with 3%Z. cbv beta zeta. rewrite Hq.
    unfold make_inelastic, make23. change (numberProducts exeq111) with 3%Z. cbn [negb andb]. rewrite Hq.
    cbn -[ReducedMass nsqrt ndiv]. eexists. reflexivity.
  - unfold dist2; cbn. lra.
Qed.
