(** C76: mean energies after binary collisions, and the shares of two products. *)
From Coq Require Import String List ZArith Bool Arith Lia Reals Lra.
From Verif Require Import Base Num ModelTerm ModelCollide ModelXsec ModelSet ModelEq ModelFilter ModelDB ModelMore
  SpecTerm SpecPhys SpecXsec SpecEq SpecFilter SpecDB SpecMore SpecMean3 SpecMean4
  ProofCollide ProofInelastic ProofTop1 ProofMean4
  Properties1 Properties2 Properties4 Properties5 Properties6 Properties8.
From Coquelicot Require Import Coquelicot.
From Coq Require Import List.
Import ListNotations.
Local Open Scope R_scope.

(** On average an elastic collision moves the energy [exchange] from the first particle
    to the second. *)
Theorem C76_elastic_energy : forall m1 m2 (p1 p2 : rpart), 0 < m1 -> 0 < m2 ->
  let w := fun r r' => after (model_interact true (MElastic (ReducedMass (N:=RNum) m1 m2)) p1 p2 [] (two_draws r r') 0) in
  mean_is (fun r r' => kinetic m1 (fst (w r r'))) (kinetic m1 (p_vel p1) - exchange m1 (p_vel p1) m2 (p_vel p2)) /\
  mean_is (fun r r' => kinetic m2 (snd (w r r'))) (kinetic m2 (p_vel p2) + exchange m1 (p_vel p1) m2 (p_vel p2)).
Proof. exact elastic_energy_mean. Qed.
Print Assumptions C76_elastic_energy.
(** A VSS collision moves 2 al / (1 + al) of it. *)
Theorem C76_vss_energy : forall m1 m2 (al : R) (p1 p2 : rpart), 0 < m1 -> 0 < m2 -> 0 <= al ->
  (let v := relvel p1 p2 in let D := R_sqrt.sqrt (vy v ^ 2 + vz v ^ 2) in 1 / 1000000 < D \/ D = 0) ->
  let w := fun r r' => after (model_interact true (MVSS (ReducedMass (N:=RNum) m1 m2) al) p1 p2 [] (two_draws r r') 0) in
  mean_is (fun r r' => kinetic m1 (fst (w r r'))) (kinetic m1 (p_vel p1) - 2 * al / (1 + al) * exchange m1 (p_vel p1) m2 (p_vel p2)) /\
  mean_is (fun r r' => kinetic m2 (snd (w r r'))) (kinetic m2 (p_vel p2) + 2 * al / (1 + al) * exchange m1 (p_vel p1) m2 (p_vel p2)).
Proof. exact vss_energy_mean. Qed.
Print Assumptions C76_vss_energy.
(** Particles of the same mass leave an elastic collision with the same mean energy. *)
Theorem C76_equal_masses : forall m (p1 p2 : rpart), 0 < m ->
  let w := fun r r' => after (model_interact true (MElastic (ReducedMass (N:=RNum) m m)) p1 p2 [] (two_draws r r') 0) in
  let E := (kinetic m (p_vel p1) + kinetic m (p_vel p2)) / 2 in
  mean_is (fun r r' => kinetic m (fst (w r r'))) E /\ mean_is (fun r r' => kinetic m (snd (w r r'))) E.
Proof.
  intros m p1 p2 H w E. destruct (elastic_energy_mean m m p1 p2 H H) as [A B].
  assert (X : exchange m (p_vel p1) m (p_vel p2) = (kinetic m (p_vel p1) - kinetic m (p_vel p2)) / 2).
  { unfold exchange, cm_velocity, kinetic, norm2. cbn [component]. field. lra. }
  rewrite X in A, B. split.
  - replace E with (kinetic m (p_vel p1) - (kinetic m (p_vel p1) - kinetic m (p_vel p2)) / 2) by (unfold E; field). exact A.
  - replace E with (kinetic m (p_vel p2) + (kinetic m (p_vel p1) - kinetic m (p_vel p2)) / 2) by (unfold E; field). exact B.
Qed.
Print Assumptions C76_equal_masses.
(** A particle that hits one at rest keeps (m1^2 + m2^2) / (m1 + m2)^2 of its energy on average. *)
Theorem C76_target_at_rest : forall m1 m2 (p1 p2 : rpart), 0 < m1 -> 0 < m2 -> p_vel p2 = V3 (N:=RNum) 0 0 0 ->
  let w := fun r r' => after (model_interact true (MElastic (ReducedMass (N:=RNum) m1 m2)) p1 p2 [] (two_draws r r') 0) in
  mean_is (fun r r' => kinetic m1 (fst (w r r'))) ((m1 ^ 2 + m2 ^ 2) / (m1 + m2) ^ 2 * kinetic m1 (p_vel p1)) /\
  mean_is (fun r r' => kinetic m2 (snd (w r r'))) (2 * m1 * m2 / (m1 + m2) ^ 2 * kinetic m1 (p_vel p1)).
Proof.
  intros m1 m2 p1 p2 H1 H2 H0 w. destruct (elastic_energy_mean m1 m2 p1 p2 H1 H2) as [A B].
  assert (X : exchange m1 (p_vel p1) m2 (p_vel p2) = 2 * m1 * m2 / (m1 + m2) ^ 2 * kinetic m1 (p_vel p1)).
  { rewrite H0. unfold exchange, cm_velocity, kinetic, norm2. cbn [component vx vy vz]. field. lra. }
  assert (Y : kinetic m2 (p_vel p2) = 0) by (rewrite H0; unfold kinetic, norm2; cbn [vx vy vz]; ring).
  rewrite X in A, B. rewrite Y, Rplus_0_l in B. split; [|exact B].
  replace ((m1 ^ 2 + m2 ^ 2) / (m1 + m2) ^ 2 * kinetic m1 (p_vel p1))
    with (kinetic m1 (p_vel p1) - 2 * m1 * m2 / (m1 + m2) ^ 2 * kinetic m1 (p_vel p1)) by (field; lra). exact A.
Qed.
Print Assumptions C76_target_at_rest.
(** The two products of a reaction share the available energy in inverse ratio of their
    masses, relative to the centre of mass and whatever the draws are. *)
Theorem C07_C76_shares : forall db spf parse fcm fcq kec thrE (e : eqcore RNum) model mA mB M0 M1 inplace (p1 p2 : rpart) l g k,
  reaction (N:=RNum) (fun m : R => 0 < m) db e mA mB [M0; M1] ->
  hasExpressions (e_products e) = false ->
  inelastic_new_load db spf parse fcm fcq kec thrE e = Ok model ->
  let dE := match kec with Some d => d | None => - thrE end in
  let E := mA * mB / (mA + mB) / 2 * dist2 (p_vel p1) (p_vel p2) + dE in
  rng_ok g -> 0 <= E ->
  exists q1 q2, model_interact inplace model p1 p2 l g k = Ok (p1, p2, l ++ [q1; q2], (k + 2)%nat) /\
    kinetic_from M0 (cm_velocity mA (p_vel p1) mB (p_vel p2)) (p_vel q1) = E * (M1 / (M0 + M1)) /\
    kinetic_from M1 (cm_velocity mA (p_vel p1) mB (p_vel p2)) (p_vel q2) = E * (M0 / (M0 + M1)).
Proof. exact react22_shares. Qed.
Print Assumptions C07_C76_shares.
(** A moving particle of mass 1 hits one of mass 4 at rest and gives it 8/25 of its energy
    on average; the heavier product of 2 + 3 -> 1 + 4 gets a fifth of the available energy. *)
Example C76_energy_case : p_vel exB = V3 (N:=RNum) 0 0 0 /\ kinetic 1 (p_vel exA) = 25 / 2 /\
  exchange 1 (p_vel exA) 4 (p_vel exB) = 4 /\
  reaction (N:=RNum) (fun m : R => 0 < m) exdb exeq 2 3 [1; 4] /\ hasExpressions (e_products exeq) = false /\
  (exists model, inelastic_new_load exdb exspf (fun _ => Ok []) false false (Some 1%R) 0 exeq = Ok model) /\
  rng_ok exG /\ 2 * 3 / (2 + 3) / 2 * dist2 (p_vel exA) (p_vel exB) + 1 = 16 /\
  1 / 1000000 < R_sqrt.sqrt (vy (relvel exA exB) ^ 2 + vz (relvel exA exB) ^ 2).
Proof.
  split; [reflexivity|]. split; [unfold kinetic, norm2; cbn; field|]. split; [unfold exchange, cm_velocity; cbn; field|].
  split; [exact (proj1 C07_case)|]. split; [reflexivity|]. split; [exact (proj2 (proj2 (proj2 C07_case)))|]. split; [exact exG_ok|].
  split; [unfold dist2; cbn; field|exact C05_case].
Qed.
