(** C102: which changes of all particles at once a run of the driver respects. *)
From Coq Require Import Reals Lra Lia String ZArith Bool Arith List.
From Flocq Require Import Core.Core IEEE754.BinarySingleNaN.
From Verif Require Import Base Num ModelTerm ModelCollide ModelFactories ModelXsec ModelSet ModelEq ModelMisc ModelSim SpecTerm SpecPhys SpecXsec SpecSet SpecMisc SpecRun SpecSim SpecFrame
  ProofCollide ProofMisc ProofDriver ProofDriver3 ProofSim ProofFrame ProofFrame2 Properties1 Properties3 Properties9 Properties25 Properties26.
From Coq Require Import List.
Import ListNotations.
Local Open Scope R_scope.

(** C102.  The run of a cell seen from another frame of reference (all velocities changed by [u],
    all positions by [x]) is the run of the cell with the results seen from that frame: the same
    collisions with the same draws, in both modes, whatever the outcome.  Where a product is put at
    the centre of charge of the reactants, only velocities may be changed. *)
Theorem C102_galilean : forall (mass charge : Z -> R) K fuel i dt (c : cell RNum) nprops db res er g k (u x : vec RNum),
  (forall A B, (A <= B)%nat -> List.Forall (gas_channel mass charge (Z.of_nat A) (Z.of_nat B)) (db A B)) ->
  (x = V3 (N:=RNum) 0 0 0 \/ forall A B, (A <= B)%nat -> List.Forall no_charge_centre (db A B)) ->
  driver (N:=RNum) K fuel i dt (changed_cell (moved u x) c) nprops db (map (moved u x) res) er g k =
  result_of (changed_state (moved u x)) (driver (N:=RNum) K fuel i dt c nprops db res er g k).
Proof.
  intros mass charge K fuel i dt c nprops db res er g k u x HG HX.
  assert (C : forall A B, (A <= B)%nat -> List.Forall (commutes (moved u x) (map (moved u x))) (db A B)).
  { intros A B L. specialize (HG A B L). rewrite List.Forall_forall in *. intros q Hq. eapply moved_commutes; [exact (HG q Hq)|].
    destruct HX as [->|HX]; [left; reflexivity|right]. specialize (HX A B L). rewrite List.Forall_forall in HX. exact (HX q Hq). }
  exact (driver_commutes K (moved u x) (map (moved u x)) [] (fun p => eq_refl) (fun p => eq_refl)
    (fun p q => f_equal vabs (vsub_shift (p_vel p) (p_vel q) u)) (fun l y => map_app (moved u x) l y) fuel i dt c nprops db res er g k C).
Qed.
Print Assumptions C102_galilean.

(** C102.  Positions decide nothing, also in binary64: with every particle elsewhere, a run has
    the same collisions and velocities, and every particle has the place of the one it comes from,
    if no product is put between the reactants or modified by 'ops'. *)
Theorem C102_positions : forall {N : Num} (K : N) fuel i dt (c : cell N) nprops db res er g k (h : vec N -> vec N),
  (forall A B, (A <= B)%nat -> List.Forall copies_positions (db A B)) ->
  driver K fuel i dt (changed_cell (placed h) c) nprops db (map (placed h) res) er g k =
  result_of (changed_state (placed h)) (driver K fuel i dt c nprops db res er g k).
Proof.
  intros N K fuel i dt c nprops db res er g k h H.
  assert (C : forall A B, (A <= B)%nat -> List.Forall (commutes (placed h) (map (placed h))) (db A B)).
  { intros A B L. specialize (H A B L). rewrite List.Forall_forall in *. intros q Hq. apply placed_commutes. exact (H q Hq). }
  exact (driver_commutes K (placed h) (map (placed h)) [] (fun p => eq_refl) (fun p => eq_refl) (fun p q => eq_refl) (fun l y => map_app (placed h) l y) fuel i dt c nprops db res er g k C).
Qed.
Print Assumptions C102_positions.

(** C102.  What is already in the two result containers influences nothing, also in binary64: a
    run leaves it in front of what it gives with empty containers. *)
Theorem C102_earlier : forall {N : Num} (K : N) fuel i dt (c : cell N) nprops db res er g k,
  (forall A B, (A <= B)%nat -> List.Forall library_model (db A B)) ->
  driver K fuel i dt c nprops db res er g k = result_of (after_state res er) (driver K fuel i dt c nprops db [] [] g k).
Proof.
  intros N K fuel i dt c nprops db res er g k H.
  assert (C : forall A B, (A <= B)%nat -> List.Forall (commutes (fun p : particle N => p) (fun l => res ++ l)) (db A B)).
  { intros A B L. specialize (H A B L). rewrite List.Forall_forall in *. intros q Hq. apply library_commutes. exact (H q Hq). }
  pose proof (driver_commutes K (fun p : particle N => p) (fun l => res ++ l) er (fun p => eq_refl) (fun p => eq_refl) (fun p q => eq_refl)
    (fun l y => eq_trans (app_assoc res l y) (f_equal (app (res ++ l)) (eq_sym (map_id y)))) fuel i dt c nprops db [] [] g k C) as D.
  unfold changed_cell in D. rewrite map_id, !app_nil_r in D.
  replace (mkCell (c_mem c) (c_ranges c) (c_volume c) (c_maxv c)) with c in D by (destruct c; reflexivity).
  rewrite D. unfold result_of. destruct (driver K fuel i dt c nprops db [] [] g k) as [s| | |]; cbn [obind]; try reflexivity.
  unfold Phi, after_state. now rewrite map_id.
Qed.
Print Assumptions C102_earlier.

(** The elastic run of C101_case and the reaction of C78_case from a frame moving with -(1,2,3). *)
Definition uF : vec RNum := V3 (N:=RNum) 1 2 3.
Definition xF : vec RNum := V3 (N:=RNum) 4 5 6.
Example C102_case : exists fuel s, driver (N:=RNum) 1 fuel false 1 (rcell 20) 2 rdb [] [] exG 0 = Ok s /\ length (s_res s) = 4%nat /\
  driver (N:=RNum) 1 fuel false 1 (mkCell (N:=RNum) [moved uF xF exA; moved uF xF exB] [(0, 1); (1, 2)]%nat 20 (fun _ _ => 5)) 2 rdb [] [] exG 0 =
    Ok (changed_state (moved uF xF) s) /\
  driver (N:=RNum) 1 fuel false 1 (changed_cell (placed (fun _ => xF)) (rcell 20)) 2 rdb [] [] exG 0 = Ok (changed_state (placed (fun _ => xF)) s) /\
  driver (N:=RNum) 1 fuel false 1 (rcell 20) 2 rdb [exB] [7%nat] exG 0 = Ok (after_state [exB] [7%nat] s).
Proof.
  destruct C101_case as (fuel & s & E & _ & L & _). exists fuel, s. split; [exact E|]. split; [exact L|]. split.
  - pose proof (C102_galilean omass (fun _ => 0) 1 fuel false 1 (rcell 20) 2 rdb [] [] exG 0 uF xF (fun A B _ => rdb_gas A B)) as G.
    cbn [map] in G. rewrite E in G. apply G. right. intros A B _. unfold rdb. destruct (_ && _)%bool; repeat constructor.
  - split; [pose proof (C102_positions (N:=RNum) 1 fuel false 1 (rcell 20) 2 rdb [] [] exG 0 (fun _ => xF)) as G; cbn [map] in G; rewrite E in G; apply G;
      intros A B _; unfold rdb; destruct (_ && _)%bool; repeat constructor|].
    rewrite C102_earlier; [now rewrite E|]. intros A B _. unfold rdb. destruct (_ && _)%bool; repeat constructor.
Qed.
Example C102_reaction_case : exists model fuel s, gload = Ok model /\
  driver (N:=RNum) 1 fuel true 1 (rcell 20) 2 (gdb model) [] [] exG 0 = Ok s /\ s_log s = [(0, 1, (0, 1), 0%Z)]%nat /\
  driver (N:=RNum) 1 fuel true 1 (changed_cell (moved uF vzero) (rcell 20)) 2 (gdb model) [] [] exG 0 = Ok (changed_state (moved uF vzero) s).
Proof.
  destruct gmodel as (model & Hm). destruct (grun model Hm) as (fuel & s & Hr & Hl).
  exists model, fuel, s. split; [exact Hm|]. split; [exact Hr|]. split; [exact Hl|].
  pose proof (C102_galilean gmass gcharge 1 fuel true 1 (rcell 20) 2 (gdb model) [] [] exG 0 uF vzero) as G. cbn [map] in G. rewrite Hr in G. apply G; [|now left].
  intros A B _. unfold gdb. destruct (Nat.eqb_spec A 0); [|constructor]. destruct (Nat.eqb_spec B 1); [|constructor]. subst. constructor; [exact (gq_gas model Hm)|constructor].
Qed.

Lemma path_of {A B C D : Type} (o : outcome ((Z * A) * B * C * D * nat)) z :
  match o with Ok y => (fst (fst (fst (fst (fst y)))) =? z)%Z | _ => false end = true -> exists y, o = Ok y /\ fst (fst (fst (fst (fst y)))) = z.
Proof. destruct o as [y| | |]; try discriminate. intros H. exists y. split; [reflexivity|]. now apply Z.eqb_eq. Qed.
(** C102.  In binary64 the frame matters: two particles with velocities 1 and 0 are tested, and
    collide; with 2^53 added to both velocities their relative speed is 0 and they do not. *)
Theorem C102_galilean_double_refuted : exists (a b : particle F) (u : vec F) (q : equation F) (g : rng F) k,
  let there p := setVelocity p (vadd (p_vel p) u) in
  (exists y, set_interact (N:=F) (fofZ 1) false [q] (fofZ 5) a b [] g k = Ok y /\ fst (fst (fst (fst (fst y)))) = 0%Z) /\
  (exists y, set_interact (N:=F) (fofZ 1) false [q] (fofZ 5) (there a) (there b) [] g k = Ok y /\ fst (fst (fst (fst (fst y)))) = (-1)%Z).
Proof.
  exists (fp 0 1 0), (fp 1 0 1), (V3 (N:=F) (fofZ (2 ^ 53)) (fofZ 0) (fofZ 0)),
    (mkEquation feq (XConstant (N:=F) (fofZ 5) (fofZ 0) (fofZ 0)) (MElastic (ReducedMass (N:=F) (fofZ 2) (fofZ 3)))),
    (mkRng (N:=F) (fun _ => fofZ 1) (fun _ => fofZ 0)), 0%nat. cbv zeta.
  split; apply path_of; vm_compute; reflexivity.
Qed.
Print Assumptions C102_galilean_double_refuted.

(** C102.  The maximum relative speed that simtest's cell gives the driver depends on the frame:
    it is at least the speed of every single particle, ... *)
Theorem C102_measured : forall n (ps mem : list (particle RNum)) rs vol p A,
  sortBySpecies n ps = Ok (mem, rs) -> In p ps -> p_species p = Z.of_nat A ->
  rel_speed (p_vel p) (V3 (N:=RNum) 0 0 0) <= c_maxv (sim_cell vol mem rs) A A.
Proof.
  intros n ps mem rs vol p A E Hp TA. destruct (measured_in n ps mem rs p A E Hp TA) as (r & Er & Hin).
  cbn [c_maxv sim_cell]. unfold measured. rewrite Er. set (vs := map _ _) in *.
  assert (Z : cell_extrema (N:=RNum) vs = cell_extrema (N:=RNum) (vzero :: vs)).
  { unfold cell_extrema. cbn [fold_left fst snd]. replace (vmin2 (N:=RNum) vzero vzero) with (@vzero RNum); [replace (vmax2 (N:=RNum) vzero vzero) with (@vzero RNum); [reflexivity|]|];
      unfold vmin2, vmax2, nmin, nmax, vzero; cbn; destruct (Rltb 0 0); reflexivity. }
  rewrite Z. apply cell_same; [right; exact Hin|left; reflexivity].
Qed.
Print Assumptions C102_measured.
(** ... however small all relative speeds are. *)
Theorem C102_measured_refuted : forall V, 0 <= V -> exists (ps mem : list (particle RNum)) rs,
  sortBySpecies 1 ps = Ok (mem, rs) /\ length ps = 2%nat /\
  (forall p q, In p ps -> In q ps -> rel_speed (p_vel p) (p_vel q) = 0) /\
  forall vol, V <= c_maxv (sim_cell vol mem rs) 0 0.
Proof.
  intros V HV. set (p := mkParticle (N:=RNum) (V3 (N:=RNum) 0 0 0) (V3 (N:=RNum) V 0 0) 0 1).
  assert (E : sortBySpecies 1 [p; p] = Ok ([p; p], [(0, 2)]%nat)) by reflexivity.
  exists [p; p], [p; p], [(0, 2)%nat]. split; [exact E|]. split; [reflexivity|]. split.
  - assert (Z : rel_speed (p_vel p) (p_vel p) = 0).
    { unfold rel_speed. cbn. transitivity (sqrt 0); [f_equal; ring|apply sqrt_0]. }
    intros a b [<-|[<-|[]]] [<-|[<-|[]]]; exact Z.
  - intros vol. eapply Rle_trans; [|apply (C102_measured 1 [p; p] [p; p] [(0, 2)%nat] vol p 0 E (or_introl eq_refl) eq_refl)].
    apply Req_le. unfold rel_speed. cbn. transitivity (sqrt (V * V)); [symmetry; now apply sqrt_square|f_equal; ring].
Qed.
Print Assumptions C102_measured_refuted.
