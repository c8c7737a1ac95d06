(** C96 and the energy of every VSS collision (C93). *)
From Coq Require Import Reals Lra Lia ZArith Bool List String Permutation.
From Flocq Require Import Core.Core IEEE754.BinarySingleNaN.
From Verif Require Import Base Num ModelTerm ModelEq ModelCollide ModelXsec ModelSet SpecPhys SpecSet SpecMore SpecRound SpecGas ProofRound15 ProofGas Properties1 Properties3 Properties19 Properties20.
From Coq Require Import List.
Import ListNotations.
Local Open Scope R_scope.

(** C93, no condition on the relative velocity: whatever the direction, a VSS collision in binary64 keeps kinetic energy
    to 2^-41 (plus the error of sin^2+cos^2) of total mass times V^2, and the branch for motion along the x axis
    costs at most 2e-13 per unit of mass. *)
Theorem C93_energy : forall lm kap (al m1 m2 : F64 lm) V, speed_ok V -> mass_ok m1 -> mass_ok m2 -> trig_ok lm kap -> pow_ok lm al ->
  forall (p1 p2 : particle (F64 lm)) l (g : rng (F64 lm)) k, frng_ok g -> within V (p_vel p1) -> within V (p_vel p2) ->
  exists q1 q2, model_interact true (MVSS (ReducedMass m1 m2) al) p1 p2 l g k = Ok (q1, q2, l, (k + 2)%nat) /\
    Rabs (kinetic (real64 m1) (realv (p_vel q1)) + kinetic (real64 m2) (realv (p_vel q2))
          - (kinetic (real64 m1) (realv (p_vel p1)) + kinetic (real64 m2) (realv (p_vel p2))))
      <= (bpow radix2 (-41) + 2 * kap) * ((real64 m1 + real64 m2) * V ^ 2) + (real64 m1 + real64 m2) / 5000000000000.
Proof.
  intros lm kap al m1 m2 V HV M1 M2 TR PO p1 p2 l g k Hg W1 W2. destruct (Properties19.draw_ok g k Hg) as [F0 H0]. destruct (Properties19.draw_ok g (k + 1) Hg) as [F1 H1].
  pose proof (vss_energy lm kap al m1 m2 V p1 p2 _ _ HV M1 M2 TR PO W1 W2 F0 H0 F1 H1) as H. unfold model_interact.
  destruct (vss_collide (ReducedMass m1 m2) al p1 p2 (g_rand g k) (g_rand g (k + 1))) as [q1 q2] eqn:E. exists q1, q2. split; [reflexivity|exact H].
Qed.
Print Assumptions C93_energy.

(** C96.  A gas with elastic (and, if loss >= 2e-13, VSS) collisions only, advanced by any number of in-place calls of
    the driver in binary64, each with its own cell, time step, database and random numbers, and with any transport
    between them that keeps velocities and species.  If its energy lets no particle be faster than V/sqrt 2 and the
    number n of collisions is at most mlo V^2 / (4 dE), then no velocity ever is NaN or infinite, and total energy and
    momentum are those at the start to n times the error of one collision. *)
Theorem C96_gas : forall lm mass loss V kap mlo mhi, speed_ok V -> trig_ok lm kap -> 0 <= loss -> 0 < mlo ->
  (forall s, mass_ok (mass s) /\ mlo <= real64 (mass s) <= mhi) ->
  forall n mem mem', history (lm:=lm) mass loss n mem mem' ->
  let dE := 2 * mhi * ((bpow radix2 (-41) + 2 * kap) * V ^ 2 + loss) in
  List.Forall (fun p => exists W, within W (p_vel p)) mem -> gas_energy mass mem <= mlo * V ^ 2 / 4 -> INR n * dE <= mlo * V ^ 2 / 4 ->
  List.Forall (fun p => within V (p_vel p)) mem' /\
  Rabs (gas_energy mass mem' - gas_energy mass mem) <= INR n * dE /\
  forall i, Rabs (gas_momentum mass i mem' - gas_momentum mass i mem) <= INR n * (bpow radix2 (-45) * mhi * V).
Proof. intros lm mass loss V kap mlo mhi HV TR HL Hlo HM n mem mem' H. exact (gas_history mass loss V kap mlo mhi HV TR HL Hlo HM n mem mem' H). Qed.
Print Assumptions C96_gas.

(** A case: three particles of mass 1 and two of mass 4; 0+0 elastic, 0+1 VSS; two steps, particles reordered in between. *)
Definition gmass (s : Z) : binary64 := if Z.eqb s 0 then fofZ 1 else fofZ 4.
Definition gp (x y z s : Z) : particle (F64 rlm) := mkParticle (N:=F64 rlm) (V3 (N:=F64 rlm) (fofZ 0) (fofZ 0) (fofZ 0)) (V3 (N:=F64 rlm) (fofZ x) (fofZ y) (fofZ z)) s (fofZ 1).
Definition gmem : list (particle (F64 rlm)) := [gp 3 (-2) 4 0; gp 1 1 1 0; gp 0 (-1) 2 0; gp 1 0 (-1) 1; gp (-1) 2 0 1].
Definition gcore : eqcore (F64 rlm) := mkEq (N:=F64 rlm) (mkInput (term_sp 0) (term_sp 1)) [term_sp 0; term_sp 1] (ReducedMass (N:=F64 rlm) (fofZ 1) (fofZ 4)).
Definition gxs : xsec (F64 rlm) := XConstant (N:=F64 rlm) (fofZ 5) (fofZ 0) (fofZ 0).
Definition gdb2 (A B : nat) : list (equation (F64 rlm)) :=
  match A, B with
  | 0%nat, 0%nat => [mkEquation gcore gxs (MElastic (ReducedMass (N:=F64 rlm) (fofZ 1) (fofZ 1)))]
  | 0%nat, 1%nat => [mkEquation gcore gxs (MVSS (ReducedMass (N:=F64 rlm) (fofZ 1) (fofZ 4)) (fofZ 2))]
  | _, _ => []
  end.
Definition gcell mem : cell (F64 rlm) := mkCell (N:=F64 rlm) mem [(0, 3); (3, 5)]%nat (fofZ 8) (fun _ _ => fofZ 5).
Definition gG : rng (F64 rlm) := mkRng (N:=F64 rlm) (fun _ => fhalf) (fun n => if Nat.even n then fbelow1 else fhalf).
Definition grun mem := driver (N:=F64 rlm) (fofZ 1) 20 true (fofZ 1) (gcell mem) 2 gdb2 [] [] gG 0.
Definition gswap (l : list (particle (F64 rlm))) := match l with a :: b :: r => b :: a :: r | _ => l end.
Definition gafter (o : outcome (dstate (F64 rlm))) : list (particle (F64 rlm)) := match o with Ok s => gswap (s_mem s) | _ => [] end.
Definition ghits (o : outcome (dstate (F64 rlm))) : nat := match o with Ok s => collisions (s_log s) | _ => 0 end.
Lemma gsw_carried l : carried l (gswap l).
Proof. destruct l as [|a [|b r]]; try apply Permutation_refl. apply perm_swap. Qed.
Lemma gmass_ok s : mass_ok (gmass s) /\ 1 <= real64 (gmass s) <= 4.
Proof. unfold gmass. destruct (Z.eqb s 0); (split; [apply r_mass; lia|]; rewrite fofZ_val by (cbn; lia); lra). Qed.
Lemma gG_ok : frng_ok gG.
Proof. intros n. unfold gG. cbn [g_rand g_exc]. destruct (Nat.even n); (split; [|split; [|split]]); vm_compute; reflexivity. Qed.
Lemma gdb2_plain : plain_gas gmass (1 / 5000000000000) gdb2.
Proof.
  intros A B _. destruct A as [|A], B as [|[|B]]; cbn [gdb2]; try apply List.Forall_nil; (apply List.Forall_cons; [|apply List.Forall_nil]).
  - left. reflexivity.
  - right. split; [lra|]. exists (fofZ 2). split; [exact r_pow|reflexivity].
Qed.
Lemma gsorted mem : map (fun p => p_species p) mem = [0; 0; 0; 1; 1]%Z -> sorted_cell (gcell mem).
Proof.
  intros E A r i HA Hi. cbn [gcell c_ranges c_mem] in *. 
  assert (Q : nth_error (map (fun p => p_species p) mem) i = Some (Z.of_nat A)).
  { rewrite E. destruct A as [|[|A]]; cbn [nth_error] in HA; [| |destruct A; discriminate]; injection HA as <-; unfold in_range in Hi; cbn [fst snd] in Hi.
    - destruct i as [|[|[|i]]]; [reflexivity| | |lia]; reflexivity.
    - destruct i as [|[|[|[|[|i]]]]]; try lia; reflexivity. }
  rewrite nth_error_map in Q. destruct (nth_error mem i) as [p|]; [|discriminate]. exists p. split; [reflexivity|]. cbn [option_map] in Q. congruence.
Qed.
Lemma gstep n m0 mem : history gmass (1 / 5000000000000) n m0 mem -> map (fun p => p_species p) mem = [0; 0; 0; 1; 1]%Z -> loads (grun mem) = true ->
  history gmass (1 / 5000000000000) (n + ghits (grun mem)) m0 (gafter (grun mem)).
Proof.
  intros H E L. destruct (loads_ok _ L) as [st Hst]. rewrite Hst. cbn [ghits gafter].
  eapply (history_step gmass (1 / 5000000000000) n m0 _ _ _ (gcell mem)); [exact H|exact gdb2_plain|exact (gsorted mem E)| |exact gG_ok|exact Hst|apply gsw_carried].
  repeat constructor; unfold rsize; cbn; lia.
Qed.
Definition glast := gafter (grun (gafter (grun gmem))).
Definition gcount := (ghits (grun gmem) + ghits (grun (gafter (grun gmem))))%nat.
Example C96_case : (10 <= gcount <= 1000)%nat /\ history gmass (1 / 5000000000000) gcount gmem glast /\
  Rabs (gas_energy gmass glast - gas_energy gmass gmem) <= 1 / 100000.
Proof.
  assert (G : (10 <= gcount <= 1000)%nat) by (split; apply Nat.leb_le; vm_compute; reflexivity).
  assert (H : history gmass (1 / 5000000000000) gcount gmem glast).
  { assert (H0 : history gmass (1 / 5000000000000) 0 gmem gmem) by (apply history_nil; apply Permutation_refl).
    pose proof (gstep 0 gmem gmem H0 ltac:(vm_compute; reflexivity) ltac:(vm_compute; reflexivity)) as H1. rewrite Nat.add_0_l in H1.
    exact (gstep _ gmem _ H1 ltac:(vm_compute; reflexivity) ltac:(vm_compute; reflexivity)). }
  split; [exact G|]. split; [exact H|].
  assert (S16 : speed_ok 16). { split; [apply Rle_trans with (bpow radix2 4); [apply bpow_le; lia|cbn; lra]|apply Rle_trans with (bpow radix2 4); [cbn; lra|apply bpow_le; lia]]. }
  assert (B : bpow radix2 (-41) <= 1 / 1000000000000). { change (bpow radix2 (-41)) with (/ IZR (Z.pow_pos 2 41)). replace (Z.pow_pos 2 41) with 2199023255552%Z by reflexivity. apply Rle_trans with (/ 2000000000000); [apply Rinv_le; lra|lra]. }
  pose proof (bpow_gt_0 radix2 (-41)).
  assert (N : INR gcount <= 1000). { destruct G as [_ G]. apply le_INR in G. rewrite INR_IZR_INZ in *. rewrite (INR_IZR_INZ 1000) in G. exact G. } pose proof (pos_INR gcount).
  assert (L : INR gcount * (2 * 4 * ((bpow radix2 (-41) + 2 * 0) * 16 ^ 2 + 1 / 5000000000000)) <= 1 / 100000).
  { apply Rle_trans with (1000 * (2 * 4 * ((1 / 1000000000000 + 2 * 0) * 16 ^ 2 + 1 / 5000000000000))); [|lra]. apply Rmult_le_compat; lra. }
  refine (Rle_trans _ _ _ (proj1 (proj2 (C96_gas rlm gmass (1 / 5000000000000) 16 0 1 4 S16 r_trig ltac:(lra) ltac:(lra) gmass_ok gcount gmem glast H _ _ _))) L).
  - repeat (apply List.Forall_cons; [exists 4; (split; [|split]); cbn [p_vel gp vx vy vz]; (split; [apply fofZ_fin; cbn; lia|rewrite fofZ_val by (cbn; lia); apply Rabs_le; lra])|]). apply List.Forall_nil.
  - unfold gas_energy, gmem, kinetic, norm2, realv, gmass. cbn [map Rsum p_vel gp p_species vx vy vz Z.eqb]. rewrite !fofZ_val by (cbn; lia). lra.
  - lra.
Qed.
