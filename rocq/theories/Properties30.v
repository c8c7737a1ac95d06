(** C104: velocities that are not numbers. *)
From Coq Require Import Reals Lia ZArith Bool List String.
From Flocq Require Import Core.Core IEEE754.BinarySingleNaN.
From Verif Require Import Base Num ModelTerm ModelEq ModelCollide ModelXsec ModelSet SpecPhys SpecSet SpecNan ProofSelect ProofNan
  Properties1 Properties3 Properties19 Properties20 Properties22.
From Coq Require Import List.
Import ListNotations.

(** C104.  A particle with a NaN in its velocity passes the acceptance test whatever the
    draw, but no channel is then found: the call comes back from the "better never get
    here" return of calculateOutPath, with everything as it was and two draws used. *)
Theorem C104_C34_inert : forall lm (K : F64 lm) inplace rhs max (pA pB : particle (F64 lm)) l g k path a b l' k',
  List.Forall (fun e => quiet (lm:=lm) (q_cs e)) rhs ->
  some_component nan (p_vel pA) \/ some_component nan (p_vel pB) ->
  set_interact (N:=F64 lm) K inplace rhs max pA pB l g k = Ok (path, a, b, l', k') ->
  fst path = (-1)%Z /\ a = pA /\ b = pB /\ l' = l /\ k' = (k + 2)%nat.
Proof. exact @inert. Qed.
Print Assumptions C104_C34_inert.
(** So in a run without reactions, or one with interactions out of place, such a particle
    stays where it is for good and takes part in no collision. *)
Theorem C104_run : forall lm (K : F64 lm) fuel inplace dt (c : cell (F64 lm)) nprops db res er g k s,
  (forall A B, List.Forall (fun e => quiet (lm:=lm) (q_cs e)) (db A B)) ->
  (inplace = true -> forall A B, List.Forall (fun e => bouncing (lm:=lm) (q_model e)) (db A B)) ->
  driver K fuel inplace dt c nprops db res er g k = Ok s ->
  forall i p, nth_error (c_mem c) i = Some p -> some_component nan (p_vel p) ->
  nth_error (s_mem s) i = Some p /\ ~ collides_in (s_log s) i.
Proof. exact @driver_kept. Qed.
Print Assumptions C104_run.
(** Where the total cross section at such a speed is an ordinary number, the partners
    collide whatever the draws, and all that leaves has a velocity that is not finite. *)
Theorem C104_collides : forall lm (K : F64 lm) inplace rhs max (pA pB : particle (F64 lm)) l g k path a b l' k' cs, frng_ok g ->
  some_component not_finite (p_vel pA) \/ some_component not_finite (p_vel pB) ->
  List.Forall (fun e => without_ops (lm:=lm) (q_model e)) rhs ->
  channel_cs K rhs (vabs (N:=F64 lm) (vsub (p_vel pA) (p_vel pB))) = Ok cs ->
  is_finite (cs_total cs) = true -> Bltb fmin_normal (cs_total cs) = true ->
  set_interact (N:=F64 lm) K inplace rhs max pA pB l g k = Ok (path, a, b, l', k') ->
  (0 <= fst path)%Z /\ exists new, l' = l ++ new /\
    List.Forall (fun p => some_component not_finite (p_vel p)) new /\
    (new = [] -> some_component not_finite (p_vel a) /\ some_component not_finite (p_vel b)).
Proof. exact @collides. Qed.
Print Assumptions C104_collides.
(** A NaN stays a NaN: in place both partners of an elastic or VSS collision get one, out
    of place both copies, and all products of a reaction. *)
Theorem C104_spread : forall lm inplace (m : imodel (F64 lm)) p1 p2 l g k a b l' k', without_ops (lm:=lm) m ->
  some_component nan (p_vel p1) \/ some_component nan (p_vel p2) ->
  model_interact inplace m p1 p2 l g k = Ok (a, b, l', k') ->
  exists new, l' = l ++ new /\ List.Forall (fun p => some_component nan (p_vel p)) new /\
    (bouncing (lm:=lm) m -> inplace = true -> new = [] /\ some_component nan (p_vel a) /\ some_component nan (p_vel b)) /\
    (bouncing (lm:=lm) m -> inplace = false -> length new = 2%nat) /\ (bouncing (lm:=lm) m \/ (2 <= length new)%nat).
Proof. intros lm. exact (spread nan absorbing_nan). Qed.
Print Assumptions C104_spread.

(** The gas of C96 with a NaN in the velocity of its second particle: ten or more
    tests are with this particle, none of them collides; ten or more others do. *)
Definition nanp : particle (F64 rlm) := mkParticle (N:=F64 rlm) (V3 (N:=F64 rlm) (fofZ 0) (fofZ 0) (fofZ 0)) (V3 (N:=F64 rlm) (B754_nan : binary64) (fofZ 1) (fofZ 1)) 0%Z (fofZ 1).
Definition nanmem : list (particle (F64 rlm)) := match gmem with a :: _ :: r => a :: nanp :: r | l => l end.
Definition with_nan (e : nat * nat * (nat * nat) * Z) : bool := let '(_, _, (i, j), _) := e in (Nat.eqb i 1 || Nat.eqb j 1)%bool.
Definition nlog (o : outcome (dstate (F64 rlm))) := match o with Ok s => s_log s | _ => [] end.
Example C104_run_case : (forall A B, List.Forall (fun e => quiet (lm:=rlm) (q_cs e)) (gdb2 A B)) /\
  (forall A B, List.Forall (fun e => bouncing (lm:=rlm) (q_model e)) (gdb2 A B)) /\
  loads (grun nanmem) = true /\ nth_error (c_mem (gcell nanmem)) 1 = Some nanp /\ some_component (lm:=rlm) nan (p_vel nanp) /\
  (10 <= length (filter with_nan (nlog (grun nanmem))))%nat /\
  (10 <= length (filter (fun e => (0 <=? snd e)%Z) (nlog (grun nanmem))))%nat.
Proof.
  split; [intros [|A] [|[|B]]; repeat constructor|]. split; [intros [|A] [|[|B]]; repeat constructor|].
  split; [vm_compute; reflexivity|]. split; [reflexivity|]. split; [left; reflexivity|]. split; apply Nat.leb_le; vm_compute; reflexivity.
Qed.
(** Hard spheres as VHS with viscosity exponent 1/2 and a pow with pow(x, 0) = 1 as the C
    standard asks: any test with a NaN is a collision and gives both partners NaNs. *)
Definition hlm : libm := mkLibm (fun x => x) (fun x => x) (fun x => x) (fun x y => if Beqb y (fofZ 0) then fofZ 1 else x) (fun _ => fofZ 0) (fun _ => fofZ 1) (fofZ 3) (fofZ 2).
Definition hp (x : binary64) : particle (F64 hlm) := mkParticle (N:=F64 hlm) (V3 (N:=F64 hlm) (fofZ 0) (fofZ 0) (fofZ 0)) (V3 (N:=F64 hlm) x (fofZ 1) (fofZ 1)) 0%Z (fofZ 1).
Definition hmu : reducedMass (F64 hlm) := ReducedMass (N:=F64 hlm) (fofZ 1) (fofZ 1).
Definition heq : equation (F64 hlm) :=
  mkEquation (mkEq (N:=F64 hlm) (mkInput (term_sp 0) (term_sp 0)) [term_sn 0 2] hmu)
    (XVHS (N:=F64 hlm) (mkVHS (N:=F64 hlm) (fofZ 5) (fofZ 300) (fdiv (fofZ 1) (fofZ 2)) (fofZ 1)) hmu (fofZ 0) (fofZ 0)) (MElastic hmu).
Definition hG : rng (F64 hlm) := mkRng (N:=F64 hlm) (fun _ => fofZ 1) (fun _ => fhalf).
Definition hout := set_interact (N:=F64 hlm) (fofZ 1) true [heq] (fofZ 10) (hp B754_nan) (hp (fofZ 3)) [] hG 0.
Definition hcs := channel_cs (fofZ 1 : F64 hlm) [heq] (vabs (N:=F64 hlm) (vsub (p_vel (hp B754_nan)) (p_vel (hp (fofZ 3))))).
Definition hcs_ok (o : outcome (list (F64 hlm))) : bool :=
  match o with Ok cs => (is_finite (cs_total cs) && Bltb fmin_normal (cs_total cs))%bool | _ => false end.
Definition hout_ok (o : outcome ((Z * F64 hlm) * particle (F64 hlm) * particle (F64 hlm) * list (particle (F64 hlm)) * nat)) : bool :=
  match o with Ok (path, a, b, _, _) => (Z.eqb (fst path) 0 && is_nan (vx (p_vel a)) && is_nan (vx (p_vel b)))%bool | _ => false end.
Example C104_collides_case : frng_ok hG /\ ~ quiet (lm:=hlm) (q_cs heq) /\
  (exists cs, hcs = Ok cs /\ is_finite (cs_total cs) = true /\ Bltb fmin_normal (cs_total cs) = true) /\
  hout_ok hout = true.
Proof.
  split; [intros n; cbn [hG g_rand g_exc]; (split; [|split; [|split]]); vm_compute; reflexivity|].
  split; [intros Q; specialize (Q B754_nan eq_refl); vm_compute in Q; discriminate|].
  split; [|vm_compute; reflexivity].
  assert (H : hcs_ok hcs = true) by (vm_compute; reflexivity).
  generalize dependent hcs. intros [cs| | |] H; try discriminate H. cbn [hcs_ok] in H. apply andb_prop in H as [H1 H2].
  exists cs. split; [reflexivity|]. split; assumption.
Qed.
