(** Properties C82-C84: documents with units. *)
From Coq Require Import String List ZArith Reals Lra Bool.
From Flocq Require Import IEEE754.BinarySingleNaN.
From Verif Require Import Base Num ModelTerm ModelCollide ModelXsec ModelEq ModelMisc ModelUnits SpecUnits ProofInelastic ProofF64 ProofUnits Properties4.
From Coq Require Import List.
Import ListNotations.
Local Open Scope string_scope.
Local Open Scope list_scope.

(** ** C82: what is read from an element *)
Theorem C82_exact : forall (N : Num) tgamma (m_e : N) l (x : xs_xml N) d,
  parse_xs tgamma m_e l x = Ok d <-> says tgamma m_e x l d.
Proof. intros. apply parse_exact. Qed.
Print Assumptions C82_exact.
Theorem C82_otherwise : forall (N : Num) tgamma (m_e : N) l (x : xs_xml N),
  (forall d, ~ says tgamma m_e x l d) -> exists e, parse_xs tgamma m_e l x = Throw e.
Proof.
  intros N tg m_e l x H. destruct (parse_defined tg m_e l x) as [U D]. destruct (parse_xs tg m_e l x) as [d|e| |] eqn:E; try contradiction.
  - exfalso. apply (H d). now apply parse_exact.
  - now exists e.
Qed.
Print Assumptions C82_otherwise.
(** The element read under a label is the one the registry then builds. *)
Theorem C82_registry : forall (N : Num) fuel allowed (inf ninf : N) tol solve spf parse fcm fcq (x : xinter N) e l d,
  xi_cs x = Some (Some l, d) ->
  let reg := default_reg fuel allowed inf ninf tol solve spf parse fcm fcq in
  (l = kind_label d -> load_cs reg x e = xs_load fuel allowed inf ninf tol solve (e_mu e) d) /\
  (known_label l -> l <> kind_label d -> load_cs reg x e = Throw ExnNotFound) /\
  (~ known_label l -> load_cs reg x e = Throw ExnXml).
Proof. intros. now apply registry_cs. Qed.
Print Assumptions C82_registry.
Theorem C82_built : forall (N : Num) tgamma (m_e : N) el fuel allowed (inf ninf : N) tol solve spf parse fcm fcq (x : xinter N) e l d,
  says tgamma m_e el l d -> xi_cs x = Some (Some l, d) ->
  load_cs (default_reg fuel allowed inf ninf tol solve spf parse fcm fcq) x e = xs_load fuel allowed inf ninf tol solve (e_mu e) d.
Proof. intros N tg m_e el fuel allowed inf ninf tol solve spf parse fcm fcq x e l d S E. apply (registry_cs fuel allowed inf ninf tol solve spf parse fcm fcq x e l d E). now apply (says_kind tg m_e el). Qed.
Print Assumptions C82_built.
(** Children under other names are ignored: a misspelt threshold is no threshold. *)
Theorem C82_ignored : forall (N : Num) tgamma (m_e : N) l (x y : xs_xml N),
  (forall n, In n ["value"; "value_vref"; "A"; "B"; "T_ref"; "visc_T_law"; "threshold"] -> xx_kids x n = xx_kids y n) ->
  xx_rows x = xx_rows y -> xx_shells x = xx_shells y ->
  parse_xs tgamma m_e l x = parse_xs tgamma m_e l y.
Proof.
  intros N tg m_e l x y K R S. unfold parse_xs, parse_vhs, parse_log, parse_data, parse_lotz, parse_inverse, parse_constant, read_threshold, query.
  rewrite R, S, !K by (cbn; tauto). reflexivity.
Qed.
Print Assumptions C82_ignored.
Theorem C82_energy_change : forall (N : Num) (k : kids N) r, read_kec k = Ok r <->
  match r with Some e => child k "KineticEnergyChange" energy e | None => k "KineticEnergyChange" = None end.
Proof. intros. apply kec_ok. Qed.
Print Assumptions C82_energy_change.
Theorem C82_vss : forall (N : Num) (k : kids N) a, read_vss k = Ok a <-> child k "vss_param_inv" dimensionless a.
Proof. intros. apply query_ok. Qed.
Print Assumptions C82_vss.
Theorem C82_particle : forall (N : Num) name (k : kids N) p, read_particle name k = Ok p <-> particle_says name k p.
Proof. intros. apply particle_ok. Qed.
Print Assumptions C82_particle.

Definition vhs_el : xs_xml RNum := mkXX (N:=RNum) (fun n =>
  if n =? "value" then Some (mkQty (N:=RNum) 5%R u_m2) else if n =? "T_ref" then Some (mkQty (N:=RNum) 300%R u_K)
  else if n =? "visc_T_law" then Some (mkQty (N:=RNum) (3 / 4)%R u_none) else if n =? "threshold" then Some (mkQty (N:=RNum) 2%R u_m_s) else None) [] [].
Definition vhs_bad : xs_xml RNum := mkXX (N:=RNum) (fun n => if n =? "threshold" then Some (mkQty (N:=RNum) 2%R u_m2) else xx_kids vhs_el n) [] [].
Example C82_case : forall tg m_e,
  says tg m_e vhs_el "vhs" (DVHS (mkVHS (N:=RNum) 5%R 300%R (3 / 4)%R (1 / tg (5 / 2 - 3 / 4))%R) (Some (QVelocity (N:=RNum) 2%R))) /\
  (forall d, ~ says tg m_e vhs_bad "vhs" d) /\ (forall d, ~ says tg m_e vhs_el "VHS" d).
Proof.
  intros tg m_e. split; [|split].
  - constructor; reflexivity.
  - intros d H. inversion H. destruct t as [[]|]; discriminate.
  - intros d H. inversion H.
Qed.
Example C82_other_cases :
  read_kec (N:=RNum) (fun n => if n =? "KineticEnergyChange" then Some (mkQty (N:=RNum) 3%R u_J) else None) = Ok (Some 3%R) /\
  read_kec (N:=RNum) (fun n => if n =? "KineticEnergyChange" then Some (mkQty (N:=RNum) 3%R u_K) else None) = Throw ExnRuntime /\
  read_particle (N:=RNum) (Some "87Rb") (fun n => if n =? "mass" then Some (mkQty (N:=RNum) 87%R u_kg) else None) = Ok (mkProp (N:=RNum) "87Rb" 87%R 0%R) /\
  read_particle (N:=RNum) (Some "87Rb") (fun n => if n =? "mass" then Some (mkQty (N:=RNum) 87%R u_J) else None) = Throw ExnRuntime /\
  read_particle (N:=RNum) None (fun n => if n =? "mass" then Some (mkQty (N:=RNum) 87%R u_kg) else None) = Throw ExnNotFound.
Proof. repeat split. Qed.

(** ** C83: energies and velocities are interchangeable *)
Theorem C83_same : forall (mu : reducedMass RNum) fuel allowed inf ninf tol solve d d',
  (0 < rm_value mu)%R -> same_doc mu d d' ->
  xs_load (N:=RNum) fuel allowed inf ninf tol solve mu d = xs_load fuel allowed inf ninf tol solve mu d'.
Proof. intros. now apply same_load. Qed.
Print Assumptions C83_same.
Theorem C83_documents : forall tgamma m_e (mu : reducedMass RNum) fuel allowed inf ninf tol solve x x' l l' d d',
  (0 < rm_value mu)%R -> parse_xs (N:=RNum) tgamma m_e l x = Ok d -> parse_xs tgamma m_e l' x' = Ok d' -> same_doc mu d d' ->
  l = l' /\ xs_load (N:=RNum) fuel allowed inf ninf tol solve mu d = xs_load fuel allowed inf ninf tol solve mu d'.
Proof.
  intros tg m_e mu fuel allowed inf ninf tol solve x x' l l' d d' Hmu H H' S. split.
  - apply parse_exact in H, H'. rewrite (says_kind _ _ _ _ _ H), (says_kind _ _ _ _ _ H'). destruct S; reflexivity.
  - now apply same_load.
Qed.
Print Assumptions C83_documents.
Definition mu83 : reducedMass RNum := mkRM (N:=RNum) 2%R (1 / 2)%R (1 / 2)%R.
Example C83_case : (0 < rm_value mu83)%R /\
  same_doc mu83 (DData (N:=RNum) [(QVelocity (N:=RNum) 3%R, 10%R); (QEnergy (N:=RNum) 16%R, 4%R)]) (DData (N:=RNum) [(QEnergy (N:=RNum) 9%R, 10%R); (QVelocity (N:=RNum) 4%R, 4%R)]) /\
  same_doc mu83 (DConstant (N:=RNum) 5%R (Some (QVelocity (N:=RNum) (-2)%R))) (DConstant (N:=RNum) 5%R (Some (QEnergy (N:=RNum) 4%R))).
Proof.
  split; [cbn; lra|]. split.
  - constructor. repeat constructor; cbn; unfold collision_energy; cbn; lra.
  - constructor. cbn. unfold collision_energy. cbn. lra.
Qed.

(** ** C84: data that is accepted but useless, binary64 *)
Theorem C84_negative_energy : forall lm (K_B : F64 lm) fuel allowed (inf ninf : F64 lm) tol solve (mu : reducedMass (F64 lm)) (e s : F64 lm) rows,
  Bltb (fdiv e (fmul (@nhalf (F64 lm)) (rm_value mu))) (fofZ 0) = true ->
  let load := xs_load (N:=F64 lm) fuel allowed inf ninf tol solve mu (DData ((QEnergy (N:=F64 lm) e, s) :: rows)) in
  (Beqb s (fofZ 0) = true -> load = UB) /\
  (Beqb s (fofZ 0) = false -> exists c, load = Ok c /\
    (forall v, sigma (N:=F64 lm) K_B c v = Ok (fofZ 0)) /\ (forall V, findMaxSigmaV (N:=F64 lm) K_B c V = Ok (fofZ 0, fofZ 0)) /\
    getThresholdEnergy c = Ok fnan).
Proof. intros. now apply negative_row. Qed.
Print Assumptions C84_negative_energy.
Theorem C84_massless : forall lm n1 n2 (k1 k2 : kids (F64 lm)) s1 s2 (a b : particle (F64 lm)) r r' alpha,
  k1 "mass" = None -> k2 "mass" = None ->
  read_particle n1 k1 = Ok s1 -> read_particle n2 k2 = Ok s2 ->
  let mu := ReducedMass (pr_mass s1) (pr_mass s2) in
  elastic_collide mu a b r r' = (setVelocity a (vnan lm), setVelocity b (vnan lm)) /\
  vss_collide mu alpha a b r r' = (setVelocity a (vnan lm), setVelocity b (vnan lm)).
Proof.
  intros lm n1 n2 k1 k2 s1 s2 a b r r' alpha K1 K2 H1 H2 mu. apply particle_ok in H1, H2.
  assert (M1 : pr_mass s1 = n0) by (destruct H1 as (_ & [M|[_ M]] & _); [unfold child in M; congruence|exact M]).
  assert (M2 : pr_mass s2 = n0) by (destruct H2 as (_ & [M|[_ M]] & _); [unfold child in M; congruence|exact M]).
  subst mu. rewrite M1, M2. unfold elastic_collide, vss_collide. cbv zeta.
  split; f_equal; f_equal; apply massless.
Qed.
Print Assumptions C84_massless.
Definition neg84 : F64 lm0 := fofZ (-3).
Definition mu84 : reducedMass (F64 lm0) := ReducedMass (N:=F64 lm0) (fofZ 2) (fofZ 2).
Example C84_case : Bltb (fdiv neg84 (fmul (@nhalf (F64 lm0)) (rm_value mu84))) (fofZ 0) = true /\ Beqb (fofZ 7) (fofZ 0) = false.
Proof. split; vm_compute; reflexivity. Qed.
Example C84_massless_case : exists s1 s2 : prop (F64 lm0),
  read_particle (N:=F64 lm0) (Some "a") (fun _ => None) = Ok s1 /\
  read_particle (N:=F64 lm0) (Some "b") (fun n => if n =? "charge" then Some (mkQty (N:=F64 lm0) (fofZ 1) u_C) else None) = Ok s2.
Proof. eexists. eexists. split; reflexivity. Qed.
