(** 'ops' expressions of reaction products (C79, C80). *)
From Coq Require Import Reals Lra Lia ZArith Bool String List.
From Flocq Require Import Core.Core IEEE754.BinarySingleNaN.
From Verif Require Import Base Num ModelTerm ModelCollide ModelOps ModelFactories SpecTerm SpecPhys SpecFactories SpecOps
  ProofF64 ProofCollide ProofInelastic ProofFactories ProofReact ProofOps ProofOps2 ProofFloat Properties1.
From Coq Require Import List.
Import ListNotations.
Local Open Scope R_scope.
Local Open Scope list_scope.

(** C79.  A loaded reaction with 2 or 3 products and any 'ops': dropping the 'ops' from the
    equation still loads.  Each collision makes the same products as the reaction without
    'ops' and then applies to each product its own expressions, in the order written; they
    read the two reactants as they were, the centre of mass (charge) if some expression or
    some product's origin asks for it, and zero for it otherwise.  If an expression throws,
    the collision throws. *)
Theorem C79_products : forall lm db parse fcm fcq kec thrE (e : eqcore (F64 lm)) model,
  inelastic_new_load db (setParticleFactories (N:=F64 lm) finf) parse fcm fcq kec thrE e = Ok model ->
  numberProducts e = 2%Z \/ numberProducts e = 3%Z ->
  exists model0 ess mA mB qA qB pls,
    inelastic_new_load db (setParticleFactories (N:=F64 lm) finf) parse false false kec thrE (without_ops e) = Ok model0 /\
    omap (fun s => if String.eqb s "" then Ok [] else parse s) (ops_texts (e_products e)) = Ok ess /\
    db (t_species (e_A e)) = Ok (mA, qA) /\ db (t_species (e_B e)) = Ok (mB, qB) /\
    Forall2 (fun fr pl => (0 <= fr)%Z -> place_index pl = fr)
       (concat (map (fun t => firstn (Z.to_nat (t_n t)) (t_from t)) (e_products e))) pls /\
    forall inplace p1 p2 l g k, exists qs k' sc,
      s_cm sc = (if fcm || existsb (fun p => (place_index p =? 2)%Z) pls then centre_of (e_mu e) p1 p2 else V3 (N:=F64 lm) (fofZ 0) (fofZ 0) (fofZ 0)) /\
      s_cq sc = (if fcq || existsb (fun p => (place_index p =? 3)%Z) pls then centre_of (ReducedMass qA qB) p1 p2 else V3 (N:=F64 lm) (fofZ 0) (fofZ 0) (fofZ 0)) /\
      length qs = length ess /\
      map p_species qs = expand_species (e_products e) /\
      Forall2 (starts_at (e_mu e) (ReducedMass qA qB) p1 p2) pls qs /\
      model_interact inplace model0 p1 p2 l g k = Ok (p1, p2, l ++ qs, k') /\
      model_interact inplace model p1 p2 l g k =
        match each p1 p2 sc ess qs with
        | Ok rs => Ok (p1, p2, l ++ rs, k')
        | Throw x => Throw x | UB => UB | Diverge => Diverge
        end.
Proof. exact (fun lm => ops_places (N:=F64 lm) finf fltb_irrefl fltb_trans). Qed.
Print Assumptions C79_products.

(** A reaction whose first product takes the second reactant's x velocity and whose second
    product is moved to the centre of mass with the first reactant's weight. *)
Definition q0 (z : Z) : qexp F := QNum (N:=F) (fofZ z).
Definition qtoint (x : F) : outcome Z :=
  match find (fun z => Beqb x (fofZ z)) [0; 1; 2; 3; 4; 5; 6; 7]%Z with Some z => Ok z | None => UB end.
Definition qcharge (s : Z) : outcome F := do (_, q) <- fdb s; Ok q.
Definition qtree1 : list (qexp F) := [QSetVelocity (N:=F) [QP (N:=F) (q0 1) (q0 3); q0 0; q0 0]].
Definition qtree2 : list (qexp F) :=
  [QSetPosition (N:=F) [QCM (N:=F) (q0 0); QCM (N:=F) (q0 1); QCM (N:=F) (q0 2)]; QSetWeight (N:=F) (QP (N:=F) (q0 0) (q0 6))].
Definition qparse (s : string) : outcome (list (qexp F)) :=
  if String.eqb s "setVelocity(P(1,VX),0,0)" then Ok qtree1
  else if String.eqb s "setPosition(CM(0),CM(1),CM(2)); setWeight(P(0,WEIGHT))" then Ok qtree2
  else Throw ExnRuntime.
Definition qeq : eqcore F :=
  mkEq (mkInput (term_sp 0) (term_sp 1))
    [mkTerm 2 1 [0%Z] ["setVelocity(P(1,VX),0,0)"%string];
     mkTerm 3 1 [1%Z] ["setPosition(CM(0),CM(1),CM(2)); setWeight(P(0,WEIGHT))"%string]] (ReducedMass (N:=F) (fofZ 2) (fofZ 3)).
Definition qload (fcm : bool) : outcome (imodel F) :=
  inelastic_new_load fdb (setParticleFactories (N:=F) finf) (parse_ops (N:=F) qtoint qcharge qparse) fcm false None (fofZ 5) qeq.
Definition qpart (x v s w : Z) : particle F :=
  mkParticle (N:=F) (V3 (N:=F) (fofZ x) (fofZ 0) (fofZ 0)) (V3 (N:=F) (fofZ v) (fofZ 0) (fofZ 0)) s (fofZ w).
Definition qgen : rng F := mkRng (N:=F) (fun _ => fofZ 0) (fun _ => fofZ 0).
(** x velocity, x position and weight of the two products, tested against integers. *)
Definition qcheck (fcm : bool) (v1 x1 w1 x2 w2 : Z) : bool :=
  match qload fcm with
  | Ok m => match model_interact (N:=F) false m (qpart 5 7 0 2) (qpart 0 9 1 4) [] qgen 0 with
      | Ok (_, _, [a; b], _) =>
          Beqb (vx (p_vel a)) (fofZ v1) && Beqb (vx (p_pos a)) (fofZ x1) && Beqb (p_weight a) (fofZ w1) &&
          Beqb (vx (p_pos b)) (fofZ x2) && Beqb (p_weight b) (fofZ w2)
      | _ => false end
  | _ => false end.
(** With the centre asked for, the second product lands on it (2*5/5 = 2); without, on 0. *)
Example C79_case : loads (qload true) = true /\ numberProducts qeq = 2%Z /\
  qcheck true 9 5 2 2 2 = true /\ qcheck false 9 5 2 0 2 = true.
Proof. split; [|split; [|split]]; vm_compute; reflexivity. Qed.

(** C80.  Whatever an expression computes, it leaves the product's species alone, and its
    velocity, position and weight unless it calls the corresponding setter. *)
Theorem C80_frame : forall (N : Num) toint charge (p0 p1 : particle N) sc e t x t',
  eval toint charge p0 p1 sc e t = Ok (x, t') ->
  p_species t' = p_species t /\
  (calls is_setVelocity e = false -> p_vel t' = p_vel t) /\
  (calls is_setPosition e = false -> p_pos t' = p_pos t) /\
  (calls is_setWeight e = false -> p_weight t' = p_weight t).
Proof. exact @ev_frame. Qed.
Print Assumptions C80_frame.
Example C80_frame_case :
  loads (eval (N:=F) qtoint qcharge (qpart 5 7 0 2) (qpart 0 9 1 4) (mkScratch (N:=F) vzero vzero) (QSetWeight (N:=F) (QP (N:=F) (q0 0) (q0 6))) (qpart 1 1 3 1)) = true /\
  calls is_setVelocity (QSetWeight (N:=F) (QP (N:=F) (q0 0) (q0 6))) = false /\
  calls is_setVelocity (QFun (N:=F) (fun _ => Ok (fofZ 1)) qtree1) = true.
Proof. split; [|split]; vm_compute; reflexivity. Qed.

(** C80.  The value of an expression, and whether it throws, are the same for every product
    it is evaluated on: expressions read the reactants only. *)
Theorem C80_reads_reactants : forall (N : Num) toint charge (p0 p1 : particle N) sc e t u,
  (do (x, _) <- eval toint charge p0 p1 sc e t; Ok x) = (do (x, _) <- eval toint charge p0 p1 sc e u; Ok x).
Proof. exact @ev_blind. Qed.
Print Assumptions C80_reads_reactants.

(** C80.  The setters: three arguments, or an exception; one weight. *)
Theorem C80_setters : forall (N : Num) toint charge (p0 p1 : particle N) sc (xs : list N) (t : particle N),
  (forall x y z, xs = [x; y; z] ->
     eval toint charge p0 p1 sc (QSetVelocity (map (@QNum N) xs)) t = Ok (n1, mkParticle (p_pos t) (V3 x y z) (p_species t) (p_weight t)) /\
     eval toint charge p0 p1 sc (QSetPosition (map (@QNum N) xs)) t = Ok (n1, mkParticle (V3 x y z) (p_vel t) (p_species t) (p_weight t))) /\
  (length xs <> 3%nat ->
     eval toint charge p0 p1 sc (QSetVelocity (map (@QNum N) xs)) t = Throw ExnRuntime /\
     eval toint charge p0 p1 sc (QSetPosition (map (@QNum N) xs)) t = Throw ExnRuntime) /\
  (forall w, eval toint charge p0 p1 sc (QSetWeight (QNum w)) t = Ok (n1, mkParticle (p_pos t) (p_vel t) (p_species t) w)).
Proof. exact @setters. Qed.
Print Assumptions C80_setters.

(** C80.  P(n,item) reads position, velocity, weight (items 0..6) and species charge (7) of
    reactant n = 0, 1 and throws for every other n or item; CM(i) and CQ(i) read the centres
    for i = 0, 1, 2 and throw otherwise. *)
Theorem C80_readers : forall (N : Num) toint charge (p0 p1 : particle N) sc (a b : N) (n i : Z) (t : particle N),
  toint a = Ok n -> toint b = Ok i ->
  let P := eval toint charge p0 p1 sc (QP (QNum a) (QNum b)) t in
  (forall p, (n = 0%Z /\ p = p0) \/ (n = 1%Z /\ p = p1) ->
     (forall v, nth_error [vx (p_pos p); vy (p_pos p); vz (p_pos p); vx (p_vel p); vy (p_vel p); vz (p_vel p); p_weight p] (Z.to_nat i) = Some v ->
        (0 <= i)%Z -> P = Ok (v, t)) /\
     (forall v, i = 7%Z -> charge (p_species p) = Ok v -> P = Ok (v, t)) /\
     (i < 0 \/ 7 < i -> P = Throw ExnRuntime)%Z) /\
  (n <> 0%Z -> n <> 1%Z -> P = Throw ExnRuntime) /\
  (forall c v, (c = QCM (QNum b) /\ nth_error [vx (s_cm sc); vy (s_cm sc); vz (s_cm sc)] (Z.to_nat i) = Some v \/
              c = QCQ (QNum b) /\ nth_error [vx (s_cq sc); vy (s_cq sc); vz (s_cq sc)] (Z.to_nat i) = Some v) -> (0 <= i)%Z ->
     eval toint charge p0 p1 sc c t = Ok (v, t)) /\
  (i < 0 \/ 2 < i -> eval toint charge p0 p1 sc (QCM (QNum b)) t = Throw ExnRuntime /\
                     eval toint charge p0 p1 sc (QCQ (QNum b)) t = Throw ExnRuntime)%Z.
Proof. exact @readers. Qed.
Print Assumptions C80_readers.
Example C80_readers_case : qtoint (fofZ 0) = Ok 0%Z /\ qtoint (fofZ 3) = Ok 3%Z /\
  nth_error [5; 0; 0; 7; 0; 0; 2]%Z (Z.to_nat 3) = Some 7%Z.
Proof. split; [|split]; vm_compute; reflexivity. Qed.

(** C80.  The products of a reaction are of the declared species whatever its 'ops' do. *)
Theorem C80_species : forall lm toint charge db parse fcm fcq kec thrE (e : eqcore (F64 lm)) model
    inplace (p1 p2 : particle (F64 lm)) l g k p1' p2' l' k',
  inelastic_new_load db (setParticleFactories (N:=F64 lm) finf) (parse_ops toint charge parse) fcm fcq kec thrE e = Ok model ->
  numberProducts e = 2%Z \/ numberProducts e = 3%Z ->
  model_interact inplace model p1 p2 l g k = Ok (p1', p2', l', k') ->
  p1' = p1 /\ p2' = p2 /\
  exists rs, l' = l ++ rs /\ map p_species rs = expand_species (e_products e).
Proof.
  intros lm toint charge db parse fcm fcq kec thrE e model inplace p1 p2 l g k p1' p2' l' k' H Hn E.
  destruct (C79_products _ _ _ _ _ _ _ _ _ H Hn) as (m0 & ess & mA & mB & qA & qB & pls & _ & He & _ & _ & _ & G).
  destruct (G inplace p1 p2 l g k) as (qs & kk & sc & _ & _ & Hl & Hs & _ & _ & Hm). rewrite Hm in E.
  destruct (each p1 p2 sc ess qs) as [rs| | |] eqn:Er; try discriminate. injection E as <- <- <- <-.
  apply trees_of in He as (trees & _ & ->). rewrite map_length in Hl.
  destruct (each_frame _ _ _ _ _ _ _ _ Hl Er) as [Hsp _].
  split; [reflexivity|]. split; [reflexivity|]. exists rs. split; [reflexivity|]. congruence.
Qed.
Print Assumptions C80_species.
Example C80_species_case : loads (qload true) = true /\ numberProducts qeq = 2%Z /\
  expand_species (e_products qeq) = [2; 3]%Z /\
  loads (do m <- qload true; model_interact (N:=F) false m (qpart 5 7 0 2) (qpart 0 9 1 4) [] qgen 0) = true.
Proof. split; [|split; [|split]]; vm_compute; reflexivity. Qed.

(** C80.  'ops' that never call setVelocity keep the conservation laws of the reaction. *)
Theorem C80_conserve2 : forall toint charge db spf parse fcm fcq kec thrE (e : eqcore RNum) model trees mA mB M0 M1
    inplace (p1 p2 : rpart) l g k p1' p2' l' k',
  reaction (N:=RNum) (fun m : R => 0 < m) db e mA mB [M0; M1] ->
  inelastic_new_load db spf (parse_ops toint charge parse) fcm fcq kec thrE e = Ok model ->
  omap (fun s => if String.eqb s "" then Ok [] else parse s) (ops_texts (e_products e)) = Ok trees ->
  existsb (existsb (calls is_setVelocity)) trees = false ->
  model_interact inplace model p1 p2 l g k = Ok (p1', p2', l', k') ->
  let dE := match kec with Some d => d | None => - thrE end in
  exists q1 q2, l' = l ++ [q1; q2] /\
    momentum2 M0 (p_vel q1) M1 (p_vel q2)
      = scale3 ((M0 + M1) / (mA + mB)) (momentum2 mA (p_vel p1) mB (p_vel p2)) /\
    (M0 + M1 = mA + mB ->
     momentum2 M0 (p_vel q1) M1 (p_vel q2) = momentum2 mA (p_vel p1) mB (p_vel p2)) /\
    (M0 + M1 = mA + mB -> 0 <= g_rand g k <= 1 ->
     0 <= mA * mB / (mA + mB) / 2 * dist2 (p_vel p1) (p_vel p2) + dE ->
     kinetic M0 (p_vel q1) + kinetic M1 (p_vel q2) = kinetic mA (p_vel p1) + kinetic mB (p_vel p2) + dE).
Proof. exact ops_conserve2. Qed.
Print Assumptions C80_conserve2.

Theorem C80_conserve3 : forall toint charge db spf parse fcm fcq kec thrE (e : eqcore RNum) model trees mA mB M0 M1 M2
    inplace (p1 p2 : rpart) l g k p1' p2' l' k',
  reaction (N:=RNum) (fun m : R => 0 < m) db e mA mB [M0; M1; M2] ->
  inelastic_new_load db spf (parse_ops toint charge parse) fcm fcq kec thrE e = Ok model ->
  omap (fun s => if String.eqb s "" then Ok [] else parse s) (ops_texts (e_products e)) = Ok trees ->
  existsb (existsb (calls is_setVelocity)) trees = false ->
  model_interact inplace model p1 p2 l g k = Ok (p1', p2', l', k') ->
  let dE := match kec with Some d => d | None => - thrE end in
  exists q1 q2 q3, l' = l ++ [q1; q2; q3] /\
    momentum3 M0 (p_vel q1) M1 (p_vel q2) M2 (p_vel q3)
      = scale3 ((M0 + M1 + M2) / (mA + mB)) (momentum2 mA (p_vel p1) mB (p_vel p2)) /\
    (M0 + M1 + M2 = mA + mB ->
     momentum3 M0 (p_vel q1) M1 (p_vel q2) M2 (p_vel q3) = momentum2 mA (p_vel p1) mB (p_vel p2)) /\
    (M0 + M1 + M2 = mA + mB -> rng_ok g ->
     0 <= mA * mB / (mA + mB) / 2 * dist2 (p_vel p1) (p_vel p2) + dE ->
     kinetic M0 (p_vel q1) + kinetic M1 (p_vel q2) + kinetic M2 (p_vel q3)
     = kinetic mA (p_vel p1) + kinetic mB (p_vel p2) + dE).
Proof. exact ops_conserve3. Qed.
Print Assumptions C80_conserve3.

(** The reaction of C07_case with the weight of its second product set to 7. *)
Definition weq : eqcore RNum :=
  mkEq (mkInput (term_sp 0) (term_sp 1)) [term_sp 2; mkTerm 3 1 [(-1)%Z] ["setWeight(7)"%string]] (ReducedMass (N:=RNum) 2 3).
Definition wtree : list (qexp RNum) := [QSetWeight (N:=RNum) (QNum (N:=RNum) 7%R)].
Definition wparse (s : string) : outcome (list (qexp RNum)) := Ok wtree.
Example C80_conserve_case :
  reaction (N:=RNum) (fun m : R => 0 < m) exdb weq 2 3 [1; 4] /\
  omap (fun s => if String.eqb s "" then Ok [] else wparse s) (ops_texts (e_products weq)) = Ok [[]; wtree] /\
  existsb (existsb (calls is_setVelocity)) [[]; wtree] = false /\
  exists model, inelastic_new_load exdb exspf (parse_ops (fun _ => Ok 0%Z) (fun _ => UB) wparse) false false (Some 1%R) 0 weq = Ok model /\
  exists q1 q2 k', model_interact false model exA exB [] exG 0 = Ok (exA, exB, [q1; q2], k') /\ p_weight q2 = 7.
Proof.
  split; [|split; [reflexivity|split; [reflexivity|]]].
  - unfold reaction, weq. split; [eexists; reflexivity|]. split; [eexists; reflexivity|]. split; [reflexivity|].
    split; [split; [fall ltac:(cbn; lia)|vm_compute; reflexivity]|].
    split; [repeat (apply Forall2_cons; [eexists; reflexivity|]); apply Forall2_nil|]. split; [cbn; lra|split; [cbn; lra|]]. fall ltac:(cbn; lra).
  - assert (Hq : neqb (n:=RNum) 1%R n0 = false) by (cbn; destruct (Reqb_spec 1 0); [lra|reflexivity]).
    unfold inelastic_new_load. change (numberProducts weq) with 2%Z. cbv beta zeta. rewrite Hq.
    unfold make_inelastic, make22. change (numberProducts weq) with 2%Z. cbn [negb andb]. rewrite Hq.
    cbn -[ReducedMass nsqrt ndiv]. eexists. split; [reflexivity|].
    eexists _, _, _. split; [reflexivity|]. reflexivity.
Qed.
