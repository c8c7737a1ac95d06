(** Two-body collision models: src/chimp/interaction/ReducedMass.h and
    src/chimp/interaction/model/{Base,Elastic,VSSElastic,InElastic,InElastic_2X2,
    InElastic_2X3}.h, model/detail/inelastic_helpers.h. *)
From Coq Require Import String List ZArith Bool.
From Verif Require Import Base Num ModelTerm.
Import ListNotations.

Section Collide.
Context {N : Num}.
Local Open Scope num_scope.

(** ReducedMass.h 41-73. *)
Record reducedMass := mkRM { rm_value : N; over_m1 : N; over_m2 : N }.

(** ReducedMass.h 58-61 (and 65-73, same expressions). *)
Definition ReducedMass (m1 m2 : N) : reducedMass :=
  mkRM (m1 * m2 / (m1 + m2)) (n1 / (n1 + m1 / m2)) (n1 / (n1 + m2 / m1)).

(** Particles as seen through src/chimp/accessors.h: position, velocity, species
    and weight. *)
Record particle := mkParticle {
  p_pos : vec N; p_vel : vec N; p_species : Z; p_weight : N }.
Definition setVelocity (p : particle) (v : vec N) : particle :=
  mkParticle (p_pos p) v (p_species p) (p_weight p).
Definition setPosition (p : particle) (x : vec N) : particle :=
  mkParticle x (p_vel p) (p_species p) (p_weight p).
Definition setSpecies (p : particle) (s : Z) : particle :=
  mkParticle (p_pos p) (p_vel p) s (p_weight p).
Definition setWeight (p : particle) (w : N) : particle :=
  mkParticle (p_pos p) (p_vel p) (p_species p) w.

(** Velocity of the centre of mass (Elastic.h 126-127, VSSElastic.h 131-132,
    InElastic_2X2.h 180-181, InElastic_2X3.h 192-193). *)
Definition VelCM (mu : reducedMass) (v1 v2 : vec N) : vec N :=
  vadd (vscale (over_m2 mu) v1) (vscale (over_m1 mu) v2).

(** The isotropic direction times a speed (Elastic.h 133-144, InElastic_2X2.h
    186-197, InElastic_2X3.h 207-218 and 238-249); [r] and [r'] are the two draws. *)
Definition isoVel (r r' S : N) : vec N :=
  let B := n2 * r - n1 in
  let A := nsqrt (n1 - sqr B) in
  let C := n2 * npi * r' in
  V3 (B * S) (A * ncos C * S) (A * nsin C * S).

(** Elastic.h 109-149: the collision proper, [r], [r'] being the draws. *)
Definition elastic_collide (mu : reducedMass) (p1 p2 : particle) (r r' : N)
  : particle * particle :=
  let v1 := p_vel p1 in
  let v2 := p_vel p2 in
  let cm := VelCM mu v1 v2 in
  let VelRelPre := vsub v1 v2 in
  let SpeedRel := vabs VelRelPre in
  let VelRelPost := isoVel r r' SpeedRel in
  (setVelocity p1 (vadd cm (vscale (over_m1 mu) VelRelPost)),
   setVelocity p2 (vsub cm (vscale (over_m2 mu) VelRelPost))).

(** VSSElastic.h 140-164: post-collision relative velocity. *)
Definition vssVel (vss_param_inv : N) (vr : vec N) (r r' : N) : vec N :=
  let S := vabs vr in
  let B := n2 * npow r vss_param_inv - n1 in
  let A := nsqrt (n1 - sqr B) in
  let C := n2 * npi * r' in
  let COSC := ncos C in
  let SINC := nsin C in
  let D := nsqrt (sqr (vy vr) + sqr (vz vr)) in
  if nquot 1 1000000 <? D then
    let A_D := A / D in
    V3 (B * vx vr + A * SINC * D)
       (B * vy vr + A_D * (S * vz vr * COSC - vx vr * vy vr * SINC))
       (B * vz vr - A_D * (S * vy vr * COSC + vx vr * vz vr * SINC))
  else
    V3 (B * vx vr) (A * COSC * vx vr) (A * SINC * vx vr).

(** VSSElastic.h 111-179. *)
Definition vss_collide (mu : reducedMass) (vss_param_inv : N) (p1 p2 : particle) (r r' : N)
  : particle * particle :=
  let v1 := p_vel p1 in
  let v2 := p_vel p2 in
  let cm := VelCM mu v1 v2 in
  let VelRelPost := vssVel vss_param_inv (vsub v1 v2) r r' in
  (setVelocity p1 (vadd cm (vscale (over_m1 mu) VelRelPost)),
   setVelocity p2 (vsub cm (vscale (over_m2 mu) VelRelPost))).

(** ** Product factories (inelastic_helpers.h 88-162) *)
Inductive fop := NOOP | CM | CQ.
Definition fop_eqb (a b : fop) : bool :=
  match a, b with NOOP, NOOP | CM, CM | CQ, CQ => true | _, _ => false end.

Record factory := mkFactory { f_src : Z; f_target : Z; f_op : fop }.

(** inelastic_helpers.h 97-129. *)
Record scratch := mkScratch { s_cm : vec N; s_cq : vec N }.
Definition make_scratch (fs : list factory) (p1 p2 : particle)
  (mu muQ : reducedMass) (force_cm force_cq : bool) : scratch :=
  let yes_cm := fold_left (fun b f => b || fop_eqb (f_op f) CM)%bool fs force_cm in
  let yes_cq := fold_left (fun b f => b || fop_eqb (f_op f) CQ)%bool fs force_cq in
  mkScratch
    (if yes_cm then vadd (vscale (over_m2 mu) (p_pos p1)) (vscale (over_m1 mu) (p_pos p2)) else vzero)
    (if yes_cq then vadd (vscale (over_m2 muQ) (p_pos p1)) (vscale (over_m1 muQ) (p_pos p2)) else vzero).

(** inelastic_helpers.h 146-161: the created particle (pushed back by the caller). *)
Definition factory_create (f : factory) (p0 p1 : particle) (sc : scratch) : particle :=
  let p := setSpecies (if (f_src f =? 0)%Z then p0 else p1) (f_target f) in
  match f_op f with
  | CM => setPosition p (s_cm sc)
  | CQ => setPosition p (s_cq sc)
  | NOOP => p
  end.

(** A post-collision expression ('ops'): an arbitrary action on the target
    particle which may read both reactants and the scratch space and may throw
    (inelastic_helpers.h 201-407, evaluated by an external calculator). *)
Definition expr := particle -> particle -> scratch -> particle -> outcome particle.

(** inelastic_helpers.h 506-545: Process<useExpressions>. *)
Definition process (useExpressions : bool) (es : list expr) (r p1 p2 : particle) (sc : scratch)
  : outcome particle :=
  if useExpressions then ofold (fun r e => e p1 p2 sc r) r es else Ok r.

(** ** Inelastic models: the data common to all (InElastic.h 59-83). *)
Record inelastic := mkInelastic {
  ie_mu : reducedMass;
  ie_muQ : reducedMass;
  ie_factories : list factory;
  ie_expr : list (list expr);
  ie_force_cm : bool;
  ie_force_cq : bool
}.

(** inelastic_helpers.h 62-84: CalculateVRelImpl<hasEnergyChange>. *)
Definition CalculateVRel (hasEnergyChange : bool) (v1 v2 : vec N) (dV2 : N) : N :=
  if hasEnergyChange then nsqrt (vsqr (vsub v1 v2) + dV2) else vabs (vsub v1 v2).

(** InElastic_2X2.h 62-141 (members). *)
Record inelastic22 := mkIE22 {
  i2_base : inelastic;
  i2_hasE : bool;
  i2_useX : bool;
  i2_mu1 : reducedMass;
  i2_mu1_scale : N;
  i2_dV2rel : N
}.

(** InElastic_2X2.h 172-212: velocities of the two products. *)
Definition vel22 (m : inelastic22) (v1 v2 : vec N) (r r' : N) : vec N * vec N :=
  let cm := VelCM (ie_mu (i2_base m)) v1 v2 in
  let S := CalculateVRel (i2_hasE m) v1 v2 (i2_dV2rel m) in
  let VelRelPost := isoVel r r' S in
  (vadd cm (vscale (over_m1 (i2_mu1 m) * i2_mu1_scale m) VelRelPost),
   vsub cm (vscale (over_m2 (i2_mu1 m) * i2_mu1_scale m) VelRelPost)).

(** InElastic_2X2.h 147-217.  Reading factories[0], factories[1], expressions[0],
    expressions[1] is unchecked: out of range is UB (the constructor rules it out). *)
Definition interact22 (m : inelastic22) (p1 p2 : particle) (products : list particle)
  (g : rng N) (k : nat) : outcome (list particle * nat) :=
  let b := i2_base m in
  let sc := make_scratch (ie_factories b) p1 p2 (ie_mu b) (ie_muQ b) (ie_force_cm b) (ie_force_cq b) in
  do f0 <- oget (ie_factories b) 0;
  do f1 <- oget (ie_factories b) 1;
  do e0 <- oget (ie_expr b) 0;
  do e1 <- oget (ie_expr b) 1;
  let r1 := factory_create f0 p1 p2 sc in
  let r2 := factory_create f1 p1 p2 sc in
  let (w1, w2) := vel22 m (p_vel p1) (p_vel p2) (g_rand g k) (g_rand g (k+1)) in
  do r1 <- process (i2_useX m) e0 (setVelocity r1 w1) p1 p2 sc;
  do r2 <- process (i2_useX m) e1 (setVelocity r2 w2) p1 p2 sc;
  Ok (products ++ [r1; r2], (k + 2)%nat).

(** InElastic_2X3.h 62-151 (members). *)
Record inelastic23 := mkIE23 {
  i3_base : inelastic;
  i3_hasE : bool;
  i3_useX : bool;
  i3_mu1 : reducedMass;
  i3_mu2 : reducedMass;
  i3_mu1_scale : N;
  i3_mu2_scale : N;
  i3_dV2rel : N
}.

(** InElastic_2X3.h 184-252; draws in order: energy fraction, then two directions. *)
Definition vel23 (m : inelastic23) (v1 v2 : vec N) (q r r' s s' : N)
  : vec N * vec N * vec N :=
  let cm := VelCM (ie_mu (i3_base m)) v1 v2 in
  let S := CalculateVRel (i3_hasE m) v1 v2 (i3_dV2rel m) in
  let S1 := S * nsqrt q in
  let S2 := S * nsqrt (n1 - q) in
  let W := isoVel r r' S1 in
  let w1 := vadd cm (vscale (over_m1 (i3_mu1 m) * i3_mu1_scale m) W) in
  let cm := vsub cm (vscale (over_m2 (i3_mu1 m) * i3_mu1_scale m) W) in
  let W := isoVel s s' S2 in
  let w2 := vadd cm (vscale (over_m1 (i3_mu2 m) * i3_mu2_scale m) W) in
  let w3 := vsub cm (vscale (over_m2 (i3_mu2 m) * i3_mu2_scale m) W) in
  (w1, w2, w3).

(** InElastic_2X3.h 157-258. *)
Definition interact23 (m : inelastic23) (p1 p2 : particle) (products : list particle)
  (g : rng N) (k : nat) : outcome (list particle * nat) :=
  let b := i3_base m in
  let sc := make_scratch (ie_factories b) p1 p2 (ie_mu b) (ie_muQ b) (ie_force_cm b) (ie_force_cq b) in
  do f0 <- oget (ie_factories b) 0;
  do f1 <- oget (ie_factories b) 1;
  do f2 <- oget (ie_factories b) 2;
  do e0 <- oget (ie_expr b) 0;
  do e1 <- oget (ie_expr b) 1;
  do e2 <- oget (ie_expr b) 2;
  let r1 := factory_create f0 p1 p2 sc in
  let r2 := factory_create f1 p1 p2 sc in
  let r3 := factory_create f2 p1 p2 sc in
  let '(w1, w2, w3) := vel23 m (p_vel p1) (p_vel p2)
        (g_rand g k) (g_rand g (k+1)) (g_rand g (k+2)) (g_rand g (k+3)) (g_rand g (k+4)) in
  do r1 <- process (i3_useX m) e0 (setVelocity r1 w1) p1 p2 sc;
  do r2 <- process (i3_useX m) e1 (setVelocity r2 w2) p1 p2 sc;
  do r3 <- process (i3_useX m) e2 (setVelocity r3 w3) p1 p2 sc;
  Ok (products ++ [r1; r2; r3], (k + 5)%nat).

(** ** The models as a closed family, plus arbitrary user models (the registry of
    RuntimeDB.h is open): a user model is any function of the two particles, the
    product list and the generator (its arguments are const references when
    interactions are out of place, Base.h 70-72, see [model_interact]). *)
Inductive imodel :=
| MElastic (mu : reducedMass)
| MVSS (mu : reducedMass) (vss_param_inv : N)
| MIn22 (m : inelastic22)
| MIn23 (m : inelastic23)
| MInBare     (* InElastic.h 184: [new InElastic], whose interact is Base's *)
| MUser (f : bool -> particle -> particle -> list particle -> rng N -> nat ->
             outcome (particle * particle * list particle * nat)).

(** Elastic.h 87-98 / VSSElastic.h 89-100: push copies of both, then collide the
    last two elements of the list. *)
Definition collide_last_two (f : particle -> particle -> particle * particle)
  (products : list particle) : outcome (list particle) :=
  let n := length products in
  do a <- oget products (n - 2);
  do b <- oget products (n - 1);
  let (a', b') := f a b in
  Ok (upd (n - 1) b' (upd (n - 2) a' products)).

(** Two-body virtual [interact] of Base.h 83-104 and overrides.  [inplace] is
    options::inplace_interactions, which selects the overload.  Result: the two
    particles after the call, the product list and the generator position. *)
Definition model_interact (inplace : bool) (m : imodel) (p1 p2 : particle)
  (products : list particle) (g : rng N) (k : nat)
  : outcome (particle * particle * list particle * nat) :=
  match m with
  | MElastic mu =>
      if inplace then
        (* Elastic.h 101-106 *)
        let (a, b) := elastic_collide mu p1 p2 (g_rand g k) (g_rand g (k+1)) in
        Ok (a, b, products, (k + 2)%nat)
      else
        (* Elastic.h 87-98 *)
        do l <- collide_last_two
                  (fun a b => elastic_collide mu a b (g_rand g k) (g_rand g (k+1)))
                  (products ++ [p1] ++ [p2]);
        Ok (p1, p2, l, (k + 2)%nat)
  | MVSS mu al =>
      if inplace then
        let (a, b) := vss_collide mu al p1 p2 (g_rand g k) (g_rand g (k+1)) in
        Ok (a, b, products, (k + 2)%nat)
      else
        do l <- collide_last_two
                  (fun a b => vss_collide mu al a b (g_rand g k) (g_rand g (k+1)))
                  (products ++ [p1] ++ [p2]);
        Ok (p1, p2, l, (k + 2)%nat)
  | MIn22 m => do (l, k) <- interact22 m p1 p2 products g k; Ok (p1, p2, l, k)
  | MIn23 m => do (l, k) <- interact23 m p1 p2 products g k; Ok (p1, p2, l, k)
  | MInBare => Throw ExnRuntime
  | MUser f =>
      do (a, b, l, k) <- f inplace p1 p2 products g k;
      Ok (if inplace then a else p1, if inplace then b else p2, l, k)
  end.

(** ** Loading of the inelastic model *)

(** The part of interaction::Equation (Equation.h 88-140) that the models read
    while loading. *)
Record eqcore := mkEq { e_in : input; e_products : list term; e_mu : reducedMass }.
Definition e_A (e : eqcore) := in_A (e_in e).
Definition e_B (e : eqcore) := in_B (e_in e).
(** Equation.h 117: numberProducts. *)
Definition numberProducts (e : eqcore) : Z := countComponents (e_products e).

(** inelastic_helpers.h 167-178. *)
Record massCharge := mkMC { mc_mass : N; mc_charge : N; mc_species : Z; mc_from : Z }.

(** inelastic_helpers.h 424-431: one tuple per copy of each product term.
    [db s] gives mass and charge of species [s] (RuntimeDB operator[](int), an
    unchecked vector access). *)
Fixpoint mc_copies (m q : N) (sp : Z) (from : list Z) (n : nat) {struct n} : outcome (list massCharge) :=
  match n with
  | O => Ok []
  | S n =>
      match from with
      | [] => UB
      | f :: from => do l <- mc_copies m q sp from n; Ok (mkMC m q sp f :: l)
      end
  end.
Definition massChargeOut (db : Z -> outcome (N * N)) (products : list term)
  : outcome (list massCharge) :=
  do ls <- omap (fun t =>
      if (t_n t <=? 0)%Z then Ok [] else
      do (m, q) <- db (t_species t);
      mc_copies m q (t_species t) (t_from t) (Z.to_nat (t_n t))) products;
  Ok (concat ls).
Definition massChargeIn (db : Z -> outcome (N * N)) (e : eqcore) : outcome (list massCharge) :=
  do (ma, qa) <- db (t_species (e_A e));
  do (mb, qb) <- db (t_species (e_B e));
  Ok [mkMC ma qa (t_species (e_A e)) (-1); mkMC mb qb (t_species (e_B e)) (-1)].

(** inelastic_helpers.h 450-471: one expression list per product copy; [parse]
    stands for the external calculator's parser of an ops string. *)
Definition expr_lists (parse : string -> outcome (list expr)) (products : list term)
  : outcome (list (list expr)) :=
  do ls <- omap (fun t => omap (fun s => if String.eqb s "" then Ok [] else parse s)
                      (firstn (Z.to_nat (t_n t)) (t_ops t))) products;
  Ok (concat ls).

(** InElastic.h 92-102 with setFactories (inelastic_helpers.h 412-481); [spf] is
    setParticleFactories (ModelFactories.v), [fcm]/[fcq] the results of hasToken. *)
Definition make_inelastic (db : Z -> outcome (N * N))
  (spf : list massCharge -> list massCharge -> outcome (list factory))
  (parse : string -> outcome (list expr)) (fcm fcq : bool) (e : eqcore) : outcome inelastic :=
  do (_, qa) <- db (t_species (e_A e));
  do (_, qb) <- db (t_species (e_B e));
  do mout <- massChargeOut db (e_products e);
  do min <- massChargeIn db e;
  do fs <- spf min mout;
  do es <- expr_lists parse (e_products e);
  if (negb (Z.of_nat (length fs) =? numberProducts e)%Z ||
      negb (Z.of_nat (length es) =? numberProducts e)%Z)%bool
  then Throw ExnRuntime
  else Ok (mkInelastic (e_mu e) (ReducedMass qa qb) fs es fcm fcq).

Definition is_nil {A} (l : list A) : bool := match l with [] => true | _ => false end.

(** InElastic_2X2.h 100-141. *)
Definition make22 (db : Z -> outcome (N * N)) (b : inelastic) (hasE useX : bool)
  (e : eqcore) (dE : N) : outcome inelastic22 :=
  if (hasE && (dE =? n0))%bool then Throw ExnRuntime else
  if (negb (numberProducts e =? 2)%Z || negb (Nat.eqb (length (ie_factories b)) 2) ||
      negb (Nat.eqb (length (ie_expr b)) 2))%bool then Throw ExnRuntime else
  if negb (Bool.eqb useX (existsb (fun x => negb (is_nil x)) (ie_expr b))) then Throw ExnRuntime else
  if existsb (fun f => (1 <? f_src f)%Z) (ie_factories b) then Throw ExnRuntime else
  do t0 <- getTermForProduct (e_products e) 0;
  do t1 <- getTermForProduct (e_products e) 1;
  do (m0, _) <- db (t_species t0);
  do (m1, _) <- db (t_species t1);
  let mu1 := ReducedMass m0 m1 in
  Ok (mkIE22 b hasE useX mu1 (nsqrt (rm_value (ie_mu b) / rm_value mu1))
             (dE / (nhalf * rm_value (e_mu e)))).

(** InElastic_2X3.h 107-151 (the source index check is against 2, not 1). *)
Definition make23 (db : Z -> outcome (N * N)) (b : inelastic) (hasE useX : bool)
  (e : eqcore) (dE : N) : outcome inelastic23 :=
  if (hasE && (dE =? n0))%bool then Throw ExnRuntime else
  if (negb (numberProducts e =? 3)%Z || negb (Nat.eqb (length (ie_factories b)) 3) ||
      negb (Nat.eqb (length (ie_expr b)) 3))%bool then Throw ExnRuntime else
  if negb (Bool.eqb useX (existsb (fun x => negb (is_nil x)) (ie_expr b))) then Throw ExnRuntime else
  if existsb (fun f => (2 <? f_src f)%Z) (ie_factories b) then Throw ExnRuntime else
  do t0 <- getTermForProduct (e_products e) 0;
  do t1 <- getTermForProduct (e_products e) 1;
  do t2 <- getTermForProduct (e_products e) 2;
  do (m0, _) <- db (t_species t0);
  do (m1, _) <- db (t_species t1);
  do (m2, _) <- db (t_species t2);
  let mu1 := ReducedMass m0 (m1 + m2) in
  let mu2 := ReducedMass m1 m2 in
  Ok (mkIE23 b hasE useX mu1 mu2 (nsqrt (rm_value (ie_mu b) / rm_value mu1))
             (nsqrt (rm_value (ie_mu b) / rm_value mu2))
             (dE / (nhalf * rm_value (e_mu e)))).

(** InElastic.h 113-185: new_load.  [kec] is the document's KineticEnergyChange if
    there is exactly one (inelastic_helpers.cpp 44-57), [thrE] the threshold energy
    of the equation's cross section.  When no energy change is present the
    constructor is called with its default dE = 0.0. *)
Definition inelastic_new_load (db : Z -> outcome (N * N))
  (spf : list massCharge -> list massCharge -> outcome (list factory))
  (parse : string -> outcome (list expr)) (fcm fcq : bool)
  (kec : option N) (thrE : N) (e : eqcore) : outcome imodel :=
  let dE := match kec with Some d => d | None => n0 - thrE end in
  let useX := hasExpressions (e_products e) in
  let np := numberProducts e in
  let hasE := negb (dE =? n0) in
  if (np =? 2)%Z then
    do b <- make_inelastic db spf parse fcm fcq e;
    do m <- make22 db b hasE useX e (if hasE then dE else n0);
    Ok (MIn22 m)
  else if (np =? 3)%Z then
    do b <- make_inelastic db spf parse fcm fcq e;
    do m <- make23 db b hasE useX e (if hasE then dE else n0);
    Ok (MIn23 m)
  else Ok MInBare.

End Collide.
Arguments reducedMass N : clear implicits.
Arguments particle N : clear implicits.
Arguments scratch N : clear implicits.
Arguments expr N : clear implicits.
Arguments inelastic N : clear implicits.
Arguments inelastic22 N : clear implicits.
Arguments inelastic23 N : clear implicits.
Arguments imodel N : clear implicits.
Arguments eqcore N : clear implicits.
Arguments massCharge N : clear implicits.
