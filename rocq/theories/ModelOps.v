(** Model of the functions offered to 'ops' expressions: model/detail/inelastic_helpers.h
    201-407 (InElasticExpressions) and their evaluation 506-533 (Process<true>). *)
From Coq Require Import ZArith String List.
From Verif Require Import Base Num ModelTerm ModelCollide.
Import ListNotations.

Section Ops.
Context {N : Num}.

(** An expression tree of the external calculator.  [QFun] stands for any function or
    operator of the calculator itself; the other nodes are calls of the functions that
    addInteractionHelpers registers (lines 374-405).  Values are dimensionless quantities;
    units are external and left out. *)
Inductive qexp :=
| QNum (x : N)
| QFun (f : list N -> outcome N) (args : list qexp)
| QSetVelocity (args : list qexp)
| QSetPosition (args : list qexp)
| QSetWeight (w : qexp)
| QP (n item : qexp)
| QCM (i : qexp)
| QCQ (i : qexp).

(** Lines 207-214: the items P() can ask for. *)
Definition vt_X := 0%Z. Definition vt_Y := 1%Z. Definition vt_Z := 2%Z.
Definition vt_VX := 3%Z. Definition vt_VY := 4%Z. Definition vt_VZ := 5%Z.
Definition vt_WEIGHT := 6%Z. Definition vt_SPECIES_CHARGE := 7%Z.

(** [toint] is the external Quantity::getCoeff<int>; [charge] the charge of a species in
    the database (an unchecked access). *)
Variables (toint : N -> outcome Z) (charge : Z -> outcome N).

(** Component of a vector (xylose::Vector operator[]). *)
Definition vcomp (v : vec N) (i : Z) : N := if (i =? 0)%Z then vx v else if (i =? 1)%Z then vy v else vz v.

(** Lines 239-279: the three setters, given their evaluated arguments.  The target is
    always set while an expression of a product runs (line 519). *)
Definition q_setVelocity (v : list N) (t : particle N) : outcome (particle N) :=
  match v with [x; y; z] => Ok (setVelocity t (V3 x y z)) | _ => Throw ExnRuntime end.
Definition q_setPosition (v : list N) (t : particle N) : outcome (particle N) :=
  match v with [x; y; z] => Ok (setPosition t (V3 x y z)) | _ => Throw ExnRuntime end.
Definition q_setWeight (w : N) (t : particle N) : outcome (particle N) :=
  Ok (mkParticle (p_pos t) (p_vel t) (p_species t) w).
(** Lines 282-332: P(n,item). *)
Definition q_P (p0 p1 : particle N) (n item : Z) : outcome N :=
  do p <- (if (n =? 0)%Z then Ok p0 else if (n =? 1)%Z then Ok p1 else Throw ExnRuntime);
  if ((vt_X <=? item) && (item <=? vt_Z))%Z%bool then Ok (vcomp (p_pos p) item)
  else if ((vt_VX <=? item) && (item <=? vt_VZ))%Z%bool then Ok (vcomp (p_vel p) (item - 3))
  else if (item =? vt_WEIGHT)%Z then Ok (p_weight p)
  else if (item =? vt_SPECIES_CHARGE)%Z then charge (p_species p)
  else Throw ExnRuntime.
(** Lines 335-371: CM(n), CQ(n). *)
Definition q_centre (c : vec N) (i : Z) : outcome N :=
  if ((0 <=? i) && (i <=? 2))%Z%bool then Ok (vcomp c i) else Throw ExnRuntime.

(** Evaluation with [t] as the target: value and target afterwards.  Arguments are taken
    to be evaluated from left to right (the calculator's order is external). *)
Fixpoint eval (p0 p1 : particle N) (sc : scratch N) (e : qexp) (t : particle N) : outcome (N * particle N) :=
  let evals := fix evals (l : list qexp) (t : particle N) : outcome (list N * particle N) :=
    match l with
    | [] => Ok ([], t)
    | e :: l => do (x, t) <- eval p0 p1 sc e t; do (xs, t) <- evals l t; Ok (x :: xs, t)
    end in
  match e with
  | QNum x => Ok (x, t)
  | QFun f args => do (xs, t) <- evals args t; do x <- f xs; Ok (x, t)
  | QSetVelocity args => do (xs, t) <- evals args t; do t <- q_setVelocity xs t; Ok (n1, t)
  | QSetPosition args => do (xs, t) <- evals args t; do t <- q_setPosition xs t; Ok (n1, t)
  | QSetWeight w => do (x, t) <- eval p0 p1 sc w t; do t <- q_setWeight x t; Ok (n1, t)
  | QP n item => do (a, t) <- eval p0 p1 sc n t; do (b, t) <- eval p0 p1 sc item t;
                 do a <- toint a; do b <- toint b; do x <- q_P p0 p1 a b; Ok (x, t)
  | QCM i => do (a, t) <- eval p0 p1 sc i t; do a <- toint a; do x <- q_centre (s_cm sc) a; Ok (x, t)
  | QCQ i => do (a, t) <- eval p0 p1 sc i t; do a <- toint a; do x <- q_centre (s_cq sc) a; Ok (x, t)
  end.

(** Lines 525-529: what evaluating one expression does to the product. *)
Definition op_expr (e : qexp) : expr N := fun p0 p1 sc t => do (_, t) <- eval p0 p1 sc e t; Ok t.
(** Lines 455-463: the calculator's parser gives the trees of an 'ops' text. *)
Definition parse_ops (parse : string -> outcome (list qexp)) (s : string) : outcome (list (expr N)) :=
  do es <- parse s; Ok (map op_expr es).
End Ops.
Arguments qexp N : clear implicits.
