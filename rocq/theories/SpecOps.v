(** Specification vocabulary for 'ops' expressions. *)
From Coq Require Import ZArith String Bool List.
From Verif Require Import Base Num ModelTerm ModelCollide ModelOps.
Import ListNotations.

(** The equation without its 'ops'. *)
Definition without_ops {N : Num} (e : eqcore N) : eqcore N :=
  mkEq (e_in e) (map (fun t => mkTerm (t_species t) (t_n t) (t_from t) (map (fun _ => EmptyString) (t_ops t))) (e_products e)) (e_mu e).
(** The 'ops' text of each product. *)
Definition ops_texts (l : list term) : list string := concat (map (fun t => firstn (Z.to_nat (t_n t)) (t_ops t)) l).

Section Spec.
Context {N : Num}.
(** Expressions of one product, one after the other. *)
Fixpoint in_turn (p1 p2 : particle N) (sc : scratch N) (es : list (expr N)) (q : particle N) : outcome (particle N) :=
  match es with
  | [] => Ok q
  | e :: es => match e p1 p2 sc q with Ok q => in_turn p1 p2 sc es q | Throw x => Throw x | UB => UB | Diverge => Diverge end
  end.
(** Every product gets its own expressions. *)
Fixpoint each (p1 p2 : particle N) (sc : scratch N) (ess : list (list (expr N))) (qs : list (particle N)) : outcome (list (particle N)) :=
  match ess, qs with
  | es :: ess, q :: qs =>
      match in_turn p1 p2 sc es q with
      | Ok r => match each p1 p2 sc ess qs with Ok rs => Ok (r :: rs) | Throw x => Throw x | UB => UB | Diverge => Diverge end
      | Throw x => Throw x | UB => UB | Diverge => Diverge
      end
  | _, _ => Ok []
  end.
(** Centre with the given weights. *)
Definition centre_of (m : reducedMass N) (p1 p2 : particle N) : vec N :=
  vadd (vscale (over_m2 m) (p_pos p1)) (vscale (over_m1 m) (p_pos p2)).

(** Does an expression call a setter anywhere? *)
Fixpoint calls (which : qexp N -> bool) (e : qexp N) : bool :=
  which e ||
  match e with
  | QNum _ => false
  | QFun _ l | QSetVelocity l | QSetPosition l => existsb (calls which) l
  | QSetWeight w => calls which w
  | QP a b => calls which a || calls which b
  | QCM i | QCQ i => calls which i
  end.
Definition is_setVelocity (e : qexp N) : bool := match e with QSetVelocity _ => true | _ => false end.
Definition is_setPosition (e : qexp N) : bool := match e with QSetPosition _ => true | _ => false end.
Definition is_setWeight (e : qexp N) : bool := match e with QSetWeight _ => true | _ => false end.
End Spec.
