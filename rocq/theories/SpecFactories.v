(** Specification of the source assignment, independent of the enumeration used
    by the code. *)
From Coq Require Import List ZArith Bool.
From Verif Require Import Base Num ModelCollide.
Import ListNotations.

Section Spec.
Context {N : Num}.
Variable inf : N.
Local Open Scope num_scope.

Definition total (w : massCharge N -> N) (l : list (massCharge N)) : N :=
  fold_left (fun s x => s + w x) l n0.

(** Weighted sum of positions, left to right. *)
Definition moment (w : massCharge N -> N) (l : list (massCharge N)) (xs : list N) : N :=
  fold_left (fun s p => s + w (fst p) * snd p) (combine l xs) n0.

(** Two reactants sit at -1 and +1; their centre of mass / charge is at infinity
    when the total vanishes. *)
Definition centre (w : massCharge N -> N) (a b : massCharge N) : N :=
  let t := (n0 + w a) + w b in
  if t =? n0 then inf else (n0 + ofZ (-1) * w a + ofZ 1 * w b) / t.

(** The four places a product can start from. *)
Inductive place := AtFirst | AtSecond | AtCM | AtCQ.
Definition place_index (p : place) : Z :=
  match p with AtFirst => 0 | AtSecond => 1 | AtCM => 2 | AtCQ => 3 end.
Definition place_pos (a b : massCharge N) (p : place) : N :=
  match p with
  | AtFirst => ofZ (-1)
  | AtSecond => ofZ 1
  | AtCM => centre mc_mass a b
  | AtCQ => centre mc_charge a b
  end.

(** An assignment is admissible when it respects every explicit 'from'. *)
Definition admissible (outs : list (massCharge N)) (ps : list place) : Prop :=
  Forall2 (fun o p => (0 <= mc_from o)%Z -> place_index p = mc_from o) outs ps.

(** Displacement score: how far the assignment moves centre of mass and centre
    of charge; a vanishing total is skipped. *)
Definition score (a b : massCharge N) (outs : list (massCharge N)) (ps : list place) : N :=
  let xs := map (place_pos a b) ps in
  let sm := if total mc_mass outs =? n0 then n0
            else n0 + nabs (moment mc_mass outs xs / total mc_mass outs - centre mc_mass a b) in
  if total mc_charge outs =? n0 then sm
  else sm + nabs (moment mc_charge outs xs / total mc_charge outs - centre mc_charge a b).

(** A factory realises a place for a product. *)
Definition realises (o : massCharge N) (p : place) (f : factory) : Prop :=
  f_target f = mc_species o /\
  match p with
  | AtFirst => f_src f = 0%Z /\ f_op f = NOOP
  | AtSecond => f_src f = 1%Z /\ f_op f = NOOP
  | AtCM => (f_src f = 0%Z \/ f_src f = 1%Z) /\ f_op f = CM
  | AtCQ => (f_src f = 0%Z \/ f_src f = 1%Z) /\ f_op f = CQ
  end.
(** How a product starts, given its place. *)
Definition starts_at (mu muQ : reducedMass N) (p1 p2 : particle N) (pl : place) (q : particle N) : Prop :=
  let at_centre (m : reducedMass N) :=
    (p_weight q = p_weight p1 \/ p_weight q = p_weight p2) /\
    p_pos q = V3 (nadd (nmul (over_m2 m) (vx (p_pos p1))) (nmul (over_m1 m) (vx (p_pos p2))))
                 (nadd (nmul (over_m2 m) (vy (p_pos p1))) (nmul (over_m1 m) (vy (p_pos p2))))
                 (nadd (nmul (over_m2 m) (vz (p_pos p1))) (nmul (over_m1 m) (vz (p_pos p2)))) in
  match pl with
  | AtFirst => p_weight q = p_weight p1 /\ p_pos q = p_pos p1
  | AtSecond => p_weight q = p_weight p2 /\ p_pos q = p_pos p2
  | AtCM => at_centre mu
  | AtCQ => at_centre muQ
  end.
End Spec.
