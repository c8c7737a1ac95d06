(** Changing all particles of a run at once: another frame of reference, other positions, results
    of earlier runs. *)
From Coq Require Import Reals List ZArith.
From Verif Require Import Base Num ModelTerm ModelCollide ModelSet.
From Coq Require Import List.
Import ListNotations.

(** The outcome with its value changed. *)
Definition result_of {A B} (f : A -> B) (x : outcome A) : outcome B := do a <- x; Ok (f a).

Section Change.
Context {N : Num}.
(** Every particle of the cell or state changed by [f]. *)
Definition changed_cell (f : particle N -> particle N) (c : cell N) : cell N :=
  mkCell (map f (c_mem c)) (c_ranges c) (c_volume c) (c_maxv c).
Definition changed_state (f : particle N -> particle N) (s : dstate N) : dstate N :=
  mkState (map f (s_mem s)) (s_ranges s) (map f (s_res s)) (s_erase s) (s_pos s) (s_log s).
(** The state with results [res] and erasures [er] of earlier runs in front. *)
Definition after_state (res : list (particle N)) (er : list nat) (s : dstate N) : dstate N :=
  mkState (s_mem s) (s_ranges s) (res ++ s_res s) (er ++ s_erase s) (s_pos s) (s_log s).
(** The particle at another position. *)
Definition placed (h : vec N -> vec N) (p : particle N) : particle N := setPosition p (h (p_pos p)).
(** Models of the library, as opposed to those a user registers. *)
Definition library_model (q : equation N) : Prop := match q_model q with MUser _ => False | _ => True end.
(** Collisions that move no particle: elastic ones, and reactions whose products stay where a
    reactant was and whose 'ops' are not evaluated. *)
Definition copies_positions (q : equation N) : Prop :=
  match q_model q with
  | MElastic _ | MVSS _ _ | MInBare => True
  | MIn22 m => i2_useX m = false /\ List.Forall (fun f => f_op f = NOOP) (ie_factories (i2_base m))
  | MIn23 m => i3_useX m = false /\ List.Forall (fun f => f_op f = NOOP) (ie_factories (i3_base m))
  | MUser _ => False
  end.
(** No product is put at the centre of charge of the reactants. *)
Definition no_charge_centre (q : equation N) : Prop :=
  match q_model q with
  | MIn22 m => List.Forall (fun f => f_op f <> CQ) (ie_factories (i2_base m))
  | MIn23 m => List.Forall (fun f => f_op f <> CQ) (ie_factories (i3_base m))
  | _ => True
  end.
End Change.

(** The particle as seen from a frame with velocity -[u] and origin at -[x]. *)
Definition moved (u x : vec RNum) (p : particle RNum) : particle RNum :=
  mkParticle (N:=RNum) (vadd (p_pos p) x) (vadd (p_vel p) u) (p_species p) (p_weight p).
