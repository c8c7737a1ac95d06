(** Specifications for cross sections over the real numbers. *)
From Coq Require Import Reals List ZArith.
From Verif Require Import Base Num ModelCollide ModelXsec.
Import ListNotations.
Local Open Scope R_scope.

(** Lets Coq infer the arithmetic from arguments of type R. *)
Canonical RNum.

(** The threshold energy a document declares: absent means 0, a speed w means the
    collision energy mu*w^2/2. *)
Definition declared_threshold (mu : reducedMass RNum) (t : option (quantity RNum)) : R :=
  match t with
  | None => 0
  | Some (QEnergy e) => e
  | Some (QVelocity w) => rm_value mu * w ^ 2 / 2
  end.

(** [s] is the cross section of class object [c] at speed [v]. *)
Definition sigma_is (K : R) (c : xsec RNum) (v s : R) : Prop := sigma (N:=RNum) K c v = Ok s.

(** [M] bounds speed times cross section for all speeds in (0,V] (in particular the
    cross section is defined there). *)
Definition sv_bound (K : R) (c : xsec RNum) (V M : R) : Prop :=
  forall v, 0 < v <= V -> exists s, sigma_is K c v s /\ v * s <= M.

(** Tables: strictly increasing speeds, non-negative values. *)
Fixpoint increasing (t : list (R * R)) : Prop :=
  match t with
  | [] => True
  | x :: t' => match t' with [] => True | y :: _ => fst x < fst y /\ increasing t' end
  end.
Definition nonneg_values (t : list (R * R)) : Prop := Forall (fun x => 0 <= snd x) t.

(** Neighbouring entries of a table. *)
Definition neighbours (t : list (R * R)) (e f : R * R) : Prop :=
  exists l r, t = l ++ e :: f :: r.

(** The straight line through two points. *)
Definition line (e f : R * R) (v : R) : R :=
  snd e + (snd f - snd e) * (v - fst e) / (fst f - fst e).

(** Diameter of the hard sphere with a given cross section, and conversely. *)
Definition diameter (s : R) : R := 2 * R_sqrt.sqrt (s / PI).
Definition sphere (d : R) : R := PI * d ^ 2 / 4.

(** Physical parameters of a Lotz subshell. *)
Definition lotz_ok (p : lotzPar RNum) : Prop :=
  0 < lz_P p /\ 0 < lz_beta p /\ 0 <= lz_a p /\ 0 <= lz_q p /\ 0 <= lz_b p <= 1 /\ 0 <= lz_c p.

(** What a table means as a function of speed: [tab_gives t v s] when [s] is the value at a
    node, on the line between neighbours, or 0 below the first entry. *)
Definition tab_gives (t : list (R * R)) (v s : R) : Prop :=
  In (v, s) t \/
  (exists e f, neighbours t e f /\ fst e < v < fst f /\ s = line e f v) \/
  (exists x r, t = x :: r /\ v < fst x /\ s = 0).

(** Mean slope, in the squared speed, over the last three entries. *)
Definition mean_slope (d0 d1 d2 : R * R) : R :=
  ((snd d1 - snd d0) / (fst d1 ^ 2 - fst d0 ^ 2) + (snd d2 - snd d1) / (fst d2 ^ 2 - fst d1 ^ 2)) / 2.

(** Tables for which a decreasing tail can be fitted. *)
Definition fittable (t : list (R * R)) : Prop :=
  exists l d0 d1 d2, t = l ++ [d0; d1; d2] /\ snd d2 <> 0 /\ 0 < snd d1 /\ mean_slope d0 d1 d2 < 0.

(** The speed a table row denotes. *)
Definition row_speed (mu : reducedMass RNum) (q : quantity RNum) : R :=
  match q with QVelocity v => v | QEnergy e => R_sqrt.sqrt (2 * e / rm_value mu) end.

(** [s] is the value of the first row with speed [v]. *)
Definition first_row (mu : reducedMass RNum) (rows : list (quantity RNum * R)) (v s : R) : Prop :=
  exists l q r, rows = l ++ (q, s) :: r /\ row_speed mu q = v /\
    Forall (fun x => row_speed mu (fst x) <> v) l.

(** The grid of an averaged-diameter table. *)
Definition grid (vmax dv : R) (k : nat) : R := vmax + dv / 2 - INR k * dv.
