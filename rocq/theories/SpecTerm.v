(** Specification vocabulary for equation terms. *)
From Coq Require Import String List ZArith Bool.
From Verif Require Import ModelTerm.
Import ListNotations.
Local Open Scope Z_scope.

(** The products written out, one entry per copy. *)
Definition expand_terms (l : list term) : list term :=
  concat (map (fun t => repeat t (Z.to_nat (t_n t))) l).

(** Multiplicities are non-negative and the total fits the code's unsigned int. *)
Definition terms_ok (l : list term) : Prop :=
  Forall (fun t => 0 <= t_n t) l /\ Z.of_nat (length (expand_terms l)) < 4294967296.

(** Strict weak order (what std::set/std::map require of a comparator). *)
Definition strict_weak_order {A} (lt : A -> A -> bool) : Prop :=
  (forall x, lt x x = false) /\
  (forall x y z, lt x y = true -> lt y z = true -> lt x z = true) /\
  (forall x y z, lt x y = false -> lt y x = false -> lt y z = false -> lt z y = false ->
                 lt x z = false /\ lt z x = false).
