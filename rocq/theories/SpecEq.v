(** Specification vocabulary for species orders, term loading and equation loading. *)
From Coq Require Import String List ZArith Bool Sorted.
From Verif Require Import Base Num ModelTerm ModelEq.
Import ListNotations.

(** A strict weak order on the elements satisfying [P]. *)
Definition strict_weak_order_on {A} (P : A -> Prop) (lt : A -> A -> bool) : Prop :=
  (forall x, P x -> lt x x = false) /\
  (forall x y z, P x -> P y -> P z -> lt x y = true -> lt y z = true -> lt x z = true) /\
  (forall x y z, P x -> P y -> P z ->
     lt x y = false -> lt y x = false -> lt y z = false -> lt z y = false ->
     lt x z = false /\ lt z x = false).

(** Masses on which the machine comparisons behave like an order: comparison is a
    strict weak order and equality is its incomparability. *)
Definition mass_order {N : Num} (ok : N -> Prop) : Prop :=
  strict_weak_order_on ok (nltb (n:=N)) /\
  (forall a b : N, ok a -> ok b ->
     neqb a b = true <-> (nltb a b = false /\ nltb b a = false)).

(** Every species of the database has such a mass. *)
Definition masses_ok {N : Num} (ok : N -> Prop) (props : list (prop N)) : Prop :=
  List.Forall (fun p => ok (pr_mass p)) props.

(** Position [i] is the first species of that name. *)
Definition first_named {N : Num} (props : list (prop N)) (name : string) (i : nat) (p : prop N) : Prop :=
  nth_error props i = Some p /\ pr_name p = name /\
  forall j q, j < i -> nth_error props j = Some q -> pr_name q <> name.

Definition known {N : Num} (props : list (prop N)) (t : xterm) : Prop :=
  In (x_P t) (map (pr_name (N:=N)) props).

(** ** The terms of one side, written out *)
Definition named (name : string) (t : xterm) : bool := String.eqb name (x_P t).
(** The names, one per particle, in document order. *)
Definition expand_names (xl : list xterm) : list string :=
  concat (map (fun t => repeat (x_P t) (Z.to_nat (xt_n t))) xl).
(** The 'from' and 'ops' values of one species, one per particle, in document order. *)
Definition froms_of (xl : list xterm) (name : string) : list Z :=
  concat (map (fun t => repeat (xt_from t) (Z.to_nat (xt_n t))) (filter (named name) xl)).
Definition ops_of (xl : list xterm) (name : string) : list string :=
  concat (map (fun t => repeat (xt_ops t) (Z.to_nat (xt_n t))) (filter (named name) xl)).
(** Number of particles of one species, and of all. *)
Definition count_name (xl : list xterm) (name : string) : nat :=
  count_occ string_dec (expand_names xl) name.
Definition sum_n (xl : list xterm) : Z := fold_right Z.add 0%Z (map xt_n xl).

Definition nonneg (xl : list xterm) : Prop := List.Forall (fun t => (0 <= xt_n t)%Z) xl.
Definition positive (xl : list xterm) : Prop := List.Forall (fun t => (1 <= xt_n t)%Z) xl.
Definition no_from (xl : list xterm) : Prop := List.Forall (fun t => xt_from t = (-1)%Z) xl.
Definition no_ops (xl : list xterm) : Prop := List.Forall (fun t => xt_ops t = ""%string) xl.

(** Strictly ascending in (mass, name). *)
Definition ascending {N : Num} (l : list (prop N)) : Prop :=
  StronglySorted (fun a b => prop_ltb a b = true) l.

(** The species indices of a list of equation terms, one per particle. *)
Definition expand_species (l : list term) : list Z :=
  concat (map (fun t => repeat (t_species t) (Z.to_nat (t_n t))) l).

(** What loading one side must produce: one entry per distinct species, ascending in
    (mass, name), each with its number of particles and the per-particle data. *)
Definition entry_of {N : Num} (props : list (prop N)) (xl : list xterm) (e : (nat * prop N) * tinfo) : Prop :=
  let name := pr_name (snd (fst e)) in
  first_named props name (fst (fst e)) (snd (fst e)) /\
  snd e = mkTI (Z.of_nat (count_name xl name)) (froms_of xl name) (ops_of xl name).
Definition term_map_of {N : Num} (props : list (prop N)) (xl : list xterm) (m : tmap N) : Prop :=
  ascending (map (fun e => snd (fst e)) m) /\
  (forall name, In name (map (fun e => pr_name (snd (fst e))) m) <-> In name (map x_P xl)) /\
  List.Forall (entry_of props xl) m.

(** A product term as loaded from the terms [xl]. *)
Definition product_of {N : Num} (props : list (prop N)) (xl : list xterm) (t : term) : Prop :=
  exists i p, first_named props (pr_name p) i p /\ In (pr_name p) (map x_P xl) /\
    t = mkTerm (Z.of_nat i) (Z.of_nat (count_name xl (pr_name p)))
               (froms_of xl (pr_name p)) (ops_of xl (pr_name p)).

(** Both sides have the same species, with the same numbers and per-particle data. *)
Definition sides_agree (xin xout : list xterm) : Prop :=
  (forall x, In x (map x_P xin) <-> In x (map x_P xout)) /\
  (forall x, count_name xin x = count_name xout x /\ froms_of xin x = froms_of xout x /\ ops_of xin x = ops_of xout x).

(** Inputs whose 'from' data are those of a fresh Term(species). *)
Definition plain_input (i : input) : Prop := t_from (in_A i) = repeat (-1)%Z (Z.to_nat (t_n (in_A i))).
