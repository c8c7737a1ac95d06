(** Equation terms: src/chimp/interaction/Term.h, Input.h and the term part of
    Equation.h / Equation.cpp. *)
From Coq Require Import String List ZArith Bool.
From Verif Require Import Base.
Import ListNotations.
Local Open Scope Z_scope.

(** Term.h 44-156: species index, multiplicity, per-copy sources and operations.
    [int] is unbounded here (no overflow of species indices or multiplicities). *)
Record term := mkTerm {
  t_species : Z;
  t_n : Z;
  t_from : list Z;
  t_ops : list string
}.

(** Term.h 137-141: constructor Term(species, n); callers pass n >= 0. *)
Definition term_sn (species n : Z) : term :=
  mkTerm species n (repeat (-1) (Z.to_nat n)) (repeat ""%string (Z.to_nat n)).

(** Term.h 144-156: constructor Term(species, from, product_ops, n); throws unless
    the lengths equal n. *)
Definition term_full (species : Z) (from : list Z) (ops : list string) (n : Z) : outcome term :=
  if (negb (n =? Z.of_nat (length from)) || negb (n =? Z.of_nat (length ops)))%bool
  then Throw ExnRuntime
  else Ok (mkTerm species n from ops).

(** Term.h 144-149 with all defaults but the species. *)
Definition term_sp (species : Z) : term := mkTerm species 1 [-1] [""%string].

Definition listZ_eqb (a b : list Z) : bool := if list_eq_dec Z.eq_dec a b then true else false.
Definition liststr_eqb (a b : list string) : bool := if list_eq_dec string_dec a b then true else false.

(** Term.h 205-209: operator== (product_ops are not compared). *)
Definition term_eqb (l r : term) : bool :=
  (t_species l =? t_species r) && (t_n l =? t_n r) && listZ_eqb (t_from l) (t_from r).

(** Term.h 213-215: operator<. *)
Definition term_ltb (l r : term) : bool :=
  (t_species l <? t_species r) || ((t_species l =? t_species r) && (t_n l <? t_n r)).

(** Term.h 218-222: operator!=. *)
Definition term_neqb (l r : term) : bool :=
  negb (t_species l =? t_species r) || negb (t_n l =? t_n r) || negb (listZ_eqb (t_from l) (t_from r)).

(** Term.h 227-233, 250-261: sum of multiplicities in [unsigned int]. *)
Definition u32 (z : Z) : Z := z mod 4294967296.
Definition countComponents (l : list term) : Z :=
  fold_left (fun s t => u32 (s + t_n t)) l 0.

(** Term.h 235-244, 264-275. *)
Definition hasExpressions (l : list term) : bool :=
  existsb (fun t => existsb (fun s => negb (String.eqb s "")) (t_ops t)) l.

(** Input.h 49-65. *)
Record input := mkInput { in_A : term; in_B : term }.

(** Input.h 92-94: operator<. *)
Definition input_ltb (l r : input) : bool :=
  term_ltb (in_A l) (in_A r) || (term_eqb (in_A l) (in_A r) && term_ltb (in_B l) (in_B r)).

(** Equation.cpp 168-201: getTermForProduct ([unsigned int] running total). *)
Fixpoint getTermForProduct_from (total : Z) (i : Z) (l : list term) : outcome term :=
  match l with
  | [] => Throw ExnRuntime
  | t :: l =>
      let total := u32 (total + t_n t) in
      if i <? total then Ok t else getTermForProduct_from total i l
  end.
Definition getTermForProduct (products : list term) (i : Z) : outcome term :=
  getTermForProduct_from 0 i products.

(** A std::set<Term> built by successive insertion: sorted by [term_ltb], an
    element equivalent to one already present is dropped. *)
Fixpoint tset_insert (t : term) (s : list term) : list term :=
  match s with
  | [] => [t]
  | x :: s' =>
      if term_ltb t x then t :: s
      else if term_ltb x t then x :: tset_insert t s'
      else s
  end.
Definition tset_of (l : list term) : list term :=
  fold_left (fun s t => tset_insert t s) l [].

(** std::set operator==: same size and pairwise [operator==]. *)
Fixpoint tlist_eqb (a b : list term) : bool :=
  match a, b with
  | [], [] => true
  | x :: a, y :: b => term_eqb x y && tlist_eqb a b
  | _, _ => false
  end.

(** Equation.cpp 204-220: isElastic. *)
Definition isElastic (A B : term) (products : list term) : bool :=
  let iterms :=
    if t_species A =? t_species B
    then tset_of [term_sn (t_species A) 2]
    else tset_of [A; B] in
  tlist_eqb iterms (tset_of products).
