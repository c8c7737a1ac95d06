(** The runtime database: src/chimp/RuntimeDB.h, RuntimeDB.cpp. *)
From Coq Require Import String Ascii List ZArith Bool Arith.
From Verif Require Import Base Num ModelTerm ModelCollide ModelXsec ModelSet ModelEq ModelFilter.
From Coq Require Import List.
Import ListNotations.

Section DB.
Context {N : Num}.
Local Open Scope num_scope.

(** RuntimeDB.cpp 254-268: addParticleType(Properties). *)
Definition addParticle (props : list (prop N)) (p : prop N) : list (prop N) :=
  match findParticle props (pr_name p) with
  | Some _ => props
  | None => props ++ [p]
  end.

(** The document, as far as the database reads it (libxml2 and xylose's wrapper are not
    modelled): [x_particle] is find("//Particle[@name=...]") followed by
    Properties::load; [x_model] the texts //model[@name=...]/particles/P with blanks
    stripped; [x_filter] the parsed //model[@name=...]/equation-filter; [x_inter] all
    //Interaction in node order. *)
Record document := mkDoc {
  x_particle : string -> outcome (prop N);
  x_model : string -> list string;
  x_filter : string -> outcome filt;
  x_inter : xset N }.

(** RuntimeDB.cpp 232-237: addParticleType(name). *)
Definition addParticleNamed (d : document) (props : list (prop N)) (name : string)
  : outcome (list (prop N)) :=
  do p <- x_particle d name; Ok (addParticle props p).
(** RuntimeDB.cpp 271-285: addModel; the new filter replaces the old one. *)
Definition addModel (d : document) (props : list (prop N)) (name : string)
  : outcome (list (prop N) * filt) :=
  do props <- ofold (addParticleNamed d) props (x_model d name);
  do f <- x_filter d name;
  Ok (props, f).

(** std::sort by property/Comparator.h (RuntimeDB.cpp 141). *)
Fixpoint sort_insert (p : prop N) (l : list (prop N)) : list (prop N) :=
  match l with
  | [] => [p]
  | q :: l' => if prop_ltb q p then q :: sort_insert p l' else p :: l
  end.
Definition sort_props (l : list (prop N)) : list (prop N) := fold_right sort_insert [] l.

(** RuntimeDB.cpp 144-161: the list of all names and the product filter. *)
Definition name_list (props : list (prop N)) : string :=
  fold_right (fun p s => (":" ++ pr_name p ++ ":" ++ s)%string) ""%string props.
Definition known_product (props : list (prop N)) (t : xterm) : bool :=
  contains (name_list props) (":" ++ x_P t ++ ":").
Definition products_query (props : list (prop N)) (x : xinter N) : bool :=
  existsb (known_product props) (xi_out x) && forallb (known_product props) (xi_out x).

(** RuntimeDB.cpp 110-119: the terms of the left hand side. *)
Definition pair_terms (A B : nat) (nA nB : string) : list eqterm :=
  if Nat.eqb A B then eqset_of [mkET nA 2] else eqset_of [mkET nA 1; mkET nB 1].
(** RuntimeDB.cpp 121-126: interactions with a cross section, the inputs and the
    products. *)
Definition pair_query (props : list (prop N)) (A B : nat) (nA nB : string) (x : xinter N) : bool :=
  match xi_cs x with Some _ => true | None => false end &&
  match_set (pair_terms A B nA nB) (xi_in x) && products_query props x.
(** RuntimeDB.cpp 97-133 for one pair. *)
Definition pair_interactions (d : document) (f : filt) (props : list (prop N)) (A B : nat) : outcome (xset N) :=
  do pA <- oget props A;
  do pB <- oget props B;
  run_filter (x_inter d) f (set_of (List.filter (pair_query props A B (pr_name pA) (pr_name pB)) (x_inter d))).

(** The matrix of interaction sets: symmetric, upper triangle stored
    (RuntimeDB.h 154-160); one entry per pair A <= B. *)
Definition sets := list ((nat * nat) * list (equation N)).
Definition cell_key (i j : nat) : nat * nat := (Nat.min i j, Nat.max i j).
Definition key_eqb (a b : nat * nat) : bool := Nat.eqb (fst a) (fst b) && Nat.eqb (snd a) (snd b).
(** RuntimeDB.cpp 310-321: operator()(int,int), an unchecked access. *)
Fixpoint cell_find (s : sets) (k : nat * nat) : option (list (equation N)) :=
  match s with
  | [] => None
  | (k', q) :: s => if key_eqb k k' then Some q else cell_find s k
  end.
Definition cell_get (s : sets) (i j : nat) : outcome (list (equation N)) :=
  match cell_find s (cell_key i j) with Some q => Ok q | None => UB end.
(** setij.rhs.push_back(eq) *)
Definition cell_push (s : sets) (i j : nat) (q : equation N) : sets :=
  map (fun e => if key_eqb (cell_key i j) (fst e) then (fst e, snd e ++ [q]) else e) s.
(** RuntimeDB.cpp 324-351: operator()(name,name). *)
Definition cell_named (props : list (prop N)) (s : sets) (i j : string) : outcome (list (equation N)) :=
  let a := findParticleIndx props i in
  let b := findParticleIndx props j in
  if (a =? -1)%Z then Throw ExnRuntime
  else if (b =? -1)%Z then Throw ExnRuntime
  else cell_get s (Z.to_nat a) (Z.to_nat b).

(** RuntimeDB.cpp 137-184: the species are sorted, then every pair is loaded.  Only the
    first call is modelled (the matrix is empty before). *)
Definition initBinary (reg : registry N) (d : document) (f : filt) (props : list (prop N))
  : outcome (list (prop N) * sets) :=
  let props := sort_props props in
  do s <- omap (fun k => do xs <- pair_interactions d f props (fst k) (snd k);
                         do qs <- omap (load_equation reg props) xs; Ok (k, qs))
               (species_pairs (length props));
  Ok (props, s).

(** ** createMissingElasticCrossSections *)
Variables (K_B : N) (fuel : nat) (allowed : bool).

(** RuntimeDB.cpp 381-390: the effective vmax and dv. *)
Definition effective_v (dvmax ddv vmax dv : N) : N * N :=
  let vmax := if vmax <=? n0 then dvmax else vmax in
  if n0 <? vmax then
    let dv := if dv <=? n0 then ddv else dv in
    let dv := if dv <=? n0 then vmax / ofZ 100 else dv in
    (vmax, dv)
  else (vmax, dv).

(** RuntimeDB.cpp 433-459: the averaged cross section, if one can be built. *)
Definition average_cs (vmax dv : N) (c0 c1 : xsec N) (mu : reducedMass N) : outcome (option (xsec N)) :=
  if easy_label (xs_label c0) && easy_label (xs_label c1) then Ok (Some (XAvgEasy c0 c1))
  else if (n0 <? vmax) && (n0 <? dv) then
    do c <- avg_diameters K_B fuel allowed c0 c1 vmax dv mu; Ok (Some c)
  else Ok None.

(** RuntimeDB.cpp 395-476: one pair. *)
Definition create_pair (props : list (prop N)) (vmax dv : N) (st : sets * Z) (k : nat * nat)
  : outcome (sets * Z) :=
  let '(s, n) := st in
  let '(i, j) := k in
  do sii <- cell_get s i i;
  do sjj <- cell_get s j j;
  do sij <- cell_get s i j;
  if hasElastic sij then Ok (s, n) else
  match getElastic sii, getElastic sjj with
  | Some qi, Some qj =>
      if Nat.eqb i j then UB (* assert *) else
      let ei := q_core qi in
      let ej := q_core qj in
      if term_neqb (e_A ei) (e_B ei) || term_neqb (e_A ej) (e_B ej) ||
         negb (t_n (e_A ei) =? 1)%Z || negb (t_n (e_A ej) =? 1)%Z
      then Throw ExnRuntime else
      do pi <- db_get props (t_species (e_A ei));
      do pj <- db_get props (t_species (e_A ej));
      let '(A, B, pA, pB) :=
        if pr_mass pi <=? pr_mass pj then (e_A ei, e_A ej, pi, pj) else (e_A ej, e_A ei, pj, pi) in
      let mu := ReducedMass (pr_mass pA) (pr_mass pB) in
      do c <- average_cs vmax dv (q_cs qi) (q_cs qj) mu;
      match c with
      | None => Ok (s, n)
      | Some c => Ok (cell_push s i j (mkEquation (mkEq (mkInput A B) [A; B] mu) c (MElastic mu)), (n + 1)%Z)
      end
  | _, _ => Ok (s, n)
  end.

(** RuntimeDB.cpp 395-396, 478-484: the indices visited for an argument. *)
Definition requested (i : Z) (n : nat) : list nat :=
  if (0 <=? i)%Z then (if (i <? Z.of_nat n)%Z then [Z.to_nat i] else []) else seq 0 n.

(** RuntimeDB.cpp 374-488; [dvmax] and [ddv] are the database's defaults. *)
Definition createMissing (dvmax ddv : N) (props : list (prop N)) (s : sets) (i j : Z) (vmax dv : N)
  : outcome (sets * Z) :=
  let '(vmax, dv) := effective_v dvmax ddv vmax dv in
  let n := length props in
  ofold (create_pair props vmax dv) (s, 0%Z) (list_prod (requested i n) (requested j n)).
(** RuntimeDB.cpp 362-371. *)
Definition createMissingNamed (dvmax ddv : N) (props : list (prop N)) (s : sets) (i j : string) (vmax dv : N)
  : outcome (sets * Z) :=
  createMissing dvmax ddv props s (findParticleIndx props i) (findParticleIndx props j) vmax dv.

(** RuntimeDB.cpp 491-518: findAllRHSParticles; a std::set of names. *)
Fixpoint names_insert (x : string) (s : list string) : list string :=
  match s with
  | [] => [x]
  | y :: s' => if str_ltb x y then x :: s else if str_ltb y x then y :: names_insert x s' else s
  end.
Definition findAllRHSParticles (ctxs : list (xset N)) : list string :=
  fold_left (fun s t => names_insert (x_P t) s) (flat_map (fun xs => flat_map (fun x => xi_out x) xs) ctxs) [].
End DB.
Arguments document N : clear implicits.
Arguments sets N : clear implicits.
