(** A second initialisation of a runtime database. *)
From Coq Require Import String List ZArith Bool Arith.
From Verif Require Import Base Num ModelTerm ModelCollide ModelXsec ModelSet ModelEq ModelFilter ModelDB.
From Coq Require Import List.
Import ListNotations.

Section More.
Context {N : Num}.

(** RuntimeDB.cpp 137-184 when the matrix already holds the sets [s] of the same number
    of species: resize() to the same size keeps them and the equations are pushed back
    again.  (Resizing the packed matrix to another size is not modelled.) *)
Definition initBinaryAgain (reg : registry N) (d : document N) (f : filt) (props : list (prop N)) (s : sets N)
  : outcome (list (prop N) * sets N) :=
  let props := sort_props props in
  do t <- omap (fun k => do xs <- pair_interactions d f props (fst k) (snd k);
                         do qs <- omap (load_equation reg props) xs;
                         Ok (k, match cell_find s k with Some q => q ++ qs | None => qs end))
               (species_pairs (length props));
  Ok (props, t).
End More.
