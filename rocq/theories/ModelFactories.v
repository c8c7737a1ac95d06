(** Choice of the source particle of each product:
    src/chimp/interaction/model/detail/inelastic_helpers.cpp 60-235
    (setParticleFactories). *)
From Coq Require Import List ZArith Bool.
From Verif Require Import Base Num ModelTerm ModelCollide.
Import ListNotations.

Section Factories.
Context {N : Num}.
(** std::numeric_limits<double>::infinity() (line 66). *)
Variable inf : N.
Local Open Scope num_scope.

(** Lines 82-91: pseudo positions ri = 1-sz, 3-sz, ... with the weighted sums. *)
Fixpoint in_loop (l : list (massCharge N)) (ri : Z) (cm cq mt qt : N) (r : list N)
  : N * N * N * N * list N :=
  match l with
  | [] => (cm, cq, mt, qt, r)
  | x :: l =>
      in_loop l (ri + 2)%Z (cm + ofZ ri * mc_mass x) (cq + ofZ ri * mc_charge x)
              (mt + mc_mass x) (qt + mc_charge x) (r ++ [ofZ ri])
  end.

(** Lines 67-104: centre of mass, centre of charge and the vector r of possible
    positions. *)
Definition in_summary (mcin : list (massCharge N)) : N * N * list N :=
  let '(cm, cq, mt, qt, r) :=
    in_loop mcin (1 - Z.of_nat (length mcin))%Z n0 n0 n0 n0 [] in
  let xcm := if mt =? n0 then inf else cm / mt in
  let xcq := if qt =? n0 then inf else cq / qt in
  (xcm, xcq, r ++ [xcm; xcq]).

(** Lines 146-166: index of a reactant resembling product [i]; the last match of
    each loop wins.  Line 155 reads massChargeIn[i] with the product's index. *)
Definition match_mass (o : massCharge N) (mcin : list (massCharge N)) : Z :=
  snd (fold_left (fun '(k, s) x =>
        ((k + 1)%Z, if mc_mass o =? mc_mass x then k else s)) mcin (0%Z, 0%Z)).
Definition match_mass_charge (i : nat) (o : massCharge N) (mcin : list (massCharge N)) (s0 : Z)
  : outcome Z :=
  do (_, s) <- ofold (fun '(k, s) x =>
        if mc_mass o =? mc_mass x then
          do y <- oget mcin i;
          Ok ((k + 1)%Z, if mc_charge y =? mc_charge x then k else s)
        else Ok ((k + 1)%Z, s)) (0%Z, s0) mcin;
  Ok s.
Definition match_species (o : massCharge N) (mcin : list (massCharge N)) (s0 : Z) : Z :=
  snd (fold_left (fun '(k, s) x =>
        ((k + 1)%Z, if (mc_species o =? mc_species x)%Z then k else s)) mcin (0%Z, s0)).

(** Lines 129-176: entry for product [i] in the candidate numbered [j].
    Simplification: the code fills all candidates product by product; here each
    candidate is filled completely before the next.  Both orders fail (UB) for the
    same inputs.  A 'from' beyond r (line 133 assertion) is UB. *)
Definition cand_src (r : list N) (period : Z) (o : massCharge N) (j : Z) : Z :=
  if (0 <=? mc_from o)%Z then mc_from o else ((j / period) mod Z.of_nat (length r))%Z.
Definition cand_entry (mcin : list (massCharge N)) (r : list N) (i : nat) (period : Z)
  (o : massCharge N) (j : Z) : outcome (N * factory) :=
  let src := cand_src r period o j in
  do x <- oget r (Z.to_nat src);
  let nin := Z.of_nat (length mcin) in
  if (nin <=? src)%Z then
    do s <- match_mass_charge i o mcin (match_mass o mcin);
    let s := match_species o mcin s in
    Ok (x, mkFactory s (mc_species o) (if (src =? nin)%Z then CM else CQ))
  else Ok (x, mkFactory src (mc_species o) NOOP).

(** Lines 119-178 for one candidate: accumulated mass and charge moments and the
    factories; [rest] is the number of products after [i], base the number 2+sz. *)
Fixpoint cand_loop (mcin : list (massCharge N)) (r : list N) (base : Z) (i : nat)
  (mcout : list (massCharge N)) (j : Z) (fm fq : N) (fs : list factory)
  : outcome (N * N * list factory) :=
  match mcout with
  | [] => Ok (fm, fq, fs)
  | o :: l =>
      do (x, f) <- cand_entry mcin r i (base ^ Z.of_nat (length l))%Z o j;
      cand_loop mcin r base (S i) l j (fm + mc_mass o * x) (fq + mc_charge o * x) (fs ++ [f])
  end.

(** Lines 187-219: score of a candidate. *)
Definition cand_score (xcm xcq mt qt : N) (c : N * N * list factory) : outcome (N * list factory) :=
  let '(fm, fq, fs) := c in
  do s <- (if mt =? n0 then (if xcm =? inf then Ok n0 else Throw ExnRuntime)
           else if xcm =? inf then Throw ExnRuntime else Ok (n0 + nabs (fm / mt - xcm)));
  do s <- (if qt =? n0 then (if xcq =? inf then Ok s else Throw ExnRuntime)
           else if xcq =? inf then Throw ExnRuntime else Ok (s + nabs (fq / qt - xcq)));
  Ok (s, fs).

(** Line 226: std::map<double,...>::insert keeps the element already present when
    the keys are equivalent (also when the comparison fails both ways because one
    is NaN). *)
Fixpoint score_insert (c : N * list factory) (m : list (N * list factory))
  : list (N * list factory) :=
  match m with
  | [] => [c]
  | x :: m' =>
      if fst c <? fst x then c :: m
      else if fst x <? fst c then x :: score_insert c m'
      else m
  end.

(** Lines 60-235: result score and factories.  The number of candidates
    (2+sz)^(number of products) is converted to int (line 112): out of range is UB. *)
Definition setParticleFactories_score (mcin mcout : list (massCharge N))
  : outcome (N * list factory) :=
  let '(xcm, xcq, r) := in_summary mcin in
  let base := (2 + Z.of_nat (length mcin))%Z in
  let count := (base ^ Z.of_nat (length mcout))%Z in
  if (2147483647 <? count)%Z then UB else
  let mt := fold_left (fun s o => s + mc_mass o) mcout n0 in
  let qt := fold_left (fun s o => s + mc_charge o) mcout n0 in
  do cs <- omap (fun j => cand_loop mcin r base 0 mcout (Z.of_nat j) n0 n0 [])
                (seq 0 (Z.to_nat count));
  do ss <- omap (cand_score xcm xcq mt qt) cs;
  match fold_left (fun m c => score_insert c m) ss [] with
  | [] => UB
  | b :: _ => Ok b
  end.
Definition setParticleFactories (mcin mcout : list (massCharge N)) : outcome (list factory) :=
  do (_, fs) <- setParticleFactories_score mcin mcout; Ok fs.

End Factories.
