(** Property lists, option sets, thermal speeds, the example's cell data, and the
    initialisation of a database with automatic elastic cross sections. *)
From Coq Require Import String List ZArith Bool Arith.
From Verif Require Import Base Num ModelTerm ModelCollide ModelXsec ModelSet ModelEq ModelFilter ModelDB.
From Coq Require Import List.
Import ListNotations.

(** ** Property lists: src/chimp/property/detail/list.h, aggregate.h *)

(** The types the metafunctions compute with: a property (identified by its name),
    detail::Null and List<P,L> (list.h 36-85). *)
Inductive ptype :=
| PLeaf (name : string)
| PNull
| PList (P L : ptype).

(** list.h 99-125: Concat<a, List<...>>, with b the list: the cases
    <List<P0,Null>, List>, <List<P0,L0>, List> and <P0, List>. *)
Fixpoint pconcat_list (a b : ptype) : ptype :=
  match a with
  | PList P0 PNull => PList P0 b
  | PList P0 L0 => PList P0 (pconcat_list L0 b)
  | P0 => PList P0 b
  end.
(** list.h 94-125: Concat; the most specialised case of the table. *)
Definition pconcat (a b : ptype) : ptype :=
  match a, b with
  | _, PList _ _ => pconcat_list a b
  | PList _ _, PNull => a
  | PList _ _, _ => pconcat_list a (PList b PNull)
  | _, _ => PList a b
  end.
(** aggregate.h 39-72: Aggregate<T0, rest>, the unused arguments being Null; the
    limit of 25 arguments is not modelled. *)
Definition is_null (t : ptype) : bool := match t with PNull => true | _ => false end.
Fixpoint aggregate (T0 : ptype) (rest : list ptype) : ptype :=
  match rest with
  | [] => pconcat T0 PNull
  | T1 :: rest' => if forallb is_null rest then pconcat T0 PNull else pconcat T0 (aggregate T1 rest')
  end.

(** list.h 43-77: print and load, for given print and load functions of the single
    properties (define.h 64-79).  [None]: does not compile, since Null has neither. *)
Fixpoint list_print (pr : string -> string) (t : ptype) : option string :=
  match t with
  | PLeaf n => Some (pr n)
  | PNull => None
  | PList P PNull => list_print pr P
  | PList P L =>
      match list_print pr P, list_print pr L with
      | Some a, Some b => Some (a ++ b)%string
      | _, _ => None
      end
  end.
(** The loaded object as the list of its members with their values. *)
Fixpoint list_load {V} (ld : string -> outcome V) (t : ptype) : option (outcome (list (string * V))) :=
  match t with
  | PLeaf n => Some (do v <- ld n; Ok [(n, v)])
  | PNull => None
  | PList P PNull => list_load ld P
  | PList P L =>
      match list_load ld P, list_load ld L with
      | Some a, Some b => Some (do x <- a; do y <- b; Ok (x ++ y))
      | _, _ => None
      end
  end.
(** define.h 64-66, 69-79: one property's printer and loader; [query] is the xml
    context's query (with unit check), None when the node has no such entry. *)
Definition prop_print (sep value name : string) : string := (name ++ ": " ++ value ++ sep)%string.
Definition prop_load {V} (required : bool) (default : V) (query : option (outcome V)) : outcome V :=
  match query with
  | Some v => v
  | None => if required then Throw ExnNotFound else Ok default
  end.

(** ** Option sets: src/chimp/make_options.h 101-226 *)
Section Options.
Variables (ParticleT PropertiesT RngT : Type).
Record options := mkOptions {
  o_Particle : ParticleT;
  o_Properties : PropertiesT;
  o_inplace : bool;
  o_auto_elastic : bool;
  o_RNG : RngT;
  o_extrapolation : bool }.
(** make_options.h 101-109: the defaults. *)
Definition default_options (p : ParticleT) (q : PropertiesT) (r : RngT) : options :=
  mkOptions p q true false r true.
Inductive modifier :=
| setParticle (t : ParticleT)
| setProperties (t : PropertiesT)
| setInplaceInteractions (b : bool)
| setAutoCreateMissingElastic (b : bool)
| setRNG (t : RngT)
| setCrossSectionExtrapolAllowed (b : bool).
(** make_options.h 141-222. *)
Definition modify (o : options) (m : modifier) : options :=
  match m with
  | setParticle t =>
      mkOptions t (o_Properties o) (o_inplace o) (o_auto_elastic o) (o_RNG o) (o_extrapolation o)
  | setProperties t =>
      mkOptions (o_Particle o) t (o_inplace o) (o_auto_elastic o) (o_RNG o) (o_extrapolation o)
  | setInplaceInteractions b =>
      mkOptions (o_Particle o) (o_Properties o) b (o_auto_elastic o) (o_RNG o) (o_extrapolation o)
  | setAutoCreateMissingElastic b =>
      mkOptions (o_Particle o) (o_Properties o) (o_inplace o) b (o_RNG o) (o_extrapolation o)
  | setRNG t =>
      mkOptions (o_Particle o) (o_Properties o) (o_inplace o) (o_auto_elastic o) t (o_extrapolation o)
  | setCrossSectionExtrapolAllowed b =>
      mkOptions (o_Particle o) (o_Properties o) (o_inplace o) (o_auto_elastic o) (o_RNG o) b
  end.
End Options.
Arguments mkOptions {_ _ _}. Arguments o_Particle {_ _ _}. Arguments o_Properties {_ _ _}.
Arguments o_inplace {_ _ _}. Arguments o_auto_elastic {_ _ _}. Arguments o_RNG {_ _ _}.
Arguments o_extrapolation {_ _ _}. Arguments default_options {_ _ _}. Arguments modify {_ _ _}.
Arguments setParticle {_ _ _}. Arguments setProperties {_ _ _}. Arguments setInplaceInteractions {_ _ _}.
Arguments setAutoCreateMissingElastic {_ _ _}. Arguments setRNG {_ _ _}. Arguments setCrossSectionExtrapolAllowed {_ _ _}.

Section Numeric.
Context {N : Num}.
Local Open Scope num_scope.

(** ** Thermal speeds: src/chimp/interaction/v_rel_fnc.h *)
(** v_rel_fnc.h 47-51. *)
Definition avg_v_rel (K_B T mu : N) : N := nsqrt (ofZ 4 * K_B * T / (npi * mu)).
(** v_rel_fnc.h 61-65. *)
Definition calcStdVFromT (K_B T mu : N) : N := nsqrt (nquot 3 2 * K_B * T / mu).
(** v_rel_fnc.h 76, 81-83. *)
Definition estMaxVFromStdV (s : N) : N := ofZ 3 * s.

(** ** The example simulation's cell: examples/simtest *)
(** cellMeasurements.h 57-63: one particle's velocity enters the extrema. *)
Definition vmin2 (a b : vec N) : vec N := V3 (nmin (vx a) (vx b)) (nmin (vy a) (vy b)) (nmin (vz a) (vz b)).
Definition vmax2 (a b : vec N) : vec N := V3 (nmax (vx a) (vx b)) (nmax (vy a) (vy b)) (nmax (vz a) (vz b)).
(** cellMeasurements.h 47-64: v_min and v_max of one species. *)
Definition cell_extrema (vs : list (vec N)) : vec N * vec N :=
  fold_left (fun d v => (vmin2 (fst d) v, vmax2 (snd d) v)) vs (vzero, vzero).
(** Cell.h 106-116. *)
Definition maxRelativeVelocity (A B : vec N * vec N) : N :=
  nmax (vabs (vsub (snd A) (fst B))) (vabs (vsub (snd B) (fst A))).

(** ** RuntimeDB.cpp 137-184: initBinaryInteractions with the option
    auto_create_missing_elastic; createMissingElasticCrossSections() is called with its
    default arguments (RuntimeDB.h 365-368). *)
Definition initBinaryOpt (K_B : N) (fuel : nat) (allowed auto : bool) (dvmax ddv : N)
    (reg : registry N) (d : document N) (f : filt) (props : list (prop N)) : outcome (list (prop N) * sets N) :=
  do r <- initBinary reg d f props;
  if auto then
    do t <- createMissing K_B fuel allowed dvmax ddv (fst r) (snd r) (-1) (-1) n0 n0;
    Ok (fst r, fst t)
  else Ok r.
End Numeric.
