(** Specification vocabulary for interaction filters and equation texts. *)
From Coq Require Import String Ascii List ZArith Bool Sorted.
From Verif Require Import Base Num ModelTerm ModelEq ModelFilter SpecEq.
Import ListNotations.

Section S.
Context {N : Num}.

(** A set of document nodes: ascending, hence without repetition. *)
Definition set_ok (s : list (xinter N)) : Prop :=
  StronglySorted (fun x y => xi_id x < xi_id y) s.
Definition subset (s t : list (xinter N)) : Prop := forall x, In x s -> In x t.

(** The condition an equation term puts on one side of an equation. *)
Definition term_in (xl : list xterm) (t : eqterm) : Prop :=
  q_n t = 0%Z \/
  exists x, In x xl /\ x_P x = q_name t /\
    (q_n t = 1%Z -> x_n x = None \/ x_n x = Some 1%Z) /\
    ((1 < q_n t)%Z -> x_n x = Some (q_n t)).
Definition side_matches (terms : list eqterm) (xl : list xterm) : Prop :=
  length xl = length terms /\ forall t, In t terms -> term_in xl t.

(** What a filter without sections keeps. *)
Fixpoint pointwise (f : filt) : Prop :=
  match f with
  | FSection _ _ _ => False
  | FAnd l r | FOr l r | FNot l r => pointwise l /\ pointwise r
  | _ => True
  end.
Fixpoint keeps (f : filt) (x : xinter N) : Prop :=
  match f with
  | FNull => True
  | FElastic => xi_intext x = xi_outtext x
  | FLabel l => xi_model x = Some l
  | FEqIO out terms => terms <> [] /\ side_matches terms (if out then xi_out x else xi_in x)
  | FAnd l r => keeps l x /\ keeps r x
  | FOr l r => keeps l x \/ keeps r x
  | FNot l r => keeps l x /\ ~ keeps r x
  | FSection _ _ _ => True
  end.

(** The interaction lies somewhere below /ParticleDB/<section>. *)
Definition below (section : string) (x : xinter N) : Prop :=
  exists rest, xi_path x = split_path section ++ rest.
(** Preference of an interaction: section, then standard, then the rest. *)
Definition rank (section : string) (x : xinter N) (k : nat) : Prop :=
  (below section x /\ k = 0) \/
  (~ below section x /\ below "standard" x /\ k = 1) \/
  (~ below section x /\ ~ below "standard" x /\ k = 2).
Definition text (x : xinter N) : string := eq_text (xi_in x) (xi_out x).
End S.

(** Names for which equation texts are readable: non-empty, not "+", without blanks
    and brackets. *)
Fixpoint has_char (c : ascii) (s : string) : Prop :=
  match s with EmptyString => False | String d s => c = d \/ has_char c s end.
Definition simple_name (s : string) : Prop :=
  s <> ""%string /\ s <> "+"%string /\ ~ has_char " " s /\ ~ has_char "[" s.
Definition simple_terms (l : list xterm) : Prop :=
  List.Forall (fun t => simple_name (x_P t) /\ (1 <= xt_n t < 4294967296)%Z) l.
(** Terms that agree in name, multiplicity and source reactant. *)
Definition same_term (a b : xterm) : Prop :=
  x_P a = x_P b /\ xt_n a = xt_n b /\ (xt_from a = xt_from b \/ (xt_from a < 0 /\ xt_from b < 0)%Z).
Definition same_terms (a b : list xterm) : Prop := List.Forall2 same_term a b.

(** The first term of a name in a list. *)
Definition first_term (l : list eqterm) (t : eqterm) : Prop :=
  exists l1 l2, l = l1 ++ t :: l2 /\ forall u, In u l1 -> q_name u <> q_name t.

(** The text of a side written without blanks, as XPath string() sees it:
    <T><n>2</n><P>A</P></T> is "2A". *)
Definition compact_side (l : list xterm) : string :=
  String.concat "" (map (fun t => (match x_n t with Some n => dec (Z.to_nat n) | None => "" end ++ x_P t)%string) l).
Definition compact {N} (x : xinter N) : Prop :=
  xi_intext x = compact_side (xi_in x) /\ xi_outtext x = compact_side (xi_out x).

(** ** The XML form of a filter *)
Section Write.
Variable print : Z -> string.
Definition leaf (tag text : string) : xnode := XNode tag [] [] text.
Definition write_term (t : eqterm) : xnode :=
  XNode "T" [] [leaf "n" (print (q_n t)); leaf "P" (q_name t)] "".
Fixpoint write_filter (f : filt) : xnode :=
  match f with
  | FNull => leaf "Null" ""
  | FElastic => leaf "Elastic" ""
  | FLabel l => leaf "Label" l
  | FEqIO out terms => XNode "EqIO" [("dir", if out then "out" else "in")]%string (map write_term terms) ""
  | FAnd l r => XNode "And" [] [write_filter l; write_filter r] ""
  | FOr l r => XNode "Or" [] [write_filter l; write_filter r] ""
  | FNot l r => XNode "Not" [] [write_filter l; write_filter r] ""
  | FSection s required f =>
      XNode "Section" [("name", s); ("preference", if required then "required" else "preferred")]%string [write_filter f] ""
  end.
End Write.
(** Filters an XML document can express: EqIO filters have terms, ascending in name. *)
Fixpoint expressible (f : filt) : Prop :=
  match f with
  | FEqIO _ terms => terms <> [] /\ StronglySorted (fun a b => str_ltb (q_name a) (q_name b) = true) terms
  | FAnd l r | FOr l r | FNot l r => expressible l /\ expressible r
  | FSection _ _ f => expressible f
  | _ => True
  end.
