(** Interaction filters: src/chimp/interaction/filter/, and the equation text of
    interaction/Equation.h. *)
From Coq Require Import String Ascii List ZArith Bool Arith DecimalString.
From Verif Require Import Base Num ModelTerm ModelCollide ModelXsec ModelSet ModelEq.
From Coq Require Import List.
Import ListNotations.

(** operator<<(ostream, unsigned). *)
Definition dec (n : nat) : string := NilZero.string_of_uint (Nat.to_uint n).

(** Equation.h 54-76: formatUniqueEqTerms.  A negative n wraps to unsigned. *)
Definition term_text (t : xterm) : string :=
  let n := u32 (xt_n t) in
  ((if (1 <? n)%Z then dec (Z.to_nat n) ++ " " else "") ++ x_P t ++
   (if (0 <=? xt_from t)%Z then "[" ++ dec (Z.to_nat (xt_from t)) ++ "]" else ""))%string.
Definition terms_text (l : list xterm) : string := String.concat " + " (map term_text l).
(** Equation.h 80-85: formatUniqueEqString. *)
Definition eq_text (xin xout : list xterm) : string :=
  (terms_text xin ++ "  -->  " ++ terms_text xout)%string.

(** EqIO.h 44-62: EqTerm; n < 0 is the wildcard. *)
Record eqterm := mkET { q_name : string; q_n : Z }.
(** EqIO.h 77-82: std::set<EqTerm> under the order by name; insert keeps an element
    already present. *)
Fixpoint eqset_insert (t : eqterm) (s : list eqterm) : list eqterm :=
  match s with
  | [] => [t]
  | x :: s' =>
      if str_ltb (q_name t) (q_name x) then t :: s
      else if str_ltb (q_name x) (q_name t) then x :: eqset_insert t s'
      else s
  end.
Definition eqset_of (l : list eqterm) : list eqterm := fold_left (fun s t => eqset_insert t s) l [].
(** EqIO.h 150-166: the constructor from up to three terms. *)
Definition eqset_three (A B C : eqterm) : list eqterm :=
  eqset_of (filter (fun t => negb (q_n t =? 0)%Z) [A; B; C]).

(** EqIO.h 99-111: one step T[string(P)='name' and ...]/.. of the query; number(n) of a
    missing n is NaN and string(n) is empty. *)
Definition match_term (t : eqterm) (x : xterm) : bool :=
  String.eqb (x_P x) (q_name t) &&
  (if (q_n t =? 1)%Z then match x_n x with None => true | Some n => (n =? 1)%Z end
   else if (1 <? q_n t)%Z then match x_n x with None => false | Some n => (n =? q_n t)%Z end
   else true).
(** EqIO.h 90-117: getXpathQuery as a predicate on the terms of the side.  Names with
    quotes (which break the query) are not modelled. *)
Definition match_set (set : list eqterm) (xl : list xterm) : bool :=
  Nat.eqb (length xl) (length set) &&
  forallb (fun t => (q_n t =? 0)%Z || existsb (match_term t) xl) set.

(** The filters: Null.h, Elastic.h, Label.h, EqIO.h ([out] selects OUT), And.h, Or.h,
    Not.h, Section.h. *)
Inductive filt :=
| FNull
| FElastic
| FLabel (label : string)
| FEqIO (out : bool) (terms : list eqterm)
| FAnd (l r : filt)
| FOr (l r : filt)
| FNot (pos neg : filt)
| FSection (section : string) (required : bool) (f : filt).

(** The steps of a section name relative to /ParticleDB: element names separated by
    '/'.  Other XPath expressions are not modelled. *)
Fixpoint split_path_from (acc : string) (s : string) : list string :=
  match s with
  | EmptyString => [acc]
  | String c s => if Ascii.eqb c "/"%char then acc :: split_path_from "" s
                  else split_path_from (acc ++ String c "") s
  end.
Definition split_path (s : string) : list string := split_path_from "" s.
Fixpoint path_prefix (a b : list string) : bool :=
  match a, b with
  | [], _ => true
  | x :: a, y :: b => String.eqb x y && path_prefix a b
  | _ :: _, [] => false
  end.

Section Filter.
Context {N : Num}.

(** xml::Context::set: a std::set of nodes, as a list ascending in the node identity. *)
Definition xset := list (xinter N).
Fixpoint set_insert (x : xinter N) (s : xset) : xset :=
  match s with
  | [] => [x]
  | y :: s' =>
      if Nat.ltb (xi_id x) (xi_id y) then x :: s
      else if Nat.ltb (xi_id y) (xi_id x) then y :: set_insert x s'
      else s
  end.
Definition set_of (l : list (xinter N)) : xset := fold_left (fun s x => set_insert x s) l [].
(** std::set::find. *)
Definition set_mem (x : xinter N) (s : xset) : bool := existsb (fun y => Nat.eqb (xi_id x) (xi_id y)) s.

(** std::set_intersection, set_union, set_difference: the merge loops. *)
Fixpoint merge_inter (a : xset) : xset -> xset :=
  match a with
  | [] => fun _ => []
  | x :: a' => fix go (b : xset) : xset :=
      match b with
      | [] => []
      | y :: b' =>
          if Nat.ltb (xi_id x) (xi_id y) then merge_inter a' b
          else if Nat.ltb (xi_id y) (xi_id x) then go b'
          else x :: merge_inter a' b'
      end
  end.
Fixpoint merge_union (a : xset) : xset -> xset :=
  match a with
  | [] => fun b => b
  | x :: a' => fix go (b : xset) : xset :=
      match b with
      | [] => x :: a'
      | y :: b' =>
          if Nat.ltb (xi_id x) (xi_id y) then x :: merge_union a' b
          else if Nat.ltb (xi_id y) (xi_id x) then y :: go b'
          else x :: merge_union a' b'
      end
  end.
Fixpoint merge_diff (a : xset) : xset -> xset :=
  match a with
  | [] => fun _ => []
  | x :: a' => fix go (b : xset) : xset :=
      match b with
      | [] => x :: a'
      | y :: b' =>
          if Nat.ltb (xi_id x) (xi_id y) then x :: merge_diff a' b
          else if Nat.ltb (xi_id y) (xi_id x) then go b'
          else merge_diff a' b'
      end
  end.

(** Base.h 70-80: the elements with a non-empty result of xpath_query + "/Eq". *)
Definition query_filter (p : xinter N -> bool) (s : xset) : xset :=
  fold_left (fun r x => if p x then set_insert x r else r) s [].

(** Elastic.h 63-65, Label.h 55-57, EqIO.h 178-181.  The query of an empty EqIO is
    "/Eq", which looks for a root element Eq. *)
Definition elastic_query (x : xinter N) : bool := String.eqb (xi_intext x) (xi_outtext x).
Definition label_query (l : string) (x : xinter N) : bool :=
  match xi_model x with Some m => String.eqb m l | None => false end.
Definition eqio_query (out : bool) (terms : list eqterm) (x : xinter N) : bool :=
  match terms with
  | [] => false
  | _ => match_set terms (if out then xi_out x else xi_in x)
  end.

(** The set of /ParticleDB/<section>//Interaction (Section.h 106-112, 122-128); [doc]
    are all //Interaction of the document. *)
Variable doc : xset.
Definition in_section (s : string) (x : xinter N) : bool := path_prefix (split_path s) (xi_path x).
Definition section_set (s : string) : xset := set_of (List.filter (in_section s) doc).

(** detail/EqPair.h 36-48: slots of an equation text. *)
Record eqslots := mkES { es_matched : option (xinter N); es_standard : option (xinter N); es_unmatched : option (xinter N) }.
Definition eqmap := list (string * eqslots).
(** std::map::operator[] and the assignment to one slot. *)
Fixpoint eqmap_set (k : string) (f : eqslots -> eqslots) (m : eqmap) : eqmap :=
  match m with
  | [] => [(k, f (mkES None None None))]
  | (k', e) :: m' =>
      if str_ltb k k' then (k, f (mkES None None None)) :: m
      else if str_ltb k' k then (k', e) :: eqmap_set k f m'
      else (k', f e) :: m'
  end.
(** Section.h 133-145. *)
Definition section_step (section : string) (m : eqmap) (x : xinter N) : eqmap :=
  let text := eq_text (xi_in x) (xi_out x) in
  if set_mem x (section_set section) then eqmap_set text (fun e => mkES (Some x) (es_standard e) (es_unmatched e)) m
  else if set_mem x (section_set "standard") then eqmap_set text (fun e => mkES (es_matched e) (Some x) (es_unmatched e)) m
  else eqmap_set text (fun e => mkES (es_matched e) (es_standard e) (Some x)) m.
(** Section.h 147-162; the assertion is UB. *)
Definition section_pick (e : eqslots) : outcome (xinter N) :=
  match es_matched e, es_standard e, es_unmatched e with
  | Some x, _, _ => Ok x
  | None, Some x, _ => Ok x
  | None, None, Some x => Ok x
  | None, None, None => UB
  end.

(** filter(in) of each class. *)
Fixpoint run_filter (f : filt) (s : xset) : outcome xset :=
  match f with
  | FNull => Ok s
  | FElastic => Ok (query_filter elastic_query s)
  | FLabel l => Ok (query_filter (label_query l) s)
  | FEqIO out terms => Ok (query_filter (eqio_query out terms) s)
  | FAnd l r => do a <- run_filter l s; do b <- run_filter r s; Ok (merge_inter a b)
  | FOr l r => do a <- run_filter l s; do b <- run_filter r s; Ok (merge_union a b)
  | FNot l r => do a <- run_filter l s; do b <- run_filter r s; Ok (merge_diff a b)
  | FSection section required f =>
      if String.eqb section "" then Ok s else
      do fs <- run_filter f s;
      if Nat.eqb (length fs) 0 then Ok fs
      else if required then Ok (merge_inter fs (section_set section))
      else
        do l <- omap (fun e => section_pick (snd e)) (fold_left (section_step section) fs []);
        Ok (set_of l)
  end.
End Filter.
Arguments xset N : clear implicits.

(** ** Loading filters from XML *)

(** An element: tag, attributes, child elements, text. *)
Inductive xnode := XNode (tag : string) (attrs : list (string * string)) (children : list xnode) (text : string).
Definition tag_of (x : xnode) := let 'XNode t _ _ _ := x in t.
Definition attrs_of (x : xnode) := let 'XNode _ a _ _ := x in a.
Definition children_of (x : xnode) := let 'XNode _ _ c _ := x in c.
Definition text_of (x : xnode) := let 'XNode _ _ _ t := x in t.
Fixpoint assoc (k : string) (l : list (string * string)) : option string :=
  match l with
  | [] => None
  | (k', v) :: l => if String.eqb k k' then Some v else assoc k l
  end.

(** xylose::tolower on ASCII. *)
Definition lower (c : ascii) : ascii :=
  let n := nat_of_ascii c in
  if (65 <=? n)%nat && (n <=? 90)%nat then ascii_of_nat (n + 32) else c.
Fixpoint tolower (s : string) : string :=
  match s with EmptyString => EmptyString | String c s => String (lower c) (tolower s) end.
(** std::string::find != npos and XPath contains(). *)
Fixpoint contains (s t : string) : bool :=
  String.prefix t s || match s with EmptyString => false | String _ s => contains s t end.

(** query<T>("c") with one child element of that name (other counts throw). *)
Definition child_text (x : xnode) (c : string) : outcome (option string) :=
  match List.filter (fun y => String.eqb (tag_of y) c) (children_of x) with
  | [] => Ok None
  | [y] => Ok (Some (text_of y))
  | _ => Throw ExnNotFound
  end.

Section Load.
(** The conversion of text to int. *)
Variable to_int : string -> outcome Z.
(** EqIO.h 65-68. *)
Definition load_eqterm (x : xnode) : outcome eqterm :=
  do p <- child_text x "P";
  do n <- child_text x "n";
  match p with
  | None => Throw ExnNotFound
  | Some p => match n with
              | None => Ok (mkET p 1)
              | Some s => do n <- to_int s; Ok (mkET p n)
              end
  end.

(** Base.cpp 52-68 (names), Base.h 122-129 (lookup), and the loaders: And.h 66-80,
    Or.h 66-80, Not.h 67-81, Null.h 57-59, EqIO.h 195-219, Label.h 68-70,
    Section.h 179-201, Elastic.h 91-93. *)
Fixpoint load_filter (x : xnode) : outcome filt :=
  let 'XNode tag attrs children text := x in
  if String.eqb tag "Or" then
    match children with
    | [a; b] => do l <- load_filter a; do r <- load_filter b; Ok (FOr l r)
    | _ => Throw ExnXml
    end
  else if String.eqb tag "And" then
    match children with
    | [a; b] => do l <- load_filter a; do r <- load_filter b; Ok (FAnd l r)
    | _ => Throw ExnXml
    end
  else if String.eqb tag "Not" then
    match children with
    | [a; b] => do l <- load_filter a; do r <- load_filter b; Ok (FNot l r)
    | _ => Throw ExnXml
    end
  else if String.eqb tag "Null" then Ok FNull
  else if String.eqb tag "EqIO" then
    match assoc "dir" attrs with
    | None => Throw ExnNotFound
    | Some d =>
        do out <- (if String.eqb (tolower d) "in" then Ok false
                   else if String.eqb (tolower d) "out" then Ok true else Throw ExnXml);
        match children with
        | [] => Throw ExnXml
        | _ => do terms <- omap load_eqterm children; Ok (FEqIO out (eqset_of terms))
        end
    end
  else if String.eqb tag "Label" then Ok (FLabel text)
  else if String.eqb tag "Section" then
    let section := match assoc "name" attrs with Some s => s | None => "standard"%string end in
    let required := contains (tolower (match assoc "preference" attrs with Some s => s | None => "preferred"%string end)) "required" in
    match children with
    | [] => Ok (FSection section required FNull)
    | [c] => do f <- load_filter c; Ok (FSection section required f)
    | _ => Throw ExnXml
    end
  else if String.eqb tag "Elastic" then Ok FElastic
  else Throw ExnInvalidArg.

(** Base.cpp 77-91: <equation-filter>. *)
Definition load_equation_filter (x : xnode) : outcome filt :=
  match children_of x with
  | [] => Ok FNull
  | [c] => load_filter c
  | _ => Throw ExnXml
  end.
End Load.
