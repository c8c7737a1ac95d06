(** What a filter element of an XML document means (C65), and required properties (C61). *)
From Coq Require Import String List ZArith Sorted.
From Verif Require Import Base Num ModelTerm ModelEq ModelFilter SpecFilter.
From Coq Require Import List.
Import ListNotations.
Local Open Scope string_scope.
Local Open Scope list_scope.

(** The (first) value of an attribute, and its value or a default. *)
Definition attr (k : string) (l : list (string * string)) (v : string) : Prop :=
  exists l1 l2, l = l1 ++ (k, v) :: l2 /\ ~ In k (map fst l1).
Definition attr_or (k d : string) (l : list (string * string)) (v : string) : Prop :=
  attr k l v \/ (~ In k (map fst l) /\ v = d).
(** The text of the only child of a name, and absence of such a child. *)
Definition only_child (x : xnode) (c t : string) : Prop :=
  exists l1 y l2, children_of x = l1 ++ y :: l2 /\ tag_of y = c /\ text_of y = t /\
    (forall z, In z (l1 ++ l2) -> tag_of z <> c).
Definition no_child (x : xnode) (c : string) : Prop := forall z, In z (children_of x) -> tag_of z <> c.

Section Meaning.
Variable to_int : string -> outcome Z.
(** <T><P>name</P><n>count</n></T>; the count is 1 when it is not written. *)
Definition term_means (x : xnode) (t : eqterm) : Prop :=
  only_child x "P" (q_name t) /\
  ((no_child x "n" /\ q_n t = 1%Z) \/ exists s, only_child x "n" s /\ to_int s = Ok (q_n t)).

Inductive means : xnode -> filt -> Prop :=
| Means_Or : forall a s l r x y, means l x -> means r y -> means (XNode "Or" a [l; r] s) (FOr x y)
| Means_And : forall a s l r x y, means l x -> means r y -> means (XNode "And" a [l; r] s) (FAnd x y)
| Means_Not : forall a s l r x y, means l x -> means r y -> means (XNode "Not" a [l; r] s) (FNot x y)
| Means_Null : forall a c s, means (XNode "Null" a c s) FNull
| Means_Elastic : forall a c s, means (XNode "Elastic" a c s) FElastic
| Means_Label : forall a c s, means (XNode "Label" a c s) (FLabel s)
| Means_EqIO : forall a c s d (out : bool) ts terms, attr "dir" a d -> tolower d = (if out then "out" else "in") ->
    c <> [] -> Forall2 term_means c ts ->
    StronglySorted (fun a b => str_ltb (q_name a) (q_name b) = true) terms ->
    (forall t, In t terms <-> first_term ts t) ->
    means (XNode "EqIO" a c s) (FEqIO out terms)
| Means_Section : forall a c s name pref (req : bool) f, attr_or "name" "standard" a name -> attr_or "preference" "preferred" a pref ->
    (req = true <-> exists u v, tolower pref = (u ++ "required" ++ v)%string) ->
    (c = [] /\ f = FNull) \/ (exists e, c = [e] /\ means e f) ->
    means (XNode "Section" a c s) (FSection name req f).
End Meaning.
