(** Outcomes of modelled code and a few list utilities.

    Every modelled function that may fail returns an [outcome]: an ordinary
    value, a C++ exception, undefined behaviour or (for loops run with fuel)
    the verdict that the loop did not finish within the fuel.  None of the
    failure constructors is ever a default value. *)
From Coq Require Import List ZArith String Bool Lia.
Import ListNotations.

(** The exceptions thrown by the modelled code (one constructor per throw
    site family; texts are dropped). *)
Inductive exn : Type :=
| ExnRuntime      (* std::runtime_error *)
| ExnXml          (* xylose::xml::error and derived *)
| ExnInvalidArg   (* std::invalid_argument *)
| ExnNotFound     (* xml::no_results / too_many_results of find/query *)
| ExnLength.      (* std::length_error of std::vector *)

Inductive outcome (A : Type) : Type :=
| Ok (a : A)
| Throw (e : exn)
| UB              (* undefined behaviour *)
| Diverge.        (* out of fuel *)
Arguments Ok {A} a.
Arguments Throw {A} e.
Arguments UB {A}.
Arguments Diverge {A}.

Definition obind {A B} (x : outcome A) (f : A -> outcome B) : outcome B :=
  match x with
  | Ok a => f a
  | Throw e => Throw e
  | UB => UB
  | Diverge => Diverge
  end.

Declare Scope outcome_scope.
Delimit Scope outcome_scope with outcome.
Notation "'do' x <- a ; b" := (obind a (fun x => b))
  (at level 200, x pattern, a at level 100, b at level 200) : outcome_scope.
Open Scope outcome_scope.

(** Run a fallible function over a list, left to right. *)
Fixpoint omap {A B} (f : A -> outcome B) (l : list A) : outcome (list B) :=
  match l with
  | [] => Ok []
  | x :: l => do y <- f x; do ys <- omap f l; Ok (y :: ys)
  end.

Fixpoint ofold {A S} (f : S -> A -> outcome S) (s : S) (l : list A) : outcome S :=
  match l with
  | [] => Ok s
  | x :: l => do s' <- f s x; ofold f s' l
  end.

(** Replace position [n] of a list (no change when out of range; callers check
    the range first). *)
Fixpoint upd {A} (n : nat) (x : A) (l : list A) : list A :=
  match l, n with
  | [], _ => []
  | _ :: l, O => x :: l
  | y :: l, S n => y :: upd n x l
  end.

(** Bounds-checked vector read: out of range is undefined behaviour. *)
Definition oget {A} (l : list A) (n : nat) : outcome A :=
  match nth_error l n with Some a => Ok a | None => UB end.
