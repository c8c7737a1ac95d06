(** Time steps that are not positive. *)
From Coq Require Import List ZArith.
From Flocq Require Import IEEE754.BinarySingleNaN.
From Verif Require Import Base Num.
From Coq Require Import List.

(** A number above zero, infinity included. *)
Definition fpos (x : binary64) : Prop := Bltb (fofZ 0) x = true.
