(** Specification vocabulary for the process-wide calculator. *)
From Coq Require Import String List ZArith.
From Verif Require Import Base ModelEq ModelCalc.
From Coq Require Import List.
Import ListNotations.

Section SpecCalc.
Context {S : Type}.
Implicit Types (t : symtab S).

(** Commands executed one after the other, up to the first that throws. *)
Inductive executed (exec : symtab S -> string -> symtab S * bool) : symtab S -> list string -> symtab S -> bool -> Prop :=
| ex_done t : executed exec t [] t true
| ex_next t c cs t' t'' ok : exec t c = (t', true) -> executed exec t' cs t'' ok -> executed exec t (c :: cs) t'' ok
| ex_throw t c cs t' : exec t c = (t', false) -> executed exec t (c :: cs) t' false.

(** All the commands of a document. *)
Definition all_commands (d : cdoc) : list string := dc_eval d "//calc-commands/command".

(** Neither library nor commands touch the name [n]. *)
Definition leaves_alone (exec : symtab S -> string -> symtab S * bool) (n : string) : Prop :=
  forall t c, fst (exec t c) n = t n.
Definition unbound_in (lib : list (string * S)) (n : string) : Prop := ~ In n (map fst lib).

Definition not_new (e : event) : Prop := match e with ENew _ => False | _ => True end.
Definition not_ops (e : event) : Prop := match e with EOps _ => False | _ => True end.
(** No database is constructed once an equation with 'ops' was loaded. *)
Definition no_new_after_ops (es : list event) : Prop :=
  forall l1 s l2, es = l1 ++ EOps s :: l2 -> List.Forall not_new l2.

(** Every text is read with a table that satisfies [P]. *)
Definition every_text (P : symtab S -> Prop) (l : list (seen S)) : Prop :=
  List.Forall (fun s => match s with SText _ _ t => P t | SDone _ _ => True end) l.
(** The same for the 'ops' texts only; events and observations correspond one to one. *)
Definition every_ops (P : symtab S -> Prop) (es : list event) (l : list (seen S)) : Prop :=
  List.Forall2 (fun e s => match e with
    | EOps x => exists t, s = SText S x t /\ P t
    | _ => True
    end) es l.
End SpecCalc.

(** The 'ops' texts of the products of an interaction, one per product particle. *)
Definition ops_texts (xl : list xterm) : list string :=
  concat (map (fun t => repeat (xt_ops t) (Z.to_nat (xt_n t))) xl).

(** The names that 'ops' texts can use: what is read of a particle, by X, Y, Z, VX, VY, VZ,
    WEIGHT, SPECIES_CHARGE; the functions that read; the functions that set. *)
Definition ops_symbol (n : string) : Prop :=
  In n ["X"; "Y"; "Z"; "VX"; "VY"; "VZ"; "WEIGHT"; "SPECIES_CHARGE"]%string \/ In n ["P"; "CM"; "CQ"]%string \/
  In n ["setPosition"; "setVelocity"; "setWeight"]%string.
