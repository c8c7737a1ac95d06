(** The process-wide units calculator: src/chimp/physical_calc.cpp, its use by RuntimeDB
    and by the loader of 'ops' texts. *)
From Coq Require Import String List Bool.
From Verif Require Import Base.
From Coq Require Import List.
Import ListNotations.
Local Open Scope string_scope.
Local Open Scope list_scope.

Section Calc.
(** Symbols of the calculator (values and functions; runtime::physical::calc::symbol). *)
Variable S : Type.
Definition symtab := string -> option S.
Definition bind (t : symtab) (n : string) (v : S) : symtab := fun m => if String.eqb m n then Some v else t m.
Definition bind_all (t : symtab) (l : list (string * S)) : symtab := fold_left (fun t e => bind t (fst e) (snd e)) l t.

(** Driver::addMathLib and addPhysicalUnits (external): the symbols they set.  [exec] is
    Driver::exec of one command: the table afterwards and whether it returned normally. *)
Variables (mathlib units : list (string * S)) (exec : symtab -> string -> symtab * bool).

(** A document, as far as the calculator is concerned: [dc_eval path] are the texts of the
    nodes that an XPath selects, in document order. *)
Record cdoc := mkCDoc { dc_eval : string -> list string }.

(** physical_calc.cpp 56-62: the loop over the commands; an exception leaves it. *)
Fixpoint exec_all (t : symtab) (cs : list string) : symtab * bool :=
  match cs with
  | [] => (t, true)
  | c :: cs => let (t, ok) := exec t c in if ok then exec_all t cs else (t, false)
  end.
(** physical_calc.cpp 48-63.  section[ section.length() - 1 ] of an empty text is undefined. *)
Definition last_slash (s : string) : bool := String.eqb (substring (String.length s - 1) 1 s) "/".
Definition execCalcCommands (t : symtab) (d : cdoc) (section : string) : outcome (symtab * bool) :=
  if String.eqb section "" then UB else
  let section := if last_slash section then section else (section ++ "/")%string in
  Ok (exec_all t (dc_eval d (section ++ "calc-commands/command")%string)).
(** physical_calc.cpp 35-46, with the default section of physical_calc.h 50. *)
Definition prepareCalculator (t : symtab) (d : cdoc) : outcome (symtab * bool) :=
  let t := fun _ => None in
  let t := bind_all t mathlib in
  let t := bind_all t units in
  execCalcCommands t d "//".

(** The state of a process: the singleton's symbols (Driver::instance()) and the static flag
    of addInteractionHelpers. *)
Record proc := mkProc { p_sym : symtab; p_added : bool }.
(** model/detail/inelastic_helpers.h 389-402: the names that are set, in this order; [hs] their
    values.  One instantiation InElasticExpressions<DB> is modelled. *)
Definition helper_names : list string :=
  ["setPosition"; "setVelocity"; "setWeight"; "P"; "CM"; "CQ"; "X"; "Y"; "Z"; "VX"; "VY"; "VZ";
   "WEIGHT"; "SPECIES_CHARGE"].
Variable hs : string -> S.
(** inelastic_helpers.h 376-405. *)
Definition addInteractionHelpers (p : proc) : proc :=
  if p_added p then p else mkProc (bind_all (p_sym p) (map (fun n => (n, hs n)) helper_names)) true.

(** What a program does with databases, as far as the calculator notices:
    - construct a RuntimeDB (RuntimeDB.cpp 60-66);
    - addXMLData (RuntimeDB.cpp 354-359);
    - load an equation with a non-empty 'ops' text (inelastic_helpers.h 453-470);
    - read a quantity of any document (xylose::xml::Context::parse<Quantity>). *)
Inductive event :=
| ENew (d : cdoc)
| EAdd (d : cdoc)
| EOps (text : string)
| ERead (text : string).
(** A text is parsed with a symbol table; the constructor or addXMLData returns or throws. *)
Inductive seen :=
| SDone (ok : bool)
| SText (text : string) (t : symtab).

Definition commands (p : proc) (r : outcome (symtab * bool)) : outcome (proc * seen) :=
  do (t, ok) <- r; Ok (mkProc t (p_added p), SDone ok).
Definition step (p : proc) (e : event) : outcome (proc * seen) :=
  match e with
  | ENew d => commands p (prepareCalculator (p_sym p) d)
  | EAdd d => commands p (execCalcCommands (p_sym p) d "//")
  | EOps s => let p := addInteractionHelpers p in Ok (p, SText s (p_sym p))
  | ERead s => Ok (p, SText s (p_sym p))
  end.
Fixpoint run (p : proc) (es : list event) : outcome (proc * list seen) :=
  match es with
  | [] => Ok (p, [])
  | e :: es => do (p, s) <- step p e; do (p, l) <- run p es; Ok (p, s :: l)
  end.
End Calc.
