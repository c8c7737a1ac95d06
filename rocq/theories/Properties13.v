(** The meaning of loaded filters (C65) and required properties (C61). *)
From Coq Require Import String Ascii ZArith Bool Sorted List.
From Verif Require Import Base Num ModelTerm ModelEq ModelFilter ModelMisc SpecEq SpecFilter SpecLoad SpecMisc
  ProofOrder ProofFilter3 ProofInelastic ProofLoad ProofDB ProofMisc ProofLoad2 Properties5.
From Coq Require Import List.
Import ListNotations.
Local Open Scope string_scope.
Local Open Scope list_scope.

(** C65.  An element loads as a filter exactly when it has that meaning: combinations take
    two operands, a Section without name is "standard" and without preference "preferred",
    terms of an EqIO without a count count once, the first term of a name wins. *)
Theorem C65_meaning : forall (to_int : string -> outcome Z) x f, load_filter to_int x = Ok f <-> means to_int x f.
Proof. intros to_int x f. split; [apply load_means|apply means_load]. Qed.
Print Assumptions C65_meaning.
(** <Section><Not><Null/><EqIO dir="Out"><T><P>A</P></T></EqIO></Not></Section>. *)
Example C65_meaning_case :
  means read10 (XNode "Section" [] [XNode "Not" [] [leaf "Null" ""; XNode "EqIO" [("dir", "Out")] [XNode "T" [] [leaf "P" "A"] ""] ""] ""] "")
    (FSection "standard" false (FNot FNull (FEqIO true [mkET "A" 1]))) /\
  ~ means read10 (XNode "Section" [] [] "") (FSection "" false FNull).
Proof.
  split; [apply C65_meaning; vm_compute; reflexivity|]. intros H. apply C65_meaning in H. vm_compute in H. discriminate.
Qed.

(** C61.  The properties of a species load exactly when every query that finds an entry
    succeeds and every required property has one; the others get their default. *)
Theorem C61_required : forall (V : Type) (req : string -> bool) (dflt : string -> V) (query : string -> option (outcome V)) f r k l,
  list_load (fun a => prop_load (req a) (dflt a) (query a)) (denote (AAgg f r k)) = Some (Ok l) <->
  Forall2 (fun a p => fst p = a /\ (query a = Some (Ok (snd p)) \/ (query a = None /\ req a = false /\ snd p = dflt a)))
    (written (AAgg f r k)) l.
Proof. exact @load_required. Qed.
Print Assumptions C61_required.
(** A name and a mass, the mass not given: fails when required, zero when not. *)
Example C61_required_case :
  let q := fun a => if String.eqb a "name" then Some (Ok 7) else None in
  let P := AAgg (AProp "name") [AProp "mass"] 0 in
  (forall l, list_load (fun a => prop_load true 0 (q a)) (denote P) <> Some (Ok l)) /\
  list_load (fun a => prop_load false 0 (q a)) (denote P) = Some (Ok [("name", 7); ("mass", 0)]).
Proof.
  cbv zeta. split.
  - intros l H. apply (C61_required nat (fun _ => true) (fun _ => 0)) in H. inversion H as [|? ? ? ? _ H1]; subst.
    inversion H1 as [|? ? ? ? [_ [E|(_ & E & _)]] _]; discriminate.
  - apply (C61_required nat (fun _ => false) (fun _ => 0)). 
    constructor; [split; [reflexivity|now left]|]. constructor; [split; [reflexivity|now right]|constructor].
Qed.
