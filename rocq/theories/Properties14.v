(** C81: the process-wide calculator. *)
From Coq Require Import String List ZArith Bool Lia.
From Flocq Require Import IEEE754.BinarySingleNaN.
From Verif Require Import Base Num ModelTerm ModelCollide ModelFactories ModelXsec ModelSet ModelEq ModelFilter ModelDB ModelCalc
  SpecEq SpecFilter SpecDB SpecInit SpecCalc ProofOrder ProofCalc Properties1 Properties4 Properties6.
From Coq Require Import List.
Import ListNotations.
Local Open Scope string_scope.
Local Open Scope list_scope.

(** C81.  What a constructor leaves behind: the library's symbols and the commands of its
    document, in document order, whatever happened before. *)
Theorem C81_document : forall (S : Type) mathlib units exec hs p d text,
  exists q t ok, run S mathlib units exec hs p [ENew d; ERead text] = Ok (q, [SDone S ok; SText S text t]) /\
    executed exec (bind_all S (bind_all S (fun _ => None) mathlib) units) (all_commands d) t ok.
Proof.
  intros S mathlib units exec hs p d text. destruct (step_new S mathlib units exec hs p d) as (t & ok & E & X).
  cbn [run]. rewrite E. cbn [obind step p_sym]. eauto 8.
Qed.
Print Assumptions C81_document.
(** As long as no 'ops' are loaded, everything read after a construction is independent of
    the history of the process. *)
Theorem C81_history : forall (S : Type) mathlib units exec hs p p' d es, List.Forall not_ops es ->
  exists q q' l, run S mathlib units exec hs p (ENew d :: es) = Ok (q, l) /\ run S mathlib units exec hs p' (ENew d :: es) = Ok (q', l).
Proof. exact history. Qed.
Print Assumptions C81_history.
(** So a database is read with the commands of whichever document was opened last. *)
Theorem C81_own_commands_refuted : forall (S : Type) mathlib units exec hs p p' d1 d2 text, exists q q' ok ok' t,
  run S mathlib units exec hs p [ENew d1; ENew d2; ERead text] = Ok (q, [SDone S ok; SDone S ok'; SText S text t]) /\
  run S mathlib units exec hs p' [ENew d2; ERead text] = Ok (q', [SDone S ok'; SText S text t]).
Proof.
  intros S mathlib units exec hs p p' d1 d2 text. destruct (step_new S mathlib units exec hs p d1) as (t & ok & E & X).
  destruct (step_new S mathlib units exec hs (mkProc S t (p_added S p)) d2) as (t2 & ok2 & E2 & X2).
  destruct (step_new S mathlib units exec hs p' d2) as (t3 & ok3 & E3 & X3).
  destruct (executed_fun S exec _ _ _ _ _ _ X2 X3) as [<- <-].
  cbn [run]. rewrite E. cbn [obind]. rewrite E2, E3. cbn [obind step p_sym]. eauto 10.
Qed.
Print Assumptions C81_own_commands_refuted.

Lemma Forall2_weaken {X Y} (P Q : X -> Y -> Prop) l l' : (forall x y, P x y -> Q x y) -> Forall2 P l l' -> Forall2 Q l l'.
Proof. intros H. induction 1; constructor; auto. Qed.
Lemma ops_symbol_helper n : In n helper_names <-> ops_symbol n.
Proof. unfold helper_names, ops_symbol. cbn [In]. tauto. Qed.
(** The functions of 'ops' texts are there when such a text is read, in every process that
    constructs no database after the first of them... *)
Theorem C81_helpers : forall (S : Type) mathlib units exec hs es p q l,
  (forall n, ops_symbol n -> leaves_alone exec n) -> no_new_after_ops es ->
  p_added S p = false -> run S mathlib units exec hs p es = Ok (q, l) ->
  every_ops (fun t => forall n, ops_symbol n -> t n = Some (hs n)) es l.
Proof.
  intros S mathlib units exec hs es p q l H H0 H1 H2. assert (H' : forall n, In n helper_names -> leaves_alone exec n) by (intros n Hn; apply H, ops_symbol_helper, Hn).
  pose proof (helpers_there S mathlib units exec hs es p q l H' H0 H1 H2) as G. unfold every_ops in *.
  refine (Forall2_weaken _ _ _ _ _ G). intros [| | |] s Hs; auto. cbv beta iota in Hs |- *. destruct Hs as (t & E & Ht). exists t. split; [exact E|].
  intros n Hn. apply Ht, ops_symbol_helper, Hn.
Qed.
Print Assumptions C81_helpers.
(** ... but a database constructed later takes them away for good. *)
Theorem C81_helpers_refuted : forall (S : Type) mathlib units exec hs p es1 x es2 d es3 n q l,
  leaves_alone exec n -> unbound_in mathlib n -> unbound_in units n ->
  run S mathlib units exec hs p (es1 ++ EOps x :: es2 ++ ENew d :: es3) = Ok (q, l) ->
  every_text (fun t => t n = None) (skipn (length es1 + length es2 + 2) l).
Proof. exact helpers_lost. Qed.
Print Assumptions C81_helpers_refuted.
(** Then no database can be initialised whose document asks for a reaction with two or three
    products and an 'ops' text that calls such a function: [parser] is any parser that rejects
    calls of unknown functions, [tab text] the table a text is read with. *)
Theorem C81_second_database : forall (S : Type) (N : Num) (ok : N -> Prop) (parser : symtab S -> string -> outcome (list (expr N)))
    (calls : string -> string -> Prop) (tab : string -> symtab S) n
    fuel allowed inf ninf tol solve spf fcm fcq d f (props r : list (prop N)) s,
  (forall t text es, calls text n -> t n = None -> parser t text <> Ok es) -> (forall text, tab text n = None) ->
  mass_order ok -> masses_ok ok props -> unique_names props -> set_ok (x_inter d) -> plain_names props (x_inter d) ->
  initBinary (default_reg fuel allowed inf ninf tol solve spf (fun text => parser (tab text) text) fcm fcq) d f props = Ok (r, s) ->
  forall A B, A <= B < length r -> exists xs qs, pair_interactions d f r A B = Ok xs /\ cell_get s A B = Ok qs /\
    List.Forall2 (fun x q => is_reaction q = true ->
      length (expand_names (xi_out x)) = 2 \/ length (expand_names (xi_out x)) = 3 ->
      forall text, In text (ops_texts (xi_out x)) -> text <> "" -> ~ calls text n) xs qs.
Proof.
  intros S N ok parser calls tab n fuel allowed inf ninf tol solve spf fcm fcq d f props r s Hp Ht Hm Ho U Hd Hn H A B HAB.
  destruct (ops_init ok fuel allowed inf ninf tol solve spf _ fcm fcq d f props r s Hm Ho U Hd Hn H A B HAB) as (xs & qs & E1 & E2 & F).
  exists xs, qs. do 2 (split; [assumption|]). eapply forall2_impl; [|exact F]. cbn beta. intros x q K K1 K2 text I E C.
  destruct (K K1 K2 text I E) as (es & E3). exact (Hp (tab text) text es C (Ht text) E3).
Qed.
Print Assumptions C81_second_database.
(** The first 'ops' text also changes the meaning of every later text of the same database:
    [P], [X], ... no longer stand for what the document's commands made of them. *)
Theorem C81_shadow : forall (S : Type) mathlib units exec hs p x y z, p_added S p = false ->
  exists q t t', run S mathlib units exec hs p [ERead y; EOps x; ERead z] = Ok (q, [SText S y t; SText S x t'; SText S z t']) /\
    (forall n, ops_symbol n -> t' n = Some (hs n)) /\ (forall n, ~ ops_symbol n -> t' n = t n).
Proof.
  intros S mathlib units exec hs p x y z H. destruct (shadow S mathlib units exec hs p x y z H) as (q & t & t' & E & A & B).
  exists q, t, t'. split; [exact E|]. split; intros n Hn; [apply A|apply B]; rewrite ops_symbol_helper; exact Hn.
Qed.
Print Assumptions C81_shadow.

(** A small calculator: a command defines the name it consists of. *)
Definition ex_exec (t : symtab Z) (c : string) : symtab Z * bool := (bind Z t c 7%Z, negb (String.eqb c "bad")).
Definition ex_run := run Z [("sqrt", 1%Z)] [("m", 2%Z); ("P", 3%Z)] ex_exec (fun n => Z.of_nat (String.length n) * 100)%Z.
Definition ex_doc (cs : list string) : cdoc := mkCDoc (fun p => if String.eqb p "//calc-commands/command" then cs else []).
Definition look (o : outcome (proc Z * list (seen Z))) (n : string) : list (option Z) :=
  match o with Ok (_, l) => map (fun s => match s with SText _ _ t => t n | SDone _ b => Some (if b then (-1)%Z else (-2)%Z) end) l | _ => [] end.
Example C81_case : forall p,
  look (ex_run p [ENew (ex_doc ["eV"; "K"]); ERead "a"; ENew (ex_doc ["keV"; "bad"; "K"]); ERead "a"]) "K"
    = [Some (-1); Some 7; Some (-2); None]%Z /\
  look (ex_run (mkProc Z (fun _ => None) false)
          [ENew (ex_doc []); ERead "1*P"; EOps "setWeight(1)"; ERead "1*P"; ENew (ex_doc []); ERead "1*P"; EOps "setWeight(1)"]) "P"
    = [Some (-1); Some 3; Some 100; Some 100; Some (-1); Some 3; Some 3]%Z /\
  look (ex_run (mkProc Z (fun _ => None) false)
          [ENew (ex_doc []); EOps "setWeight(1)"; ENew (ex_doc []); EOps "setWeight(1)"]) "setWeight"
    = [Some (-1); Some 900; Some (-1); None]%Z.
Proof. intros p. repeat split; vm_compute; reflexivity. Qed.
Example C81_hypotheses : leaves_alone (fun t c => (bind Z t "eV" 1%Z, true)) "setWeight" /\
  unbound_in [("sqrt", 1%Z)] "setWeight" /\ unbound_in [("m", 2%Z); ("P", 3%Z)] "setWeight" /\
  no_new_after_ops [ENew (ex_doc []); ERead "a"; EOps "setWeight(1)"; EOps "setWeight(2)"].
Proof.
  split; [intros t c; reflexivity|]. split; [intros [E|[]]; discriminate E|]. split; [intros [E|[E|[]]]; discriminate E|].
  intros l1 s l2 E. destruct l1 as [|e1 l1]; [discriminate E|]. injection E as _ E.
  destruct l1 as [|e2 l1]; [discriminate E|]. injection E as _ E.
  destruct l1 as [|e3 l1]; [injection E as _ <-; repeat constructor|]. injection E as _ E.
  destruct l1 as [|e4 l1]; [injection E as _ <-; constructor|]. injection E as _ E. destruct l1; discriminate E.
Qed.
(** A reaction with 'ops': loaded with the functions, rejected without them. *)
Definition ex_parser (t : symtab Z) (text : string) : outcome (list (expr F)) :=
  match t "setWeight" with Some _ => Ok [fun _ _ _ r => Ok r] | None => Throw ExnRuntime end.
Definition reg_tab (t : symtab Z) : registry F := default_reg (N:=F) 0 true finf (fofZ 0) (fun _ _ => true) (fun _ a b => (a, b))
  (setParticleFactories (N:=F) finf) (ex_parser t) false false.
Definition x_ops_doc : document F := mkDoc (N:=F) (x_particle docF) (x_model docF) (x_filter docF)
  [xc 0 [xt 1 "e"; xt 1 "Xe"] [mkXT "B" None None (Some "setWeight(1)"); xt 1 "A"]].
Definition with_helper : symtab Z := fun n => if String.eqb n "setWeight" then Some 1%Z else None.
Example C81_second_case :
  loads (initBinary (reg_tab with_helper) x_ops_doc FNull dbx) = true /\
  loads (initBinary (reg_tab (fun _ => None)) x_ops_doc FNull dbx) = false /\
  loads (initBinary (reg_tab (fun _ => None)) docF FNull dbx) = true /\
  (forall (t : symtab Z) text es, t "setWeight" = None -> ex_parser t text <> Ok es).
Proof.
  split; [vm_compute; reflexivity|]. split; [vm_compute; reflexivity|]. split; [vm_compute; reflexivity|].
  intros t text es H. unfold ex_parser. rewrite H. discriminate.
Qed.
