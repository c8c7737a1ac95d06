(** Loading filters from XML. *)
From Coq Require Import String Ascii List ZArith Bool Sorted Arith Lia.
From Verif Require Import Base Num ModelTerm ModelEq ModelFilter SpecEq SpecFilter ProofOrder ProofFilter3 ProofInelastic.
From Coq Require Import List.
Import ListNotations.

Lemma eqins_app t s : (forall z, In z s -> str_ltb (q_name z) (q_name t) = true) -> eqset_insert t s = s ++ [t].
Proof.
  induction s as [|y s IH]; intros L; cbn [eqset_insert app]; [reflexivity|].
  pose proof (L y (or_introl eq_refl)) as Ly. rewrite (str_asym _ _ Ly), Ly. f_equal. apply IH.
  intros z I. apply L. now right.
Qed.
Lemma eqset_sorted l : eq_sorted l -> eqset_of l = l.
Proof.
  assert (G : forall l s, eq_sorted l -> (forall a b, In a s -> In b l -> str_ltb (q_name a) (q_name b) = true) ->
    fold_left (fun s t => eqset_insert t s) l s = s ++ l).
  { clear. induction l as [|t l IH]; intros s H L; cbn; [now rewrite app_nil_r|].
    inversion H as [|? ? H' M]; subst. rewrite Forall_forall in M.
    rewrite eqins_app by (intros z I; apply L; [exact I|now left]).
    rewrite IH; [now rewrite <- app_assoc|exact H'|]. intros a b I J. apply in_app_or in I as [I|[<-|[]]].
    - apply L; [exact I|now right].
    - now apply M. }
  intros H. unfold eqset_of. rewrite G; [reflexivity|exact H|intros ? ? []].
Qed.
Lemma omap_map {A B C} (f : B -> outcome C) (g : A -> B) (h : A -> C) l :
  (forall x, In x l -> f (g x) = Ok (h x)) -> omap f (map g l) = Ok (map h l).
Proof.
  induction l as [|x l IH]; intros H; cbn; [reflexivity|]. rewrite H by now left. cbn.
  rewrite IH; [reflexivity|]. intros; apply H; now right.
Qed.

Section L.
Variables (to_int : string -> outcome Z) (print : Z -> string).
Hypothesis Hp : forall z, to_int (print z) = Ok z.

Lemma load_write f : expressible f -> load_filter to_int (write_filter print f) = Ok f.
Proof.
  induction f as [| |l|out terms|l IHl r IHr|l IHl r IHr|l IHl r IHr|section required f IH]; intros W; cbn [write_filter].
  - reflexivity.
  - reflexivity.
  - reflexivity.
  - destruct W as [Ne S].
    assert (E : omap (load_eqterm to_int) (map (write_term print) terms) = Ok terms).
    { rewrite (omap_map _ _ (fun t => t)); [now rewrite map_id|]. intros t _. cbn. rewrite Hp. cbn. now destruct t. }
    assert (M : map (write_term print) terms <> []) by (destruct terms; [congruence|discriminate]).
    cbn. destruct (map (write_term print) terms) as [|c cs]; [congruence|].
    destruct out; cbn in *; rewrite E; cbn; now rewrite (eqset_sorted terms S).
  - destruct W as [A B]. cbn. now rewrite (IHl A), (IHr B).
  - destruct W as [A B]. cbn. now rewrite (IHl A), (IHr B).
  - destruct W as [A B]. cbn. now rewrite (IHl A), (IHr B).
  - cbn in W. destruct required; cbn; now rewrite (IH W).
Qed.
End L.

(** Structural induction on elements. *)
Lemma xnode_ind2 (P : xnode -> Prop) :
  (forall t a c s, (forall x, In x c -> P x) -> P (XNode t a c s)) -> forall x, P x.
Proof.
  intros H. fix IH 1. intros [t a c s]. apply H. induction c as [|y c IHc]; [intros x []|].
  intros x [<-|I]; [apply IH|now apply IHc].
Qed.
Lemma eqset_nonempty l : l <> [] -> eqset_of l <> [].
Proof.
  intros Ne E. destruct l as [|t l]; [congruence|]. destruct (eqset_spec (t :: l)) as [_ S]. rewrite E in S.
  apply (S t). exists [], l. split; [reflexivity|intros ? []].
Qed.
Lemma omap_length {A B} (f : A -> outcome B) l r : omap f l = Ok r -> length r = length l.
Proof.
  revert r. induction l as [|x l IH]; intros r H; cbn in H; [injection H as <-; reflexivity|].
  apply obind_ok in H as (y & _ & H). apply obind_ok in H as (ys & E & H). injection H as <-. cbn. f_equal. auto.
Qed.
Ltac teq := match goal with |- context [String.eqb ?a ?b] => destruct (String.eqb a b) end.
Lemma load_wf to_int x f : load_filter to_int x = Ok f -> expressible f.
Proof.
  revert f. induction x as [t a c s IH] using xnode_ind2. intros f. cbn.
  do 3 (teq; [destruct c as [|u [|v [|]]]; try discriminate; intros H;
              apply obind_ok in H as (l & El & H); apply obind_ok in H as (r & Er & H); injection H as <-;
              split; [apply (IH u); [cbn; tauto|exact El]|apply (IH v); [cbn; tauto|exact Er]]|]).
  teq; [intros H; injection H as <-; exact I|].
  teq.
  { destruct (assoc "dir" a) as [d|]; [|discriminate]. intros H. apply obind_ok in H as (out & _ & H).
    destruct c as [|u c]; [discriminate|]. apply obind_ok in H as (terms & E & H). injection H as <-. cbn. split.
    - apply eqset_nonempty. apply omap_length in E. destruct terms; discriminate.
    - apply eqset_spec. }
  teq; [intros H; injection H as <-; exact I|].
  teq.
  { destruct c as [|u [|]]; try discriminate; intros H; [injection H as <-; exact I|].
    apply obind_ok in H as (g & E & H). injection H as <-. exact (IH u (or_introl eq_refl) g E). }
  teq; [intros H; injection H as <-; exact I|discriminate].
Qed.
Lemma load_unknown to_int t a c s :
  ~ In t ["Or"; "And"; "Not"; "Null"; "EqIO"; "Label"; "Section"; "Elastic"]%string ->
  load_filter to_int (XNode t a c s) = Throw ExnInvalidArg.
Proof.
  intros H. cbn in H |- *.
  repeat match goal with |- context [String.eqb t ?b] => destruct (String.eqb_spec t b) as [->|_]; [exfalso; apply H; auto 15|] end.
  reflexivity.
Qed.
Lemma load_arity to_int t a c s : In t ["Or"; "And"; "Not"]%string -> length c <> 2 ->
  load_filter to_int (XNode t a c s) = Throw ExnXml.
Proof.
  intros H L. destruct H as [<-|[<-|[<-|[]]]]; cbn; destruct c as [|u [|v [|]]]; cbn in L; try lia; reflexivity.
Qed.
