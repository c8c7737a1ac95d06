(** Lemmas for SpecCalc: the process-wide calculator, and the parsing of 'ops' texts. *)
From Coq Require Import String List ZArith Lia Permutation Bool.
From Verif Require Import Base Num ModelTerm ModelCollide ModelXsec ModelSet ModelEq ModelFilter ModelDB ModelCalc
  SpecEq SpecDB SpecCalc ProofInelastic ProofEq ProofTop4 ProofDB.
From Coq Require Import List.
Import ListNotations.
Local Open Scope list_scope.

Section Calc.
Variables (S : Type) (mathlib units : list (string * S)) (exec : symtab S -> string -> symtab S * bool) (hs : string -> S).
Notation run := (run S mathlib units exec hs).
Notation step := (step S mathlib units exec hs).
Notation library := (bind_all S (bind_all S (fun _ => None) mathlib) units).

Lemma exec_all_spec cs : forall t, executed exec t cs (fst (exec_all S exec t cs)) (snd (exec_all S exec t cs)).
Proof.
  induction cs as [|c cs IH]; intros t; cbn [exec_all]; [constructor|].
  destruct (exec t c) as [t' [|]] eqn:E; [econstructor; [exact E|apply IH]|now constructor].
Qed.
Lemma executed_fun t cs t1 o1 t2 o2 : executed exec t cs t1 o1 -> executed exec t cs t2 o2 -> t1 = t2 /\ o1 = o2.
Proof.
  intros H. revert t2 o2. induction H as [t|t c cs t' t'' ok E H IH|t c cs t' E]; intros t2 o2 H2; inversion H2; subst; try (split; congruence).
  - replace t'0 with t' in * by congruence. now apply IH.
Qed.
Lemma step_ok p e : exists q s, step p e = Ok (q, s).
Proof.
  destruct e as [d|d|x|x]; cbn [ModelCalc.step]; unfold prepareCalculator, execCalcCommands, commands; cbn [String.eqb Ascii.eqb Bool.eqb].
  - destruct (exec_all _ _ _ _) as [t ok] eqn:E. cbn. eauto.
  - destruct (exec_all _ _ _ _) as [t ok] eqn:E. cbn. eauto.
  - eauto.
  - eauto.
Qed.
Lemma run_ok es : forall p, exists q l, run p es = Ok (q, l).
Proof.
  induction es as [|e es IH]; intros p; cbn [ModelCalc.run]; [eauto|].
  destruct (step_ok p e) as (q & s & E). rewrite E. cbn [obind]. destruct (IH q) as (r & l & E2). rewrite E2. cbn. eauto.
Qed.
Lemma run_cons p e es r l : run p (e :: es) = Ok (r, l) ->
  exists q s l', step p e = Ok (q, s) /\ run q es = Ok (r, l') /\ l = s :: l'.
Proof.
  cbn [ModelCalc.run]. intros H. apply obind_ok in H as ([q s] & E & H). apply obind_ok in H as ([r' l'] & E2 & H).
  injection H as <- <-. eauto 8.
Qed.
Lemma step_new p d : exists t ok, step p (ENew d) = Ok (mkProc S t (p_added S p), SDone S ok) /\ executed exec library (all_commands d) t ok.
Proof.
  cbn [ModelCalc.step]. unfold prepareCalculator, execCalcCommands, commands. cbn [String.eqb Ascii.eqb Bool.eqb last_slash].
  match goal with |- context [exec_all S exec ?t ?c] => pose proof (exec_all_spec c t) as H; destruct (exec_all S exec t c) as [t' ok] end.
  cbn [obind]. exists t', ok. split; [reflexivity|exact H].
Qed.
Lemma step_add p d : exists t ok, step p (EAdd d) = Ok (mkProc S t (p_added S p), SDone S ok) /\ executed exec (p_sym S p) (all_commands d) t ok.
Proof.
  cbn [ModelCalc.step]. unfold execCalcCommands, commands. cbn [String.eqb Ascii.eqb Bool.eqb last_slash].
  match goal with |- context [exec_all S exec ?t ?c] => pose proof (exec_all_spec c t) as H; destruct (exec_all S exec t c) as [t' ok] end.
  cbn [obind]. exists t', ok. split; [reflexivity|exact H].
Qed.

(** History does not matter after a construction, as long as no 'ops' are loaded. *)
Lemma run_same es : List.Forall (fun e => not_ops e) es -> forall p p', p_sym S p = p_sym S p' ->
  exists q q' l, run p es = Ok (q, l) /\ run p' es = Ok (q', l) /\ p_sym S q = p_sym S q'.
Proof.
  induction 1 as [|e es He Hs IH]; intros p p' Ep; cbn [ModelCalc.run]; [eauto 8|].
  destruct e as [d|d|x|x]; [| |contradiction|].
  - destruct (step_new p d) as (t & ok & E & X), (step_new p' d) as (t' & ok' & E' & X').
    destruct (executed_fun _ _ _ _ _ _ X X') as [<- <-]. rewrite E, E'. cbn [obind].
    destruct (IH (mkProc S t (p_added S p)) (mkProc S t (p_added S p')) eq_refl) as (q & q' & l & R & R' & Eq). rewrite R, R'. cbn. eauto 8.
  - destruct (step_add p d) as (t & ok & E & X), (step_add p' d) as (t' & ok' & E' & X').
    rewrite Ep in X. destruct (executed_fun _ _ _ _ _ _ X X') as [<- <-]. rewrite E, E'. cbn [obind].
    destruct (IH (mkProc S t (p_added S p)) (mkProc S t (p_added S p')) eq_refl) as (q & q' & l & R & R' & Eq). rewrite R, R'. cbn. eauto 8.
  - cbn [ModelCalc.step obind]. destruct (IH p p' Ep) as (q & q' & l & R & R' & Eq). rewrite R, R', Ep. cbn. eauto 8.
Qed.
Lemma history p p' d es : List.Forall not_ops es ->
  exists q q' l, run p (ENew d :: es) = Ok (q, l) /\ run p' (ENew d :: es) = Ok (q', l).
Proof.
  intros H. destruct (step_new p d) as (t & ok & E & X), (step_new p' d) as (t' & ok' & E' & X').
  destruct (executed_fun _ _ _ _ _ _ X X') as [<- <-]. cbn [ModelCalc.run]. rewrite E, E'. cbn [obind].
  destruct (run_same es H (mkProc S t (p_added S p)) (mkProc S t (p_added S p')) eq_refl) as (q & q' & l & R & R' & _). rewrite R, R'. cbn. eauto 8.
Qed.

Lemma bind_all_out l : forall (t : symtab S) n, ~ In n (map fst l) -> bind_all S t l n = t n.
Proof.
  unfold bind_all. induction l as [|[m v] l IH]; intros t n H; cbn in *; [reflexivity|].
  rewrite IH by tauto. unfold bind. destruct (String.eqb_spec n m); [subst; tauto|reflexivity].
Qed.
Lemma bind_all_in (f : string -> S) ns : forall (t : symtab S) n, In n ns -> bind_all S t (map (fun n => (n, f n)) ns) n = Some (f n).
Proof.
  unfold bind_all. induction ns as [|m ns IH]; intros t n H; cbn in *; [contradiction|].
  destruct (in_dec string_dec n ns) as [I|I]; [now apply IH|].
  destruct H as [->|H]; [|contradiction].
  change (bind_all S (bind S t n (f n)) (map (fun n => (n, f n)) ns) n = Some (f n)).
  rewrite bind_all_out. - unfold bind. now rewrite String.eqb_refl. - rewrite map_map. cbn. now rewrite map_id.
Qed.
Lemma executed_leaves n t cs t' ok : leaves_alone exec n -> executed exec t cs t' ok -> t' n = t n.
Proof.
  intros L. induction 1 as [t|t c cs t' t'' ok E H IH|t c cs t' E]; [reflexivity| |].
  - rewrite IH. specialize (L t c). rewrite E in L. exact L.
  - specialize (L t c). rewrite E in L. exact L.
Qed.

(** ** Helpers are lost *)
Lemma lost_inv n es : leaves_alone exec n -> unbound_in mathlib n -> unbound_in units n ->
  forall p q l, p_added S p = true -> p_sym S p n = None -> run p es = Ok (q, l) ->
  every_text (fun t => t n = None) l /\ p_sym S q n = None /\ p_added S q = true.
Proof.
  intros L U1 U2. induction es as [|e es IH]; intros p q l Ha Hn H.
  - injection H as <- <-. repeat split; auto. constructor.
  - apply run_cons in H as (p1 & s & l' & E & R & ->). destruct e as [d|d|x|x].
    + destruct (step_new p d) as (t & ok & E' & X). rewrite E' in E. injection E as <- <-.
      assert (T : t n = None). { rewrite (executed_leaves _ _ _ _ _ L X), bind_all_out, bind_all_out by assumption. reflexivity. }
      destruct (IH (mkProc S t (p_added S p)) q l' Ha T R) as (A & B & C). repeat split; auto. constructor; [exact I|exact A].
    + destruct (step_add p d) as (t & ok & E' & X). rewrite E' in E. injection E as <- <-.
      assert (T : t n = None). { now rewrite (executed_leaves _ _ _ _ _ L X). }
      destruct (IH (mkProc S t (p_added S p)) q l' Ha T R) as (A & B & C). repeat split; auto. constructor; [exact I|exact A].
    + cbn [ModelCalc.step] in E. unfold addInteractionHelpers in E. rewrite Ha in E. injection E as <- <-.
      destruct (IH p q l' Ha Hn R) as (A & B & C). repeat split; auto. constructor; [exact Hn|exact A].
    + cbn [ModelCalc.step] in E. injection E as <- <-.
      destruct (IH p q l' Ha Hn R) as (A & B & C). repeat split; auto. constructor; [exact Hn|exact A].
Qed.
Lemma added_step p e q s : step p e = Ok (q, s) -> p_added S p = true -> p_added S q = true.
Proof.
  destruct e as [d|d|x|x].
  - destruct (step_new p d) as (t & ok & E' & X). rewrite E'. intros [= <- <-]. auto.
  - destruct (step_add p d) as (t & ok & E' & X). rewrite E'. intros [= <- <-]. auto.
  - cbn [ModelCalc.step]. unfold addInteractionHelpers. intros H Ha. rewrite Ha in H. now injection H as <- <-.
  - cbn [ModelCalc.step]. intros [= <- <-]. auto.
Qed.
Lemma added_run es : forall p q l, run p es = Ok (q, l) -> p_added S p = true -> p_added S q = true.
Proof.
  induction es as [|e es IH]; intros p q l H Ha; [now injection H as <- <-|].
  apply run_cons in H as (p1 & s & l' & E & R & ->). eapply IH; [exact R|]. eapply added_step; eauto.
Qed.
Lemma run_app es1 : forall es2 p q l, run p (es1 ++ es2) = Ok (q, l) ->
  exists p1 l1 l2, run p es1 = Ok (p1, l1) /\ run p1 es2 = Ok (q, l2) /\ l = l1 ++ l2.
Proof.
  induction es1 as [|e es1 IH]; intros es2 p q l H; cbn [app] in *.
  - exists p, [], l. auto.
  - apply run_cons in H as (p1 & s & l' & E & R & ->). apply IH in R as (p2 & l1 & l2 & R1 & R2 & ->).
    exists p2, (s :: l1), l2. repeat split; auto. cbn [ModelCalc.run]. rewrite E. cbn [obind]. now rewrite R1.
Qed.
Lemma run_length es : forall p q l, run p es = Ok (q, l) -> length l = length es.
Proof.
  induction es as [|e es IH]; intros p q l H; [now injection H as <- <-|].
  apply run_cons in H as (p1 & s & l' & E & R & ->). cbn. f_equal. eapply IH; eauto.
Qed.
(** After an 'ops' text and a construction, whatever happens. *)
Lemma helpers_lost p es1 x es2 d es3 n q l :
  leaves_alone exec n -> unbound_in mathlib n -> unbound_in units n ->
  run p (es1 ++ EOps x :: es2 ++ ENew d :: es3) = Ok (q, l) ->
  every_text (fun t => t n = None) (skipn (length es1 + length es2 + 2) l).
Proof.
  intros L U1 U2 H. apply run_app in H as (p1 & l1 & l2 & R1 & R2 & ->).
  apply run_cons in R2 as (p2 & s & l3 & E & R2 & ->). apply run_app in R2 as (p3 & l4 & l5 & R3 & R4 & ->).
  apply run_cons in R4 as (p4 & s' & l6 & E' & R4 & ->).
  assert (A2 : p_added S p2 = true).
  { cbn [ModelCalc.step] in E. injection E as <- <-. unfold addInteractionHelpers. destruct (p_added S p1) eqn:A; [exact A|reflexivity]. }
  pose proof (added_run _ _ _ _ R3 A2) as A3.
  destruct (step_new p3 d) as (t & ok & E2 & X). rewrite E2 in E'. injection E' as <- <-.
  assert (T : t n = None). { rewrite (executed_leaves _ _ _ _ _ L X), bind_all_out, bind_all_out by assumption. reflexivity. }
  destruct (lost_inv n es3 L U1 U2 (mkProc S t (p_added S p3)) q l6 A3 T R4) as (Q & _ & _).
  replace (l1 ++ s :: l4 ++ SDone S ok :: l6) with ((l1 ++ s :: l4 ++ [SDone S ok]) ++ l6)
    by (rewrite <- !app_assoc; cbn; rewrite <- app_assoc; reflexivity).
  rewrite skipn_app. apply run_length in R1, R3.
  rewrite skipn_all2, app_nil_l by (rewrite !app_length; cbn; rewrite app_length; cbn; lia).
  replace (_ - _) with 0 by (rewrite !app_length; cbn; rewrite app_length; cbn; lia). exact Q.
Qed.

(** ** Helpers are there in a process with one database *)
Lemma helpers_inv es : (forall n, In n helper_names -> leaves_alone exec n) -> no_new_after_ops es ->
  forall p q l, (p_added S p = true -> List.Forall not_new es /\ forall n, In n helper_names -> p_sym S p n = Some (hs n)) ->
  run p es = Ok (q, l) ->
  every_ops (fun t => forall n, In n helper_names -> t n = Some (hs n)) es l.
Proof.
  intros L. induction es as [|e es IH]; intros Hno p q l Hp H.
  - injection H as <- <-. constructor.
  - apply run_cons in H as (p1 & s & l' & E & R & ->).
    assert (Hno' : no_new_after_ops es). { intros l1 x l2 ->. apply (Hno (e :: l1) x l2). reflexivity. }
    destruct e as [d|d|x|x].
    + destruct (step_new p d) as (t & ok & E' & X). rewrite E' in E. injection E as <- <-.
      constructor; [exact I|]. eapply IH; [exact Hno'| |exact R]. cbn. intros A. destruct (Hp A) as (F & _). inversion F; contradiction.
    + destruct (step_add p d) as (t & ok & E' & X). rewrite E' in E. injection E as <- <-.
      constructor; [exact I|]. eapply IH; [exact Hno'| |exact R]. cbn. intros A. destruct (Hp A) as (F & K). inversion F; subst. split; [assumption|].
      intros n I. rewrite (executed_leaves n _ _ _ _ (L n I) X). now apply K.
    + cbn [ModelCalc.step] in E. injection E as <- <-.
      assert (K : forall n, In n helper_names -> p_sym S (addInteractionHelpers S hs p) n = Some (hs n)).
      { intros n I. unfold addInteractionHelpers. destruct (p_added S p) eqn:A; [now apply Hp|]. cbn [p_sym]. now apply bind_all_in. }
      constructor; [eauto|]. eapply IH; [exact Hno'| |exact R]. intros _. split; [|exact K].
      apply (Hno [] x es eq_refl).
    + cbn [ModelCalc.step] in E. injection E as <- <-. constructor; [exact I|]. eapply IH; [exact Hno'| |exact R].
      intros A. destruct (Hp A) as (F & K). inversion F; subst. auto.
Qed.
Lemma helpers_there es p q l : (forall n, In n helper_names -> leaves_alone exec n) -> no_new_after_ops es ->
  p_added S p = false -> run p es = Ok (q, l) ->
  every_ops (fun t => forall n, In n helper_names -> t n = Some (hs n)) es l.
Proof. intros L Hno A R. eapply helpers_inv; eauto. rewrite A. discriminate. Qed.

(** ** The first 'ops' text changes the meaning of later texts *)
Lemma shadow p x y z : p_added S p = false ->
  exists q t t', run p [ERead y; EOps x; ERead z] = Ok (q, [SText S y t; SText S x t'; SText S z t']) /\
    (forall n, In n helper_names -> t' n = Some (hs n)) /\ (forall n, ~ In n helper_names -> t' n = t n).
Proof.
  intros A. cbn [ModelCalc.run ModelCalc.step obind]. unfold addInteractionHelpers. rewrite A. cbn [p_sym].
  eexists _, _, _. split; [reflexivity|]. split.
  - intros n I. now apply bind_all_in.
  - intros n I. apply bind_all_out. rewrite map_map. cbn [fst]. now rewrite map_id.
Qed.
End Calc.

(** ** Every 'ops' text of a loaded reaction was parsed *)
Section Ops.
Context {N : Num}.
Lemma ops_of_in (xl : list xterm) t : In t xl -> (1 <= xt_n t)%Z -> In (xt_ops t) (ops_of xl (x_P t)).
Proof.
  intros I P. unfold ops_of. apply in_concat. exists (repeat (xt_ops t) (Z.to_nat (xt_n t))). split.
  - apply in_map_iff. exists t. split; [reflexivity|]. apply filter_In. split; [assumption|]. unfold named. apply String.eqb_refl.
  - destruct (Z.to_nat (xt_n t)) eqn:E; [lia|]. now left.
Qed.
Lemma omap_all {A B} (f : A -> outcome B) l r : omap f l = Ok r -> forall a, In a l -> exists b, f a = Ok b.
Proof. intros H. apply omap_forall2 in H. induction H as [|a b l r E H IH]; intros c I; [contradiction|]. destruct I as [<-|I]; eauto. Qed.

Lemma new_load_parses db spf parse fcm fcq kec th (e : eqcore N) m : 
  inelastic_new_load db spf parse fcm fcq kec th e = Ok m -> m <> MInBare ->
  forall t, In t (e_products e) -> forall s, In s (firstn (Z.to_nat (t_n t)) (t_ops t)) -> s <> ""%string -> exists es, parse s = Ok es.
Proof.
  intros H Hm t It s Is Hs. unfold inelastic_new_load in H.
  assert (B : exists b, make_inelastic db spf parse fcm fcq e = Ok b).
  { destruct (numberProducts e =? 2)%Z. { apply obind_ok in H as (b & E & _). eauto. }
    destruct (numberProducts e =? 3)%Z. { apply obind_ok in H as (b & E & _). eauto. } congruence. }
  destruct B as (b & B). unfold make_inelastic in B.
  apply obind_ok in B as ([? ?] & _ & B). apply obind_ok in B as ([? ?] & _ & B). apply obind_ok in B as (? & _ & B).
  apply obind_ok in B as (? & _ & B). apply obind_ok in B as (? & _ & B). apply obind_ok in B as (es & E & _).
  unfold expr_lists in E. apply obind_ok in E as (ls & E & _).
  destruct (omap_all _ _ _ E t It) as (l & El). destruct (omap_all _ _ _ El s Is) as (r & Er).
  destruct (String.eqb_spec s ""); [contradiction|]. eauto.
Qed.
Lemma ops_parsed (ok : N -> Prop) fuel allowed inf ninf tol solve spf parse fcm fcq (props : list (prop N)) x q :
  mass_order ok -> masses_ok ok props -> positive (xi_in x) ->
  load_equation (default_reg fuel allowed inf ninf tol solve spf parse fcm fcq) props x = Ok q ->
  (exists m, q_model q = MIn22 m) \/ (exists m, q_model q = MIn23 m) ->
  forall s, In s (ops_texts (xi_out x)) -> s <> ""%string -> exists es, parse s = Ok es.
Proof.
  intros Hm Ho Hp H Hq s Is Hs.
  destruct (equation_loaded ok Hm props Ho _ x q H Hp) as (iA & pA & iB & pB & _ & _ & _ & _ & _ & _ & _ & F & Pm & _).
  unfold ops_texts in Is. apply in_concat in Is as (l & Il & Is). apply in_map_iff in Il as (t & <- & It).
  assert (Es : s = xt_ops t) by (now apply repeat_spec in Is). subst s.
  assert (Hn : (1 <= xt_n t)%Z). { destruct (Z.to_nat (xt_n t)) eqn:E; [contradiction|lia]. }
  assert (Ix : In (findParticleIndx props (x_P t)) (expand_species (e_products (q_core q)))).
  { eapply Permutation_in; [symmetry; exact Pm|]. apply in_map. unfold expand_names. apply in_concat. eexists. split; [apply in_map; exact It|].
    destruct (Z.to_nat (xt_n t)) eqn:E; [lia|]. now left. }
  unfold expand_species in Ix. apply in_concat in Ix as (l & Il & Ix). apply in_map_iff in Il as (u & <- & Iu). apply repeat_spec in Ix.
  pose proof (proj1 (List.Forall_forall _ _) F u Iu) as (i & p & Fn & Ip & ->). cbn [t_species] in Ix.
  assert (En : x_P t = pr_name p).
  { destruct (findParticle props (x_P t)) as [j|] eqn:Fj.
    - apply findParticle_first in Fj as (p' & Fj). rewrite (indx_first _ _ _ _ Fj) in Ix. apply Nat2Z.inj in Ix. subst j.
      destruct Fn as (A & _), Fj as (A' & B' & _). rewrite A in A'. injection A' as <-. auto.
    - unfold findParticleIndx in Ix. rewrite Fj in Ix. lia. }
  unfold load_equation in H. apply obind_ok in H as ([e same] & E1 & H). apply obind_ok in H as (cs & E2 & H).
  destruct (r_im _ (model_label x same)) as [load|] eqn:Em; [|discriminate]. apply obind_ok in H as (m & E3 & H). injection H as <-.
  cbn [q_core q_model] in *. unfold default_reg in Em. cbn [r_im] in Em.
  destruct (String.eqb (model_label x same) "elastic"). { injection Em as <-. injection E3 as <-. destruct Hq as [(?&?)|(?&?)]; discriminate. }
  destruct (String.eqb (model_label x same) "inelastic").
  - injection Em as <-. apply obind_ok in E3 as (th & _ & E3).
    eapply (new_load_parses _ _ _ _ _ _ _ _ _ E3); [destruct Hq as [(?&->)|(?&->)]; discriminate|exact Iu| |exact Hs].
    cbn [t_n t_ops]. rewrite Nat2Z.id, count_ops, firstn_all, <- En. now apply ops_of_in.
  - destruct (String.eqb (model_label x same) "vss_elastic"); [|discriminate]. injection Em as <-.
    destruct (xi_vss x); [|discriminate]. injection E3 as <-. destruct Hq as [(?&?)|(?&?)]; discriminate.
Qed.
End Ops.
From Verif Require Import SpecFilter SpecInit ProofDB3 ProofInit.
Section Ops2.
Context {N : Num}.
Lemma reaction_kind fuel allowed inf ninf tol solve spf parse fcm fcq (props : list (prop N)) x q :
  load_equation (default_reg fuel allowed inf ninf tol solve spf parse fcm fcq) props x = Ok q -> is_reaction q = true ->
  numberProducts (q_core q) = 2%Z \/ numberProducts (q_core q) = 3%Z ->
  (exists m, q_model q = MIn22 m) \/ (exists m, q_model q = MIn23 m).
Proof.
  intros H Hq Hn. unfold load_equation in H. apply obind_ok in H as ([e same] & E1 & H). apply obind_ok in H as (cs & E2 & H).
  destruct (r_im _ (model_label x same)) as [load|] eqn:Em; [|discriminate]. apply obind_ok in H as (m & E3 & H). injection H as <-.
  cbn [q_core q_model] in *. unfold is_reaction in Hq. cbn [q_model] in Hq. unfold default_reg in Em. cbn [r_im] in Em.
  destruct (String.eqb (model_label x same) "elastic"). { injection Em as <-. injection E3 as <-. discriminate. }
  destruct (String.eqb (model_label x same) "inelastic").
  - injection Em as <-. apply obind_ok in E3 as (th & _ & E3). unfold inelastic_new_load in E3.
    destruct (numberProducts e =? 2)%Z eqn:E. { apply obind_ok in E3 as (b & _ & E3). apply obind_ok in E3 as (k & _ & E3). injection E3 as <-. eauto. }
    destruct (numberProducts e =? 3)%Z eqn:E'. { apply obind_ok in E3 as (b & _ & E3). apply obind_ok in E3 as (k & _ & E3). injection E3 as <-. eauto. }
    lia.
  - destruct (String.eqb (model_label x same) "vss_elastic"); [|discriminate]. injection Em as <-.
    destruct (xi_vss x); [|discriminate]. injection E3 as <-. discriminate.
Qed.
Lemma forall2_impl {A B} (P Q : A -> B -> Prop) l1 l2 : (forall a b, P a b -> Q a b) -> List.Forall2 P l1 l2 -> List.Forall2 Q l1 l2.
Proof. intros H. induction 1; constructor; auto. Qed.
Lemma ops_init (ok : N -> Prop) fuel allowed inf ninf tol solve spf parse fcm fcq d f (props r : list (prop N)) s :
  mass_order ok -> masses_ok ok props -> unique_names props -> set_ok (x_inter d) -> plain_names props (x_inter d) ->
  initBinary (default_reg fuel allowed inf ninf tol solve spf parse fcm fcq) d f props = Ok (r, s) ->
  forall A B, A <= B < length r -> exists xs qs, pair_interactions d f r A B = Ok xs /\ cell_get s A B = Ok qs /\
    List.Forall2 (fun x q => is_reaction q = true ->
      length (expand_names (xi_out x)) = 2 \/ length (expand_names (xi_out x)) = 3 ->
      forall text, In text (ops_texts (xi_out x)) -> text <> ""%string -> exists es, parse text = Ok es) xs qs.
Proof.
  intros Hm Ho U Hd Hn H A B HAB.
  destruct (cell_sources _ d f props r s U Hd Hn H A B HAB) as (xs & qs & E1 & E2 & F & G).
  exists xs, qs. do 2 (split; [assumption|]).
  destruct (init_sorted ok _ d f props r s Hm Ho H) as [Pr _].
  assert (Hr : masses_ok ok r) by (eapply Permutation_Forall; [exact Pr|exact Ho]).
  clear E1 E2. induction F as [|x q xs qs L F IH]; [constructor|]. inversion G as [|? ? [Ix Hb] G']; subst.
  constructor; [|now apply IH]. intros Hq Hl text It Ht.
  destruct Hb as (_ & (pA & pB & HA & HB & W) & _). destruct (written_names _ _ _ _ _ W) as [Pos _].
  destruct (equation_loaded ok Hm r Hr _ x q L Pos) as (? & ? & ? & ? & _ & _ & _ & _ & _ & _ & _ & _ & _ & Np).
  eapply ops_parsed; try eassumption. eapply reaction_kind; [exact L|exact Hq|]. rewrite Np by lia. lia.
Qed.
End Ops2.
