(** 'ops' expressions: what they do to the products, and what they cannot touch. *)
From Coq Require Import ZArith String Bool Lia List.
From Verif Require Import Base Num ModelTerm ModelCollide ModelOps SpecOps SpecTerm SpecPhys SpecFactories ModelFactories ProofInelastic ProofFactories ProofReact.
Import ListNotations.

Section Apart.
Context {N : Num}.
Implicit Types (e : eqcore N).

Lemma ofold_in_turn (p1 p2 : particle N) sc es q :
  ofold (fun r (x : expr N) => x p1 p2 sc r) q es = in_turn p1 p2 sc es q.
Proof. revert q. induction es as [|x es IH]; intros q; [reflexivity|]. cbn. destruct (x p1 p2 sc q); cbn; auto. Qed.

Lemma process_in_turn u es (q p1 p2 : particle N) sc :
  (u = false -> es = []) -> process u es q p1 p2 sc = in_turn p1 p2 sc es q.
Proof.
  intros H. unfold process. destruct u; [apply ofold_in_turn|]. rewrite (H eq_refl). reflexivity.
Qed.

Lemma fold_orb {A} (P : A -> bool) l b : fold_left (fun b x => b || P x) l b = b || existsb P l.
Proof.
  revert b. induction l as [|x l IH]; intros b; cbn; [now rewrite orb_false_r|].
  rewrite IH. now rewrite orb_assoc.
Qed.

Lemma omap_app {A B} (f : A -> outcome B) l1 l2 :
  omap f (l1 ++ l2) = do a <- omap f l1; do b <- omap f l2; Ok (a ++ b).
Proof.
  induction l1 as [|x l1 IH]; cbn.
  - destruct (omap f l2); reflexivity.
  - rewrite IH. destruct (f x); cbn; [|reflexivity..]. destruct (omap f l1); cbn; [|reflexivity..].
    destruct (omap f l2); reflexivity.
Qed.

Lemma omap_concat {A B C} (f : B -> outcome C) (g : A -> list B) l :
  (do ls <- omap (fun a => omap f (g a)) l; Ok (concat ls)) = omap f (concat (map g l)).
Proof.
  induction l as [|x l IH]; cbn; [reflexivity|].
  rewrite omap_app, <- IH. destruct (omap f (g x)); cbn; [|reflexivity..].
  destruct (omap (fun a0 => omap f (g a0)) l); reflexivity.
Qed.

Lemma expr_lists_texts parse (l : list term) :
  expr_lists (N:=N) parse l = omap (fun s => if String.eqb s "" then Ok [] else parse s) (ops_texts l).
Proof. unfold expr_lists, ops_texts. apply omap_concat. Qed.

Lemma omap_length {A B} (f : A -> outcome B) l r : omap f l = Ok r -> length r = length l.
Proof.
  revert r. induction l as [|x l IH]; cbn; intros r H; [injection H as <-; reflexivity|].
  apply obind_ok in H as (y & _ & H). apply obind_ok in H as (ys & E & H). injection H as <-.
  cbn. f_equal. auto.
Qed.

Definition bare (t : term) := mkTerm (t_species t) (t_n t) (t_from t) (map (fun _ => EmptyString) (t_ops t)).

Lemma expr_lists_bare parse (l : list term) :
  expr_lists (N:=N) parse (map bare l) = Ok (map (fun _ => []) (ops_texts l)).
Proof.
  rewrite expr_lists_texts. unfold ops_texts. rewrite map_map. cbn [t_n t_ops bare].
  induction l as [|t l IH]; [reflexivity|].
  cbn [map concat]. rewrite omap_app, IH, map_app, firstn_map.
  replace (omap _ (map (fun _ => EmptyString) _)) with (Ok (map (fun _ : string => @nil (expr N)) (firstn (Z.to_nat (t_n t)) (t_ops t)))).
  - reflexivity.
  - clear. induction (firstn (Z.to_nat (t_n t)) (t_ops t)); [reflexivity|]. cbn. rewrite <- IHl. reflexivity.
Qed.

Lemma count_bare l : countComponents (map bare l) = countComponents l.
Proof.
  unfold countComponents.
  assert (H : forall a, fold_left (fun s t => u32 (s + t_n t)) (map bare l) a = fold_left (fun s t => u32 (s + t_n t)) l a).
  { induction l as [|t l IH]; intros a; [reflexivity|]. cbn. apply IH. }
  apply H.
Qed.

Lemma product_bare l i t :
  getTermForProduct l i = Ok t -> getTermForProduct (map bare l) i = Ok (bare t).
Proof.
  unfold getTermForProduct. generalize 0%Z. induction l as [|x l IH]; intros a; cbn; [discriminate|].
  destruct (i <? u32 (a + t_n x))%Z; [intros [= <-]; reflexivity | apply IH].
Qed.

Lemma nothing_bare l : hasExpressions (map bare l) = false.
Proof.
  unfold hasExpressions. induction l as [|t l IH]; [reflexivity|]. cbn. rewrite IH, orb_false_r.
  induction (t_ops t); [reflexivity|]. cbn. assumption.
Qed.

Lemma mcout_bare (db : Z -> outcome (N * N)) l : massChargeOut db (map bare l) = massChargeOut db l.
Proof.
  unfold massChargeOut.
  replace (omap _ (map bare l)) with (omap (fun t =>
      if (t_n t <=? 0)%Z then Ok [] else
      do (m, q) <- db (t_species t);
      mc_copies m q (t_species t) (t_from t) (Z.to_nat (t_n t))) l); [reflexivity|].
  induction l as [|t l IH]; [reflexivity|]. cbn. rewrite IH. reflexivity.
Qed.

Lemma make_bare db spf parse fcm fcq e b :
  make_inelastic db spf parse fcm fcq e = Ok b ->
  exists qa qb Ma Mb, db (t_species (e_A e)) = Ok (Ma, qa) /\ db (t_species (e_B e)) = Ok (Mb, qb) /\
  ie_mu b = e_mu e /\ ie_muQ b = ReducedMass qa qb /\ ie_force_cm b = fcm /\ ie_force_cq b = fcq /\
  omap (fun s => if String.eqb s "" then Ok [] else parse s) (ops_texts (e_products e)) = Ok (ie_expr b) /\
  make_inelastic db spf parse false false (without_ops e) =
    Ok (mkInelastic (e_mu e) (ie_muQ b) (ie_factories b) (map (fun _ => []) (ie_expr b)) false false).
Proof.
  unfold make_inelastic, massChargeIn, without_ops, e_A, e_B. cbn [e_in e_products e_mu]. intros H.
  apply obind_ok in H as ([Ma qa] & Ea & H). apply obind_ok in H as ([Mb qb] & Eb & H).
  fold bare. rewrite mcout_bare, expr_lists_bare.
  apply obind_ok in H as (mo & Eo & H). apply obind_ok in H as (mi & Ei & H).
  apply obind_ok in H as (fs & Ef & H). apply obind_ok in H as (es & Ee & H).
  rewrite expr_lists_texts in Ee.
  destruct (_ || _) eqn:C in H; [discriminate|]. injection H as <-.
  exists qa, qb, Ma, Mb. cbn [ie_mu ie_muQ ie_force_cm ie_force_cq ie_expr ie_factories].
  do 7 (split; [first [assumption | reflexivity]|]).
  rewrite Ea in Ei |- *. cbn [obind] in Ei |- *. rewrite Eb in Ei |- *. cbn [obind] in Ei |- *.
  rewrite Eo. cbn [obind]. injection Ei as <-. rewrite Ef. cbn [obind].
  unfold numberProducts in *. cbn [e_products]. rewrite count_bare.
  rewrite map_length. rewrite (omap_length _ _ _ Ee) in C. rewrite C.
  do 2 f_equal.
  apply omap_length in Ee. revert Ee. generalize (ops_texts (e_products e)). clear.
  induction es as [|x es IH]; intros [|y l]; cbn; intros H; try discriminate; [reflexivity|].
  f_equal. apply IH. now injection H.
Qed.

Lemma none_left (ess : list (list (expr N))) : existsb (fun x => negb (is_nil x)) (map (fun _ => @nil (expr N)) ess) = false.
Proof. induction ess; [reflexivity|]. assumption. Qed.

Lemma scratch_eq fs (p1 p2 : particle N) mu muQ fcm fcq :
  make_scratch fs p1 p2 mu muQ fcm fcq =
  mkScratch (if fcm || existsb (fun f => fop_eqb (f_op f) CM) fs then centre_of mu p1 p2 else vzero)
            (if fcq || existsb (fun f => fop_eqb (f_op f) CQ) fs then centre_of muQ p1 p2 else vzero).
Proof. unfold make_scratch. rewrite !fold_orb. reflexivity. Qed.

(** Whether the centres were asked for by the expressions makes no difference to where a
    product is created. *)
Lemma create_forced fs f (p1 p2 : particle N) mu muQ fcm fcq : In f fs ->
  factory_create f p1 p2 (make_scratch fs p1 p2 mu muQ fcm fcq) =
  factory_create f p1 p2 (make_scratch fs p1 p2 mu muQ false false).
Proof.
  intros Hf. rewrite !scratch_eq. unfold factory_create. cbn [s_cm s_cq orb].
  destruct (f_op f) eqn:E; [reflexivity| |];
  (match goal with |- context [existsb ?P fs] => replace (existsb P fs) with true
     by (symmetry; apply existsb_exists; exists f; split; [assumption | cbn; now rewrite E]) end;
   now rewrite orb_true_r).
Qed.

Lemma unused (u : bool) (ess : list (list (expr N))) es :
  Bool.eqb u (existsb (fun x => negb (is_nil x)) ess) = true -> In es ess -> u = false -> es = [].
Proof.
  intros H Hin ->. apply eqb_prop in H. destruct es as [|x es]; [reflexivity|].
  assert (E : existsb (fun x => negb (is_nil x)) ess = true) by (apply existsb_exists; exists (x :: es); auto).
  congruence.
Qed.

Theorem ops_apart db spf parse fcm fcq kec thrE e model :
  inelastic_new_load db spf parse fcm fcq kec thrE e = Ok model ->
  numberProducts e = 2%Z \/ numberProducts e = 3%Z ->
  exists model0 ess Ma Mb qa qb fs, 
    inelastic_new_load db spf parse false false kec thrE (without_ops e) = Ok model0 /\
    omap (fun s => if String.eqb s "" then Ok [] else parse s) (ops_texts (e_products e)) = Ok ess /\
    db (t_species (e_A e)) = Ok (Ma, qa) /\ db (t_species (e_B e)) = Ok (Mb, qb) /\
    (exists mout min, massChargeOut db (e_products e) = Ok mout /\ massChargeIn db e = Ok min /\ spf min mout = Ok fs) /\
    forall inplace p1 p2 l (g : rng N) k,
    let sc := make_scratch fs p1 p2 (e_mu e) (ReducedMass qa qb) fcm fcq in
    exists qs k', length qs = length ess /\
      Forall2 (fun f q => exists w, q = setVelocity (factory_create f p1 p2 (make_scratch fs p1 p2 (e_mu e) (ReducedMass qa qb) false false)) w) fs qs /\
      model_interact inplace model0 p1 p2 l g k = Ok (p1, p2, l ++ qs, k') /\
      model_interact inplace model p1 p2 l g k =
        match each p1 p2 sc ess qs with
        | Ok rs => Ok (p1, p2, l ++ rs, k')
        | Throw x => Throw x | UB => UB | Diverge => Diverge
        end.
Proof.
  intros H Hn. unfold inelastic_new_load in H |- *.
  assert (N0 : numberProducts (without_ops e) = numberProducts e) by (unfold numberProducts, without_ops; cbn [e_products]; apply count_bare).
  assert (X0 : hasExpressions (e_products (without_ops e)) = false) by apply nothing_bare.
  rewrite N0, X0. set (hasE := negb (neqb (match kec with Some d => d | None => nsub n0 thrE end) n0)) in *.
  set (dE := if hasE then match kec with Some d => d | None => nsub n0 thrE end else n0) in *.
  destruct Hn as [Hn|Hn]; rewrite Hn in H |- *; cbn [Z.eqb Pos.eqb] in H |- *.
  - apply obind_ok in H as (b & Eb & H). apply obind_ok in H as (m & Em & H). injection H as <-.
    pose proof Eb as Eb'.
    apply make_bare in Eb as (qa & qb & Ma & Mb & E1 & E2 & E3 & E4 & E5 & E6 & E7 & E8).
    rewrite E8. cbn [obind].
    unfold make22 in Em |- *. cbn [ie_factories ie_expr ie_mu] in Em |- *. rewrite none_left, N0, map_length.
    destruct (hasE && neqb dE n0) eqn:C0; [discriminate|].
    destruct (negb (numberProducts e =? 2)%Z || _ || _) eqn:C1; [discriminate|].
    destruct (negb (Bool.eqb (hasExpressions _) _)) eqn:C2; [discriminate|].
    destruct (existsb _ (ie_factories b)) eqn:C3; [discriminate|].
    apply obind_ok in Em as (t0 & T0 & Em). apply obind_ok in Em as (t1 & T1 & Em).
    apply obind_ok in Em as ([M0 Q0] & D0 & Em). apply obind_ok in Em as ([M1 Q1] & D1 & Em). injection Em as <-.
    cbn [Bool.eqb negb]. unfold without_ops at 1 2. cbn [e_products]. fold bare.
    rewrite (product_bare _ _ _ T0), (product_bare _ _ _ T1). cbn [obind bare t_species].
    rewrite D0. cbn [obind]. rewrite D1. cbn [obind].
    eexists _, (ie_expr b), Ma, Mb, qa, qb, (ie_factories b).
    split; [reflexivity|]. do 3 (split; [assumption|]). split.
    { unfold make_inelastic in Eb'. apply obind_ok in Eb' as ([? ?] & _ & Eb'). apply obind_ok in Eb' as ([? ?] & _ & Eb'). 
      apply obind_ok in Eb' as (mo & Eo & Eb'). apply obind_ok in Eb' as (mi & Ei & Eb').
      apply obind_ok in Eb' as (fs & Ef & Eb'). apply obind_ok in Eb' as (es & Ee & Eb').
      destruct (_ || _) in Eb'; [discriminate|]. injection Eb' as <-. exists mo, mi. auto. }
    intros inplace p1 p2 l g k. set (sc := make_scratch (ie_factories b) p1 p2 (e_mu e) (ReducedMass qa qb) fcm fcq).
    apply orb_false_elim in C1 as [C1 L2]. apply orb_false_elim in C1 as [_ L1].
    apply negb_false_iff in L1, L2, C2. apply Nat.eqb_eq in L1, L2.
    assert (U := fun es => unused _ _ es C2).
    cbn [model_interact]. unfold interact22. cbn [i2_base i2_useX ie_factories ie_expr ie_mu ie_muQ ie_force_cm ie_force_cq].
    rewrite E3, E4, E5, E6. fold sc.
    destruct (ie_factories b) as [|f0 [|f1 [|? ?]]] eqn:EF; try discriminate L1.
    destruct (ie_expr b) as [|x0 [|x1 [|? ?]]] eqn:EX; try discriminate L2.
    cbn [oget nth_error obind map].
    unfold vel22. cbn [i2_base i2_hasE i2_dV2rel i2_mu1 i2_mu1_scale ie_mu process obind]. rewrite E3. 
    rewrite !process_in_turn by (apply U; cbn; auto).
    unfold sc. rewrite !create_forced with (fcm := fcm) (fcq := fcq) by (cbn; auto). fold sc.
    eexists [_; _], _. split; [reflexivity|]. split; [|split; [reflexivity|]].
    { constructor; [eexists; reflexivity|]. constructor; [eexists; reflexivity|constructor]. }
    cbn [each]. 
    destruct (in_turn _ _ _ x0 _); cbn [obind]; [|reflexivity..].
    destruct (in_turn _ _ _ x1 _); cbn [obind]; reflexivity.
  - apply obind_ok in H as (b & Eb & H). apply obind_ok in H as (m & Em & H). injection H as <-.
    pose proof Eb as Eb'.
    apply make_bare in Eb as (qa & qb & Ma & Mb & E1 & E2 & E3 & E4 & E5 & E6 & E7 & E8).
    rewrite E8. cbn [obind].
    unfold make23 in Em |- *. cbn [ie_factories ie_expr ie_mu] in Em |- *. rewrite none_left, N0, map_length.
    destruct (hasE && neqb dE n0) eqn:C0; [discriminate|].
    destruct (negb (numberProducts e =? 3)%Z || _ || _) eqn:C1; [discriminate|].
    destruct (negb (Bool.eqb (hasExpressions _) _)) eqn:C2; [discriminate|].
    destruct (existsb _ (ie_factories b)) eqn:C3; [discriminate|].
    apply obind_ok in Em as (t0 & T0 & Em). apply obind_ok in Em as (t1 & T1 & Em). apply obind_ok in Em as (t2 & T2 & Em).
    apply obind_ok in Em as ([M0 Q0] & D0 & Em). apply obind_ok in Em as ([M1 Q1] & D1 & Em).
    apply obind_ok in Em as ([M2 Q2] & D2 & Em). injection Em as <-.
    cbn [Bool.eqb negb]. unfold without_ops at 1 2 3. cbn [e_products]. fold bare.
    rewrite (product_bare _ _ _ T0), (product_bare _ _ _ T1), (product_bare _ _ _ T2). cbn [obind bare t_species].
    rewrite D0. cbn [obind]. rewrite D1. cbn [obind]. rewrite D2. cbn [obind].
    eexists _, (ie_expr b), Ma, Mb, qa, qb, (ie_factories b).
    split; [reflexivity|]. do 3 (split; [assumption|]). split.
    { unfold make_inelastic in Eb'. apply obind_ok in Eb' as ([? ?] & _ & Eb'). apply obind_ok in Eb' as ([? ?] & _ & Eb'). 
      apply obind_ok in Eb' as (mo & Eo & Eb'). apply obind_ok in Eb' as (mi & Ei & Eb').
      apply obind_ok in Eb' as (fs & Ef & Eb'). apply obind_ok in Eb' as (es & Ee & Eb').
      destruct (_ || _) in Eb'; [discriminate|]. injection Eb' as <-. exists mo, mi. auto. }
    intros inplace p1 p2 l g k. set (sc := make_scratch (ie_factories b) p1 p2 (e_mu e) (ReducedMass qa qb) fcm fcq).
    apply orb_false_elim in C1 as [C1 L2]. apply orb_false_elim in C1 as [_ L1].
    apply negb_false_iff in L1, L2, C2. apply Nat.eqb_eq in L1, L2.
    assert (U := fun es => unused _ _ es C2).
    cbn [model_interact]. unfold interact23. cbn [i3_base i3_useX ie_factories ie_expr ie_mu ie_muQ ie_force_cm ie_force_cq].
    rewrite E3, E4, E5, E6. fold sc.
    destruct (ie_factories b) as [|f0 [|f1 [|f2 [|? ?]]]] eqn:EF; try discriminate L1.
    destruct (ie_expr b) as [|x0 [|x1 [|x2 [|? ?]]]] eqn:EX; try discriminate L2.
    cbn [oget nth_error obind map].
    unfold vel23. cbn [i3_base i3_hasE i3_dV2rel i3_mu1 i3_mu1_scale i3_mu2 i3_mu2_scale ie_mu process obind]. rewrite E3.
    rewrite !process_in_turn by (apply U; cbn; auto).
    unfold sc. rewrite !create_forced with (fcm := fcm) (fcq := fcq) by (cbn; auto). fold sc.
    eexists [_; _; _], _. split; [reflexivity|]. split; [|split; [reflexivity|]].
    { do 3 (constructor; [eexists; reflexivity|]). constructor. }
    cbn [each].
    destruct (in_turn _ _ _ x0 _); cbn [obind]; [|reflexivity..].
    destruct (in_turn _ _ _ x1 _); cbn [obind]; [|reflexivity..].
    destruct (in_turn _ _ _ x2 _); cbn [obind]; reflexivity.
Qed.
End Apart.

(** ** The functions offered to expressions *)
Section Frame.
Context {N : Num}.
Variables (toint : N -> outcome Z) (charge : Z -> outcome N).

Section Ind.
Variable P : qexp N -> Prop.
Hypotheses
  (Hnum : forall x, P (QNum x))
  (Hfun : forall f l, List.Forall P l -> P (QFun f l))
  (Hvel : forall l, List.Forall P l -> P (QSetVelocity l))
  (Hpos : forall l, List.Forall P l -> P (QSetPosition l))
  (Hwgt : forall w, P w -> P (QSetWeight w))
  (HP : forall a b, P a -> P b -> P (QP a b))
  (HCM : forall i, P i -> P (QCM i))
  (HCQ : forall i, P i -> P (QCQ i)).
Fixpoint qexp_rec' (e : qexp N) : P e :=
  let go := fix go (l : list (qexp N)) : List.Forall P l :=
    match l with [] => @List.Forall_nil _ P | e :: l => @List.Forall_cons _ P e l (qexp_rec' e) (go l) end in
  match e with
  | QNum x => Hnum x
  | QFun f l => Hfun f l (go l)
  | QSetVelocity l => Hvel l (go l)
  | QSetPosition l => Hpos l (go l)
  | QSetWeight w => Hwgt w (qexp_rec' w)
  | QP a b => HP a b (qexp_rec' a) (qexp_rec' b)
  | QCM i => HCM i (qexp_rec' i)
  | QCQ i => HCQ i (qexp_rec' i)
  end.
End Ind.

Notation ev := (eval toint charge).
Fixpoint evs (p0 p1 : particle N) (sc : scratch N) (l : list (qexp N)) (t : particle N) : outcome (list N * particle N) :=
  match l with
  | [] => Ok ([], t)
  | e :: l => do (x, t) <- ev p0 p1 sc e t; do (xs, t) <- evs p0 p1 sc l t; Ok (x :: xs, t)
  end.

Lemma ev_eq p0 p1 sc e t : ev p0 p1 sc e t =
  match e with
  | QNum x => Ok (x, t)
  | QFun f args => do (xs, t) <- evs p0 p1 sc args t; do x <- f xs; Ok (x, t)
  | QSetVelocity args => do (xs, t) <- evs p0 p1 sc args t; do t <- q_setVelocity xs t; Ok (n1, t)
  | QSetPosition args => do (xs, t) <- evs p0 p1 sc args t; do t <- q_setPosition xs t; Ok (n1, t)
  | QSetWeight w => do (x, t) <- ev p0 p1 sc w t; do t <- q_setWeight x t; Ok (n1, t)
  | QP n item => do (a, t) <- ev p0 p1 sc n t; do (b, t) <- ev p0 p1 sc item t;
                 do a <- toint a; do b <- toint b; do x <- q_P charge p0 p1 a b; Ok (x, t)
  | QCM i => do (a, t) <- ev p0 p1 sc i t; do a <- toint a; do x <- q_centre (s_cm sc) a; Ok (x, t)
  | QCQ i => do (a, t) <- ev p0 p1 sc i t; do a <- toint a; do x <- q_centre (s_cq sc) a; Ok (x, t)
  end.
Proof.
  assert (H : forall l t, (fix evals (l : list (qexp N)) (t : particle N) : outcome (list N * particle N) :=
    match l with
    | [] => Ok ([], t)
    | e :: l => do (x, t) <- ev p0 p1 sc e t; do (xs, t) <- evals l t; Ok (x :: xs, t)
    end) l t = evs p0 p1 sc l t).
  { intros l. induction l as [|x l IH]; intros u; [reflexivity|]. cbn [evs].
    destruct (ev p0 p1 sc x u) as [[? ?]| | |]; cbn; [|reflexivity..]. rewrite IH. reflexivity. }
  destruct e; try reflexivity; cbn [eval]; rewrite <- H; reflexivity.
Qed.

(** A relation between targets kept by evaluation. *)
Definition same_but (e : qexp N) (t t' : particle N) : Prop :=
  p_species t' = p_species t /\
  (calls is_setVelocity e = false -> p_vel t' = p_vel t) /\
  (calls is_setPosition e = false -> p_pos t' = p_pos t) /\
  (calls is_setWeight e = false -> p_weight t' = p_weight t).

Lemma evs_frame p0 p1 sc l :
  List.Forall (fun e => forall t x t', ev p0 p1 sc e t = Ok (x, t') -> same_but e t t') l ->
  forall t xs t', evs p0 p1 sc l t = Ok (xs, t') ->
  p_species t' = p_species t /\
  (existsb (calls is_setVelocity) l = false -> p_vel t' = p_vel t) /\
  (existsb (calls is_setPosition) l = false -> p_pos t' = p_pos t) /\
  (existsb (calls is_setWeight) l = false -> p_weight t' = p_weight t).
Proof.
  intros F. induction F as [|e l He _ IH]; intros t xs t' H; cbn [evs] in H.
  - injection H as <- <-. auto.
  - apply obind_ok in H as ([x u] & E1 & H). apply obind_ok in H as ([ys v] & E2 & H). injection H as <- <-.
    apply He in E1 as (A1 & A2 & A3 & A4). apply IH in E2 as (B1 & B2 & B3 & B4).
    split; [congruence|]. cbn [existsb].
    repeat split; intros C; apply orb_false_elim in C as [C1 C2].
    + rewrite (B2 C2). auto.
    + rewrite (B3 C2). auto.
    + rewrite (B4 C2). auto.
Qed.

Lemma ev_frame p0 p1 sc e : forall t x t', ev p0 p1 sc e t = Ok (x, t') -> same_but e t t'.
Proof.
  induction e using qexp_rec'; intros t y t' E; rewrite ev_eq in E; unfold same_but.
  - injection E as <- <-. auto.
  - apply obind_ok in E as ([xs u] & E1 & E). apply obind_ok in E as (z & _ & E). injection E as <- <-.
    apply (evs_frame _ _ _ _ H) in E1. exact E1.
  - apply obind_ok in E as ([xs u] & E1 & E). apply obind_ok in E as (z & Ez & E). injection E as <- <-.
    apply (evs_frame _ _ _ _ H) in E1 as (A1 & A2 & A3 & A4).
    destruct xs as [|a [|b [|c [|? ?]]]]; try discriminate. injection Ez as <-. cbn.
    repeat split; [assumption | discriminate | assumption | assumption].
  - apply obind_ok in E as ([xs u] & E1 & E). apply obind_ok in E as (z & Ez & E). injection E as <- <-.
    apply (evs_frame _ _ _ _ H) in E1 as (A1 & A2 & A3 & A4).
    destruct xs as [|a [|b [|c [|? ?]]]]; try discriminate. injection Ez as <-. cbn.
    repeat split; [assumption | assumption | discriminate | assumption].
  - apply obind_ok in E as ([xs u] & E1 & E). cbn [obind q_setWeight] in E. injection E as <- <-.
    apply IHe in E1 as (A1 & A2 & A3 & A4). cbn.
    repeat split; [assumption | assumption | assumption | discriminate].
  - apply obind_ok in E as ([xs u] & E1 & E). apply obind_ok in E as ([xs' u'] & E2 & E).
    apply obind_ok in E as (? & _ & E). apply obind_ok in E as (? & _ & E). apply obind_ok in E as (? & _ & E). injection E as <- <-.
    apply IHe1 in E1 as (A1 & A2 & A3 & A4). apply IHe2 in E2 as (B1 & B2 & B3 & B4).
    split; [congruence|]. cbn [calls is_setVelocity is_setPosition is_setWeight orb].
    repeat split; intros C; apply orb_false_elim in C as [C1 C2].
    + rewrite (B2 C2). auto.
    + rewrite (B3 C2). auto.
    + rewrite (B4 C2). auto.
  - apply obind_ok in E as ([xs u] & E1 & E). apply obind_ok in E as (? & _ & E). apply obind_ok in E as (? & _ & E). injection E as <- <-.
    apply IHe in E1. exact E1.
  - apply obind_ok in E as ([xs u] & E1 & E). apply obind_ok in E as (? & _ & E). apply obind_ok in E as (? & _ & E). injection E as <- <-.
    apply IHe in E1. exact E1.
Qed.

(** The value of an expression, and whether it throws, do not depend on the target. *)
Definition outcome_fst {A B} (o : outcome (A * B)) : outcome A := do (a, _) <- o; Ok a.

Lemma evs_blind p0 p1 sc l :
  List.Forall (fun e => forall t u, outcome_fst (ev p0 p1 sc e t) = outcome_fst (ev p0 p1 sc e u)) l ->
  forall t u, outcome_fst (evs p0 p1 sc l t) = outcome_fst (evs p0 p1 sc l u).
Proof.
  intros F. induction F as [|e l He _ IH]; intros t u; cbn [evs]; [reflexivity|].
  specialize (He t u). destruct (ev p0 p1 sc e t) as [[a t1]| | |], (ev p0 p1 sc e u) as [[b u1]| | |]; cbn in He |- *; try congruence.
  injection He as <-. specialize (IH t1 u1).
  destruct (evs p0 p1 sc l t1) as [[? ?]| | |], (evs p0 p1 sc l u1) as [[? ?]| | |]; cbn in IH |- *; congruence.
Qed.

Lemma ev_blind p0 p1 sc e : forall t u, outcome_fst (ev p0 p1 sc e t) = outcome_fst (ev p0 p1 sc e u).
Proof.
  induction e using qexp_rec'; intros t u; rewrite (ev_eq _ _ _ _ t), (ev_eq _ _ _ _ u).
  - reflexivity.
  - pose proof (evs_blind _ _ _ _ H t u) as E.
    destruct (evs p0 p1 sc l t) as [[a t1]| | |], (evs p0 p1 sc l u) as [[b u1]| | |]; cbn in E |- *; try congruence.
    injection E as <-. destruct (f a); reflexivity.
  - pose proof (evs_blind _ _ _ _ H t u) as E.
    destruct (evs p0 p1 sc l t) as [[a t1]| | |], (evs p0 p1 sc l u) as [[b u1]| | |]; cbn in E |- *; try congruence.
    injection E as <-. destruct a as [|? [|? [|? [|? ?]]]]; reflexivity.
  - pose proof (evs_blind _ _ _ _ H t u) as E.
    destruct (evs p0 p1 sc l t) as [[a t1]| | |], (evs p0 p1 sc l u) as [[b u1]| | |]; cbn in E |- *; try congruence.
    injection E as <-. destruct a as [|? [|? [|? [|? ?]]]]; reflexivity.
  - specialize (IHe t u).
    destruct (ev p0 p1 sc e t) as [[a t1]| | |], (ev p0 p1 sc e u) as [[b u1]| | |]; cbn in IHe |- *; first [reflexivity | congruence].
  - specialize (IHe1 t u).
    destruct (ev p0 p1 sc e1 t) as [[a t1]| | |], (ev p0 p1 sc e1 u) as [[b u1]| | |]; cbn in IHe1 |- *; try congruence.
    injection IHe1 as <-. specialize (IHe2 t1 u1).
    destruct (ev p0 p1 sc e2 t1) as [[c t2]| | |], (ev p0 p1 sc e2 u1) as [[d u2]| | |]; cbn in IHe2 |- *; try congruence.
    injection IHe2 as <-. destruct (toint a); cbn; [|reflexivity..]. destruct (toint c); cbn; [|reflexivity..].
    destruct (q_P charge p0 p1 _ _); reflexivity.
  - specialize (IHe t u).
    destruct (ev p0 p1 sc e t) as [[a t1]| | |], (ev p0 p1 sc e u) as [[b u1]| | |]; cbn in IHe |- *; try congruence.
    injection IHe as <-. destruct (toint a); cbn; [|reflexivity..]. destruct (q_centre _ _); reflexivity.
  - specialize (IHe t u).
    destruct (ev p0 p1 sc e t) as [[a t1]| | |], (ev p0 p1 sc e u) as [[b u1]| | |]; cbn in IHe |- *; try congruence.
    injection IHe as <-. destruct (toint a); cbn; [|reflexivity..]. destruct (q_centre _ _); reflexivity.
Qed.

Lemma turn_frame p0 p1 sc (es : list (qexp N)) : forall q r,
  in_turn p0 p1 sc (map (op_expr toint charge) es) q = Ok r ->
  p_species r = p_species q /\
  (existsb (calls is_setVelocity) es = false -> p_vel r = p_vel q) /\
  (existsb (calls is_setPosition) es = false -> p_pos r = p_pos q) /\
  (existsb (calls is_setWeight) es = false -> p_weight r = p_weight q).
Proof.
  induction es as [|e es IH]; intros q r H; cbn [map in_turn] in H.
  - injection H as <-. auto.
  - destruct (op_expr toint charge e p0 p1 sc q) as [u| | |] eqn:E; try discriminate.
    unfold op_expr in E. apply obind_ok in E as ([x v] & E & F). injection F as <-.
    apply ev_frame in E as (A1 & A2 & A3 & A4). apply IH in H as (B1 & B2 & B3 & B4).
    split; [congruence|]. cbn [existsb].
    repeat split; intros C; apply orb_false_elim in C as [C1 C2].
    + rewrite (B2 C2). auto.
    + rewrite (B3 C2). auto.
    + rewrite (B4 C2). auto.
Qed.
End Frame.

Section Places.
Context {N : Num} (inf : N).
Hypothesis irr : forall x : N, nltb x x = false.
Hypothesis trs : forall x y z : N, nltb x y = true -> nltb y z = true -> nltb x z = true.

Lemma ops_places db parse fcm fcq kec thrE (e : eqcore N) model :
  inelastic_new_load db (setParticleFactories inf) parse fcm fcq kec thrE e = Ok model ->
  numberProducts e = 2%Z \/ numberProducts e = 3%Z ->
  exists model0 ess Ma Mb qa qb pls,
    inelastic_new_load db (setParticleFactories inf) parse false false kec thrE (without_ops e) = Ok model0 /\
    omap (fun s => if String.eqb s "" then Ok [] else parse s) (ops_texts (e_products e)) = Ok ess /\
    db (t_species (e_A e)) = Ok (Ma, qa) /\ db (t_species (e_B e)) = Ok (Mb, qb) /\
    Forall2 (fun fr pl => (0 <= fr)%Z -> place_index pl = fr)
       (concat (map (fun t => firstn (Z.to_nat (t_n t)) (t_from t)) (e_products e))) pls /\
    forall inplace p1 p2 l (g : rng N) k, exists qs k' sc,
      s_cm sc = (if fcm || existsb (fun p => (place_index p =? 2)%Z) pls then centre_of (e_mu e) p1 p2 else vzero) /\
      s_cq sc = (if fcq || existsb (fun p => (place_index p =? 3)%Z) pls then centre_of (ReducedMass qa qb) p1 p2 else vzero) /\
      length qs = length ess /\
      map p_species qs = expand_species (e_products e) /\
      Forall2 (starts_at (e_mu e) (ReducedMass qa qb) p1 p2) pls qs /\
      model_interact inplace model0 p1 p2 l g k = Ok (p1, p2, l ++ qs, k') /\
      model_interact inplace model p1 p2 l g k =
        match each p1 p2 sc ess qs with
        | Ok rs => Ok (p1, p2, l ++ rs, k')
        | Throw x => Throw x | UB => UB | Diverge => Diverge
        end.
Proof.
  intros H Hn. destruct (ops_apart _ _ _ _ _ _ _ _ _ H Hn) as (model0 & ess & Ma & Mb & qa & qb & fs & H0 & He & HA & HB & (mout & min & Hout & Hin & Hspf) & Hi).
  destruct (massChargeOut_facts _ _ _ Hout) as [Hsp Hfr].
  unfold massChargeIn in Hin. rewrite HA in Hin. cbn [obind] in Hin. rewrite HB in Hin. cbn [obind] in Hin. injection Hin as <-.
  unfold setParticleFactories in Hspf. apply obind_ok in Hspf as ([s fs'] & E & Q). injection Q as ->.
  destruct (factories_spec (N:=N) inf _ _ irr trs _ _ _ E) as (pls & Hadm & _ & HF & _).
  exists model0, ess, Ma, Mb, qa, qb, pls. do 4 (split; [assumption|]).
  rewrite <- Hsp, <- Hfr. split. { clear -Hadm. induction Hadm; constructor; auto. }
  intros inplace p1 p2 l g k. destruct (Hi inplace p1 p2 l g k) as (qs & k' & Hl & Hc & Hm0 & Hm).
  assert (Hcm : forall o i, (i = 2%Z /\ o = CM \/ i = 3%Z /\ o = CQ) ->
     existsb (fun f => fop_eqb (f_op f) o) fs = existsb (fun p => (place_index p =? i)%Z) pls).
  { intros o i Ho. clear -HF Ho Hadm. revert fs HF. induction Hadm as [|x pl mo pls _ _ IH]; intros fs HF; inversion HF; subst; [reflexivity|].
    cbn [existsb]. f_equal; [|apply IH; assumption]. destruct H1 as [_ H1]. cbn [fst snd] in H1.
    destruct pl; destruct H1 as [_ ->]; destruct Ho as [[-> ->]|[-> ->]]; reflexivity. }
  exists qs, k'. eexists. split; [|split; [|split; [exact Hl|split; [|split; [|split; [exact Hm0|exact Hm]]]]]].
  - rewrite scratch_eq. cbn [s_cm]. rewrite (Hcm CM 2%Z) by auto. reflexivity.
  - rewrite scratch_eq. cbn [s_cq]. rewrite (Hcm CQ 3%Z) by auto. reflexivity.
  - assert (G : map p_species qs = map mc_species mout).
    2:{ exact G. }
    clear -HF Hc Hadm. revert HF Hc. generalize fs at 2. intros fs0. revert fs qs.
    induction Hadm as [|x pl mo pls _ _ IH]; intros fs qs HF Hc; inversion HF; subst; inversion Hc; subst; [reflexivity|].
    cbn [map]. f_equal; [|eapply IH; eassumption].
    match goal with H : exists w, _ = setVelocity _ w |- _ => destruct H as [w ->] end. match goal with H : realises _ _ _ |- _ => destruct H as [Ht _] end.
    cbn [fst snd] in Ht. unfold factory_create.
    destruct (f_op y); cbn; exact Ht.
  - set (b := mkInelastic (e_mu e) (ReducedMass qa qb) fs [] false false).
    assert (Hall : Forall2 (fun op f => realises (fst op) (snd op) f /\ In f (ie_factories b)) (combine mout pls) fs).
    { cbn [b ie_factories]. clear -HF.
      assert (G : forall l', incl fs l' -> Forall2 (fun op f => realises (fst op) (snd op) f /\ In f l') (combine mout pls) fs).
      { intros l' Hl. induction HF; constructor; auto. - split; auto. apply Hl; left; reflexivity.
        - apply IHHF. intros z Hz; apply Hl; right; assumption. }
      apply G, incl_refl. }
    assert (Hc' : Forall2 (fun f q => exists w, q = built b f p1 p2 w) fs qs) by exact Hc.
    change (Forall2 (starts_at (ie_mu b) (ie_muQ b) p1 p2) pls qs). clear -Hall Hc' Hadm. clearbody b. revert fs qs Hall Hc'.
    induction Hadm as [|x pl mo pls _ _ IH]; intros fs qs HF Hc; inversion HF; subst; inversion Hc; subst; [constructor|].
    match goal with H : exists w, _ = built _ _ _ _ w |- _ => destruct H as [w ->] end. match goal with H : realises _ _ _ /\ _ |- _ => destruct H as [Hr Hin] end. constructor; [|eapply IH; eassumption].
    destruct (built_realises b x pl y p1 p2 w Hin Hr) as (_ & Hst & _). exact Hst.
Qed.
End Places.
