(** Which collision models commute with a change of all particles. *)
From Coq Require Import Reals Lra Lia ZArith Bool Arith List.
From Verif Require Import Base Num ModelTerm ModelCollide ModelFactories ModelXsec ModelSet SpecTerm SpecPhys SpecSet SpecRun SpecFrame
  ProofCollide ProofInelastic ProofDriver ProofDriver2 ProofRun2 ProofFrame.
From Coq Require Import List.
Import ListNotations.

Section Affine.
Context {N : Num}.
Variables (P V : vec N -> vec N) (psi : list (particle N) -> list (particle N)).
Definition aff (p : particle N) : particle N := mkParticle (P (p_pos p)) (V (p_vel p)) (p_species p) (p_weight p).
Hypothesis psi_app : forall l x, psi (l ++ x) = psi l ++ map aff x.
Notation comm q := (commutes aff psi q).

Lemma collide_commutes mdl (f : particle N -> particle N -> N -> N -> particle N * particle N) q :
  q_model q = mdl ->
  (forall ip a b l g k, model_interact ip mdl a b l g k = let (a', b') := f a b (g_rand g k) (g_rand g (k + 1)) in
     if ip then Ok (a', b', l, (k + 2)%nat) else Ok (a, b, l ++ [a'; b'], (k + 2)%nat)) ->
  (forall a b r r', f (aff a) (aff b) r r' = let (a', b') := f a b r r' in (aff a', aff b')) -> comm q.
Proof.
  intros E H Hf ip a b l g k. rewrite E, !H, Hf. destruct (f a b _ _) as [a' b']. destruct ip; cbn [result_of obind pair4]; [reflexivity|]. rewrite psi_app. reflexivity.
Qed.
Lemma elastic_form mu ip a b l (g : rng N) k : model_interact ip (MElastic mu) a b l g k =
  let (a', b') := elastic_collide mu a b (g_rand g k) (g_rand g (k + 1)) in if ip then Ok (a', b', l, (k + 2)%nat) else Ok (a, b, l ++ [a'; b'], (k + 2)%nat).
Proof. destruct (elastic_out_in mu a b l g k) as (q1 & q2 & E1 & E2 & _ & _ & _ & _ & _ & _ & <-). now destruct ip. Qed.
Lemma vss_form mu al ip a b l (g : rng N) k : model_interact ip (MVSS mu al) a b l g k =
  let (a', b') := vss_collide mu al a b (g_rand g k) (g_rand g (k + 1)) in if ip then Ok (a', b', l, (k + 2)%nat) else Ok (a, b, l ++ [a'; b'], (k + 2)%nat).
Proof. destruct (vss_out_in mu al a b l g k) as (q1 & q2 & E1 & E2 & _ & _ & _ & _ & _ & _ & <-). now destruct ip. Qed.

(** Factories. *)
Variable fs : list factory.
Definition same_scratch (a b : particle N) (sc sc' : scratch N) : Prop :=
  forall f, In f fs -> (f_op f = CM -> s_cm sc' = P (s_cm sc)) /\ (f_op f = CQ -> s_cq sc' = P (s_cq sc)).
Lemma create_aff a b sc sc' f w : same_scratch a b sc sc' -> In f fs ->
  setVelocity (factory_create f (aff a) (aff b) sc') (V w) = aff (setVelocity (factory_create f a b sc) w).
Proof.
  intros H Hf. destruct (H f Hf) as [H1 H2]. unfold factory_create. destruct (f_src f =? 0)%Z; destruct (f_op f); unfold aff; cbn; rewrite ?H1, ?H2; reflexivity.
Qed.
End Affine.

Section Reactions.
Context {N : Num}.
Variables (P V : vec N -> vec N) (psi : list (particle N) -> list (particle N)).
Notation aff := (aff P V).
Hypothesis psi_app : forall l x, psi (l ++ x) = psi l ++ map aff x.

Lemma in22_commutes m q : q_model q = MIn22 m -> i2_useX m = false ->
  (forall a b, let sc (a b : particle N) := make_scratch (ie_factories (i2_base m)) a b (ie_mu (i2_base m)) (ie_muQ (i2_base m)) (ie_force_cm (i2_base m)) (ie_force_cq (i2_base m)) in
     same_scratch P (ie_factories (i2_base m)) a b (sc a b) (sc (aff a) (aff b))) ->
  (forall v1 v2 r r', vel22 m (V v1) (V v2) r r' = let (w1, w2) := vel22 m v1 v2 r r' in (V w1, V w2)) -> commutes aff psi q.
Proof.
  intros E Hx Hs Hv ip a b l g k. rewrite E. cbn [model_interact]. rewrite bind_result. unfold interact22. cbv zeta. specialize (Hs a b). cbv beta zeta in Hs.
  change (p_vel (aff a)) with (V (p_vel a)). change (p_vel (aff b)) with (V (p_vel b)). rewrite Hv.
  set (sc := make_scratch _ a b _ _ _ _) in *. set (sc' := make_scratch _ (aff a) (aff b) _ _ _ _) in *. clearbody sc sc'.
  unfold oget. destruct (nth_error (ie_factories _) 0) as [f0|] eqn:E0; [|reflexivity]. destruct (nth_error (ie_factories _) 1) as [f1|] eqn:E1; [|reflexivity].
  destruct (nth_error (ie_expr _) 0) as [e0|]; [|reflexivity]. destruct (nth_error (ie_expr _) 1) as [e1|]; [|reflexivity]. cbn [obind].
  destruct (vel22 m (p_vel a) (p_vel b) _ _) as [w1 w2]. rewrite Hx. unfold process. cbn [obind].
  rewrite (create_aff P V _ a b sc sc' f0 w1 Hs (nth_error_In _ _ E0)), (create_aff P V _ a b sc sc' f1 w2 Hs (nth_error_In _ _ E1)).
  cbn [result_of obind pair4]. now rewrite psi_app.
Qed.
Lemma in23_commutes m q : q_model q = MIn23 m -> i3_useX m = false ->
  (forall a b, let sc (a b : particle N) := make_scratch (ie_factories (i3_base m)) a b (ie_mu (i3_base m)) (ie_muQ (i3_base m)) (ie_force_cm (i3_base m)) (ie_force_cq (i3_base m)) in
     same_scratch P (ie_factories (i3_base m)) a b (sc a b) (sc (aff a) (aff b))) ->
  (forall v1 v2 p r r' s s', vel23 m (V v1) (V v2) p r r' s s' = let '(w1, w2, w3) := vel23 m v1 v2 p r r' s s' in (V w1, V w2, V w3)) -> commutes aff psi q.
Proof.
  intros E Hx Hs Hv ip a b l g k. rewrite E. cbn [model_interact]. rewrite bind_result. unfold interact23. cbv zeta. specialize (Hs a b). cbv beta zeta in Hs.
  change (p_vel (aff a)) with (V (p_vel a)). change (p_vel (aff b)) with (V (p_vel b)). rewrite Hv.
  set (sc := make_scratch _ a b _ _ _ _) in *. set (sc' := make_scratch _ (aff a) (aff b) _ _ _ _) in *. clearbody sc sc'.
  unfold oget. destruct (nth_error (ie_factories _) 0) as [f0|] eqn:E0; [|reflexivity]. destruct (nth_error (ie_factories _) 1) as [f1|] eqn:E1; [|reflexivity]. destruct (nth_error (ie_factories _) 2) as [f2|] eqn:E2; [|reflexivity].
  destruct (nth_error (ie_expr _) 0) as [e0|]; [|reflexivity]. destruct (nth_error (ie_expr _) 1) as [e1|]; [|reflexivity]. destruct (nth_error (ie_expr _) 2) as [e2|]; [|reflexivity]. cbn [obind].
  destruct (vel23 m (p_vel a) (p_vel b) _ _ _ _ _) as [[w1 w2] w3]. rewrite Hx. unfold process. cbn [obind].
  rewrite (create_aff P V _ a b sc sc' f0 w1 Hs (nth_error_In _ _ E0)), (create_aff P V _ a b sc sc' f1 w2 Hs (nth_error_In _ _ E1)), (create_aff P V _ a b sc sc' f2 w3 Hs (nth_error_In _ _ E2)).
  cbn [result_of obind pair4]. now rewrite psi_app.
Qed.
End Reactions.

(** ** Results of earlier runs *)
Lemma library_commutes {N : Num} (res : list (particle N)) (q : equation N) : library_model q -> commutes (fun p => p) (fun l => res ++ l) q.
Proof.
  intros H ip a b l g k. unfold library_model in H. destruct (q_model q) as [mu|mu al|m|m| |f]; [| | | |reflexivity|destruct H].
  - rewrite !elastic_form. destruct (elastic_collide _ _ _ _ _). destruct ip; cbn [result_of obind pair4]; now rewrite ?app_assoc.
  - rewrite !vss_form. destruct (vss_collide _ _ _ _ _ _). destruct ip; cbn [result_of obind pair4]; now rewrite ?app_assoc.
  - cbn [model_interact]. rewrite bind_result. unfold interact22. cbv zeta. unfold oget.
    repeat (match goal with |- context [match ?x with Some _ => _ | None => _ end] => destruct x end; [|reflexivity]). cbn [obind].
    destruct (vel22 _ _ _ _ _) as [w1 w2]. do 2 (destruct (process _ _ _ _ _ _); [|reflexivity..]; cbn [obind]). cbn [result_of obind pair4]. now rewrite app_assoc.
  - cbn [model_interact]. rewrite bind_result. unfold interact23. cbv zeta. unfold oget.
    repeat (match goal with |- context [match ?x with Some _ => _ | None => _ end] => destruct x end; [|reflexivity]). cbn [obind].
    destruct (vel23 _ _ _ _ _ _ _ _) as [[w1 w2] w3]. do 3 (destruct (process _ _ _ _ _ _); [|reflexivity..]; cbn [obind]). cbn [result_of obind pair4]. now rewrite app_assoc.
Qed.

(** ** Other positions *)
Lemma placed_commutes {N : Num} (h : vec N -> vec N) (q : equation N) : copies_positions q -> commutes (placed h) (map (placed h)) q.
Proof.
  intros H. unfold copies_positions in H.
  assert (Ap : forall l x : list (particle N), map (placed h) (l ++ x) = map (placed h) l ++ map (aff h (fun v => v)) x) by (intros; apply map_app).
  change (placed h) with (aff (N:=N) h (fun v => v)) at 1. destruct (q_model q) as [mu|mu al|m|m| |f] eqn:E; [| | | |intros ip a b l g k; rewrite E; reflexivity|destruct H].
  - apply (collide_commutes h (fun v => v) _ Ap (MElastic mu) (elastic_collide mu)); [exact E|intros; apply elastic_form|reflexivity].
  - apply (collide_commutes h (fun v => v) _ Ap (MVSS mu al) (vss_collide mu al)); [exact E|intros; apply vss_form|reflexivity].
  - destruct H as [Hx Hf]. apply (in22_commutes h (fun v => v) _ Ap m); [exact E|exact Hx| |intros; now destruct (vel22 _ _ _ _ _)].
    intros a b sc f Hin. rewrite List.Forall_forall in Hf. rewrite (Hf f Hin). split; discriminate.
  - destruct H as [Hx Hf]. apply (in23_commutes h (fun v => v) _ Ap m); [exact E|exact Hx| |intros; now destruct (vel23 _ _ _ _ _ _ _ _) as [[? ?] ?]].
    intros a b sc f Hin. rewrite List.Forall_forall in Hf. rewrite (Hf f Hin). split; discriminate.
Qed.

(** ** Another frame of reference *)
Local Open Scope R_scope.
Lemma vec_eq (a b : vec RNum) : vx a = vx b -> vy a = vy b -> vz a = vz b -> a = b.
Proof. destruct a, b. cbn. congruence. Qed.
Lemma vsub_shift (a b u : vec RNum) : vsub (vadd a u) (vadd b u) = vsub a b.
Proof. apply vec_eq; cbn; change (T RNum) with R; lra. Qed.
Lemma weighted_shift (w1 w2 : R) (a b u : vec RNum) : w1 + w2 = 1 ->
  vadd (vscale (N:=RNum) w2 (vadd a u)) (vscale (N:=RNum) w1 (vadd b u)) = vadd (vadd (vscale (N:=RNum) w2 a) (vscale (N:=RNum) w1 b)) u.
Proof. intros H. assert (E : w1 = 1 - w2) by lra. subst w1. apply vec_eq; cbn; unR; ring. Qed.
Lemma add_shift (a b u : vec RNum) : vadd (vadd a u) b = vadd (vadd a b) u.
Proof. apply vec_eq; cbn; unR; ring. Qed.
Lemma sub_shift (a b u : vec RNum) : vsub (vadd a u) b = vadd (vsub a b) u.
Proof. apply vec_eq; cbn; unR; ring. Qed.
Lemma yes_op o fs f b0 : In f fs -> f_op f = o -> fold_left (fun b f => b || fop_eqb (f_op f) o)%bool fs b0 = true.
Proof.
  intros Hin Ho. assert (G : forall fs, fold_left (fun b f => b || fop_eqb (f_op f) o)%bool fs true = true) by (induction fs0 as [|x l IH]; [reflexivity|exact IH]).
  revert b0. induction fs as [|x fs IH]; intros b0; [destruct Hin|]. cbn [fold_left]. destruct Hin as [->|Hin]; [|now apply IH].
  rewrite Ho. replace (fop_eqb o o) with true by now destruct o. rewrite orb_true_r. apply G.
Qed.
Section Gas.
Variables (mass charge : Z -> R) (u x : vec RNum).
Notation sh y := (fun v : vec RNum => vadd v y).
Lemma cm_shift (mu : reducedMass RNum) v1 v2 y : over_m1 mu + over_m2 mu = 1 -> VelCM mu (vadd v1 y) (vadd v2 y) = vadd (VelCM mu v1 v2) y.
Proof. intros H. unfold VelCM. now apply weighted_shift. Qed.
Lemma scratch_shift fs (mu muQ : reducedMass RNum) fcm fcq (a b : particle RNum) : over_m1 mu + over_m2 mu = 1 ->
  (x = vzero \/ List.Forall (fun f => f_op f <> CQ) fs) ->
  same_scratch (sh x) fs a b (make_scratch fs a b mu muQ fcm fcq) (make_scratch fs (aff (sh x) (sh u) a) (aff (sh x) (sh u) b) mu muQ fcm fcq).
Proof.
  intros Hm Hq f Hin. unfold make_scratch. cbn [s_cm s_cq aff p_pos]. split; intros Ho.
  - rewrite (yes_op CM fs f fcm Hin Ho). now apply weighted_shift.
  - rewrite (yes_op CQ fs f fcq Hin Ho). destruct Hq as [->|Hq].
    + assert (Z : forall v : vec RNum, vadd v vzero = v) by (intros v; apply vec_eq; cbn; unR; ring). now rewrite !Z.
    + rewrite List.Forall_forall in Hq. now contradiction (Hq f Hin).
Qed.
Lemma moved_commutes A B q : gas_channel mass charge A B q -> (x = vzero \/ no_charge_centre q) -> commutes (moved u x) (map (moved u x)) q.
Proof.
  intros (PA & PB & Hq) Hc. destruct (reduced_mass_facts (mass A) (mass B) PA PB) as (_ & _ & _ & Hs & _).
  set (mu := ReducedMass (N:=RNum) (mass A) (mass B)) in *.
  assert (Ap : forall l y : list (particle RNum), map (moved u x) (l ++ y) = map (moved u x) l ++ map (aff (sh x) (sh u)) y) by (intros; apply map_app).
  change (moved u x) with (aff (N:=RNum) (sh x) (sh u)) at 1. destruct Hq as [E|[(al & E)|[(kec & thrE & Hl)|E]]].
  - apply (collide_commutes (sh x) (sh u) _ Ap _ (elastic_collide mu) q E); [intros; apply elastic_form|].
    intros a b r r'. unfold elastic_collide. cbn [aff p_vel]. rewrite vsub_shift, cm_shift by exact Hs. rewrite add_shift, sub_shift. reflexivity.
  - apply (collide_commutes (sh x) (sh u) _ Ap _ (vss_collide mu al) q E); [intros; apply vss_form|].
    intros a b r r'. unfold vss_collide. cbn [aff p_vel]. rewrite vsub_shift, cm_shift by exact Hs. rewrite add_shift, sub_shift. reflexivity.
  - destruct Hl as (inf & parse & fcm & fcq & ms & Hlen & (_ & _ & Emu & Hok & HF & _) & Hx & Hload). pose proof (ProofRun2.Forall2_length _ _ _ HF) as Hle. destruct Hlen as [L|L].
    + destruct (expand_species (e_products (q_core q))) as [|s0 [|s1 [|]]] eqn:Es; rewrite L in Hle; cbn in Hle; try discriminate Hle.
      destruct (load22 _ _ _ _ _ _ _ _ _ _ _ Hok Es Hload) as (m & M0 & Q0 & M1 & Q1 & Em & _ & _ & _ & _ & _ & _ & Ex & Cl & _).
      unfold no_charge_centre in Hc. rewrite Em in Hc. rewrite Hx in Ex.
      assert (Hs' : over_m1 (ie_mu (i2_base m)) + over_m2 (ie_mu (i2_base m)) = 1) by (rewrite (cl_mu _ _ _ _ _ Cl), Emu; exact Hs).
      apply (in22_commutes (sh x) (sh u) _ Ap m q Em Ex); [intros a b; now apply scratch_shift|].
      intros v1 v2 r r'. unfold vel22, CalculateVRel. cbv zeta. rewrite vsub_shift, cm_shift by exact Hs'. rewrite add_shift, sub_shift. reflexivity.
    + destruct (expand_species (e_products (q_core q))) as [|s0 [|s1 [|s2 [|]]]] eqn:Es; rewrite L in Hle; cbn in Hle; try discriminate Hle.
      destruct (load23 _ _ _ _ _ _ _ _ _ _ _ _ Hok Es Hload) as (m & M0 & Q0 & M1 & Q1 & M2 & Q2 & Em & _ & _ & _ & _ & _ & _ & _ & _ & _ & Ex & Cl & _).
      unfold no_charge_centre in Hc. rewrite Em in Hc. rewrite Hx in Ex.
      assert (Hs' : over_m1 (ie_mu (i3_base m)) + over_m2 (ie_mu (i3_base m)) = 1) by (rewrite (cl_mu _ _ _ _ _ Cl), Emu; exact Hs).
      apply (in23_commutes (sh x) (sh u) _ Ap m q Em Ex); [intros a b; now apply scratch_shift|].
      intros v1 v2 p r r' s s'. unfold vel23, CalculateVRel. cbv zeta. rewrite vsub_shift, cm_shift by exact Hs'. rewrite !(sub_shift _ _ u), !(add_shift _ _ u). reflexivity.
  - intros ip a b l g k. rewrite E. reflexivity.
Qed.
End Gas.
