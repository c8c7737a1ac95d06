(** Lemmas on the inelastic models and on product lists. *)
From Coq Require Import Reals Lra Lia String List ZArith Bool.
From Verif Require Import Base Num ModelTerm ModelCollide SpecTerm SpecPhys ProofTerm ProofCollide.
Import ListNotations.

(** Inversion of a successful step. *)
Lemma obind_ok {A B} (x : outcome A) (f : A -> outcome B) b :
  obind x f = Ok b -> exists a, x = Ok a /\ f a = Ok b.
Proof. destruct x; cbn; intros H; try discriminate. eauto. Qed.

Ltac oinv H :=
  let a := fresh "a" in let H1 := fresh "E" in let H2 := fresh "E" in
  apply obind_ok in H as (a & H1 & H2).

Lemma omap_ok {A B} (f : A -> outcome B) l ys :
  omap f l = Ok ys -> Forall2 (fun x y => f x = Ok y) l ys.
Proof.
  revert ys; induction l as [|x l IH]; cbn; intros ys H.
  - injection H as <-; constructor.
  - apply obind_ok in H as (y & Hy & H). apply obind_ok in H as (zs & Hz & H).
    injection H as <-. constructor; auto.
Qed.

Lemma omap_ok_iff {A B} (f : A -> outcome B) l ys :
  omap f l = Ok ys <-> Forall2 (fun x y => f x = Ok y) l ys.
Proof.
  split; [apply omap_ok|]. induction 1; cbn; [reflexivity|].
  rewrite H, IHForall2. reflexivity.
Qed.

Section AnyNum.
Context {N : Num}.

Lemma upd_last_two {A} (l : list A) a b a' b' :
  upd (length (l ++ [a; b]) - 1) b' (upd (length (l ++ [a; b]) - 2) a' (l ++ [a; b])) = l ++ [a'; b'].
Proof.
  rewrite app_length; cbn [length].
  replace (length l + 2 - 2)%nat with (length l) by lia.
  replace (length l + 2 - 1)%nat with (S (length l)) by lia.
  induction l as [|x l IH]; [reflexivity|].
  cbn [length upd app]. f_equal. apply IH.
Qed.

Lemma collide_last_two_app f l (p1 p2 : particle N) :
  collide_last_two f (l ++ [p1; p2]) = Ok (l ++ [fst (f p1 p2); snd (f p1 p2)]).
Proof.
  unfold collide_last_two, oget.
  rewrite !app_length; cbn [length].
  rewrite (nth_error_app2 l [p1; p2]) by lia.
  rewrite (nth_error_app2 l [p1; p2]) by lia.
  replace (length l + 2 - 2 - length l)%nat with 0%nat by lia.
  replace (length l + 2 - 1 - length l)%nat with 1%nat by lia.
  cbn [nth_error obind]. destruct (f p1 p2) as [a b]; cbn [fst snd].
  f_equal. pose proof (upd_last_two l p1 p2 a b) as H. rewrite app_length in H. exact H.
Qed.

Lemma app2 {A} (l : list A) a b : l ++ [a] ++ [b] = l ++ [a; b].
Proof. reflexivity. Qed.

(** C03. *)
Lemma elastic_out_in mu p1 p2 l (g : rng N) k :
  exists q1 q2,
    model_interact true (MElastic mu) p1 p2 l g k = Ok (q1, q2, l, (k + 2)%nat) /\
    model_interact false (MElastic mu) p1 p2 l g k = Ok (p1, p2, l ++ [q1; q2], (k + 2)%nat) /\
    p_pos q1 = p_pos p1 /\ p_species q1 = p_species p1 /\ p_weight q1 = p_weight p1 /\
    p_pos q2 = p_pos p2 /\ p_species q2 = p_species p2 /\ p_weight q2 = p_weight p2 /\
    (q1, q2) = elastic_collide mu p1 p2 (g_rand g k) (g_rand g (k + 1)).
Proof.
  eexists _, _. cbn [model_interact]. rewrite app2, collide_last_two_app.
  cbn [obind]. split; [reflexivity|]. split; [reflexivity|]. cbn. repeat split.
Qed.
Lemma vss_out_in mu al p1 p2 l (g : rng N) k :
  exists q1 q2,
    model_interact true (MVSS mu al) p1 p2 l g k = Ok (q1, q2, l, (k + 2)%nat) /\
    model_interact false (MVSS mu al) p1 p2 l g k = Ok (p1, p2, l ++ [q1; q2], (k + 2)%nat) /\
    p_pos q1 = p_pos p1 /\ p_species q1 = p_species p1 /\ p_weight q1 = p_weight p1 /\
    p_pos q2 = p_pos p2 /\ p_species q2 = p_species p2 /\ p_weight q2 = p_weight p2 /\
    (q1, q2) = vss_collide mu al p1 p2 (g_rand g k) (g_rand g (k + 1)).
Proof.
  eexists _, _. cbn [model_interact]. rewrite app2, collide_last_two_app.
  cbn [obind]. split; [reflexivity|]. split; [reflexivity|]. cbn. repeat split.
Qed.

(** Species expansion and term expansion. *)
Lemma expand_species_terms l : expand_species l = map t_species (expand_terms l).
Proof.
  unfold expand_species, expand_terms. rewrite concat_map, map_map. f_equal.
  apply map_ext. intros t. induction (Z.to_nat (t_n t)); cbn; congruence.
Qed.

Lemma product_species l i s : terms_ok l -> (0 <= i)%Z ->
  nth_error (expand_species l) (Z.to_nat i) = Some s ->
  exists t, getTermForProduct l i = Ok t /\ t_species t = s.
Proof.
  intros Hok Hi H. rewrite getTermForProduct_spec by assumption.
  rewrite expand_species_terms, nth_error_map in H.
  destruct (nth_error (expand_terms l) (Z.to_nat i)) as [t|]; [|discriminate].
  cbn in H. injection H as <-. eauto.
Qed.

Lemma numberProducts_len (e : eqcore N) : terms_ok (e_products e) ->
  numberProducts e = Z.of_nat (length (expand_species (e_products e))).
Proof.
  intros. unfold numberProducts. rewrite countComponents_expand by assumption.
  rewrite expand_species_terms, map_length. reflexivity.
Qed.

(** What a successful load with two products yields. *)
Definition energy_change (kec : option N) (thrE : N) : N :=
  match kec with Some d => d | None => nsub n0 thrE end.

Record common_loaded (db : Z -> outcome (N * N))
  (spf : list (massCharge N) -> list (massCharge N) -> outcome (list factory))
  (e : eqcore N) (b : inelastic N) (n : nat) : Prop := {
  cl_mu : ie_mu b = e_mu e;
  cl_nf : length (ie_factories b) = n;
  cl_ne : length (ie_expr b) = n;
  cl_fac : exists mout min, massChargeOut db (e_products e) = Ok mout /\
           massChargeIn db e = Ok min /\ spf min mout = Ok (ie_factories b);
  cl_muQ : exists mA qA mB qB, db (t_species (e_A e)) = Ok (mA, qA) /\
           db (t_species (e_B e)) = Ok (mB, qB) /\ ie_muQ b = ReducedMass qA qB
}.

Lemma make_inelastic_ok db spf parse fcm fcq e b n :
  numberProducts e = Z.of_nat n ->
  make_inelastic db spf parse fcm fcq e = Ok b -> common_loaded db spf e b n.
Proof.
  intros Hn H. unfold make_inelastic in H.
  oinv H. destruct a as [mA qA]. oinv E0. destruct a as [mB qB].
  oinv E2. oinv E3. oinv E4. oinv E5.
  destruct (_ || _)%bool eqn:Hc; [discriminate|]. injection E6 as <-.
  apply orb_false_elim in Hc as [Hc1 Hc2]. apply negb_false_iff in Hc1, Hc2.
  rewrite Hn in Hc1, Hc2. apply Z.eqb_eq in Hc1, Hc2.
  constructor; cbn; try reflexivity; try lia.
  - eauto 6.
  - exists mA, qA, mB, qB. auto.
Qed.

Lemma load22 db spf parse fcm fcq kec thrE (e : eqcore N) model s0 s1 :
  terms_ok (e_products e) -> expand_species (e_products e) = [s0; s1] ->
  inelastic_new_load db spf parse fcm fcq kec thrE e = Ok model ->
  let dE := energy_change kec thrE in
  exists m M0 Q0 M1 Q1,
    model = MIn22 m /\ db s0 = Ok (M0, Q0) /\ db s1 = Ok (M1, Q1) /\
    i2_mu1 m = ReducedMass M0 M1 /\
    i2_mu1_scale m = nsqrt (ndiv (rm_value (e_mu e)) (rm_value (ReducedMass M0 M1))) /\
    i2_dV2rel m = ndiv (if negb (neqb dE n0) then dE else n0) (nmul nhalf (rm_value (e_mu e))) /\
    i2_hasE m = negb (neqb dE n0) /\
    i2_useX m = hasExpressions (e_products e) /\
    common_loaded db spf e (i2_base m) 2 /\
    (forall f, In f (ie_factories (i2_base m)) -> (f_src f <= 1)%Z).
Proof.
  intros Hok Hexp H dE. unfold inelastic_new_load in H. fold (energy_change kec thrE) in H. fold dE in H.
  pose proof (numberProducts_len e Hok) as Hn. rewrite Hexp in Hn. cbn [length] in Hn.
  rewrite Hn in H. change (Z.of_nat 2 =? 2)%Z with true in H. cbv iota in H.
  oinv H. oinv E0. injection E2 as <-.
  apply make_inelastic_ok with (n := 2%nat) in E; [|assumption].
  unfold make22 in E1.
  destruct (negb (neqb dE n0) && _)%bool; [discriminate|].
  destruct (_ || _)%bool; [discriminate|].
  destruct (negb (Bool.eqb _ _)); [discriminate|].
  destruct (existsb _ (ie_factories a)) eqn:Hs; [discriminate|].
  destruct (product_species (e_products e) 0 s0 Hok) as (t0 & Ht0 & <-); [lia|rewrite Hexp; reflexivity|].
  destruct (product_species (e_products e) 1 s1 Hok) as (t1 & Ht1 & <-); [lia|rewrite Hexp; reflexivity|].
  rewrite Ht0, Ht1 in E1. cbn [obind] in E1.
  oinv E1. destruct a1 as [M0 Q0]. oinv E2. destruct a1 as [M1 Q1].
  injection E3 as <-.
  exists (mkIE22 a (negb (neqb dE n0)) (hasExpressions (e_products e)) (ReducedMass M0 M1)
     (nsqrt (ndiv (rm_value (ie_mu a)) (rm_value (ReducedMass M0 M1))))
     (ndiv (if negb (neqb dE n0) then dE else n0) (nmul nhalf (rm_value (e_mu e))))), M0, Q0, M1, Q1.
  cbn. rewrite (cl_mu _ _ _ _ _ E). repeat (split; [assumption || reflexivity|]).
  intros f Hf. destruct (Z_le_gt_dec (f_src f) 1); [assumption|].
  exfalso. rewrite <- not_true_iff_false in Hs. apply Hs. apply existsb_exists. exists f. split; [assumption|].
  apply Z.ltb_lt; lia.
Qed.

Lemma load23 db spf parse fcm fcq kec thrE (e : eqcore N) model s0 s1 s2 :
  terms_ok (e_products e) -> expand_species (e_products e) = [s0; s1; s2] ->
  inelastic_new_load db spf parse fcm fcq kec thrE e = Ok model ->
  let dE := energy_change kec thrE in
  exists m M0 Q0 M1 Q1 M2 Q2,
    model = MIn23 m /\ db s0 = Ok (M0, Q0) /\ db s1 = Ok (M1, Q1) /\ db s2 = Ok (M2, Q2) /\
    i3_mu1 m = ReducedMass M0 (nadd M1 M2) /\ i3_mu2 m = ReducedMass M1 M2 /\
    i3_mu1_scale m = nsqrt (ndiv (rm_value (e_mu e)) (rm_value (ReducedMass M0 (nadd M1 M2)))) /\
    i3_mu2_scale m = nsqrt (ndiv (rm_value (e_mu e)) (rm_value (ReducedMass M1 M2))) /\
    i3_dV2rel m = ndiv (if negb (neqb dE n0) then dE else n0) (nmul nhalf (rm_value (e_mu e))) /\
    i3_hasE m = negb (neqb dE n0) /\
    i3_useX m = hasExpressions (e_products e) /\
    common_loaded db spf e (i3_base m) 3 /\
    (forall f, In f (ie_factories (i3_base m)) -> (f_src f <= 2)%Z).
Proof.
  intros Hok Hexp H dE. unfold inelastic_new_load in H. fold (energy_change kec thrE) in H. fold dE in H.
  pose proof (numberProducts_len e Hok) as Hn. rewrite Hexp in Hn. cbn [length] in Hn.
  rewrite Hn in H. change (Z.of_nat 3 =? 2)%Z with false in H. change (Z.of_nat 3 =? 3)%Z with true in H. cbv iota in H.
  oinv H. oinv E0. injection E2 as <-.
  apply make_inelastic_ok with (n := 3%nat) in E; [|assumption].
  unfold make23 in E1.
  destruct (negb (neqb dE n0) && _)%bool; [discriminate|].
  destruct (_ || _)%bool; [discriminate|].
  destruct (negb (Bool.eqb _ _)); [discriminate|].
  destruct (existsb _ (ie_factories a)) eqn:Hs; [discriminate|].
  destruct (product_species (e_products e) 0 s0 Hok) as (t0 & Ht0 & <-); [lia|rewrite Hexp; reflexivity|].
  destruct (product_species (e_products e) 1 s1 Hok) as (t1 & Ht1 & <-); [lia|rewrite Hexp; reflexivity|].
  destruct (product_species (e_products e) 2 s2 Hok) as (t2 & Ht2 & <-); [lia|rewrite Hexp; reflexivity|].
  rewrite Ht0, Ht1, Ht2 in E1. cbn [obind] in E1.
  oinv E1. destruct a1 as [M0 Q0]. oinv E2. destruct a1 as [M1 Q1]. oinv E3. destruct a1 as [M2 Q2].
  injection E4 as <-.
  exists (mkIE23 a (negb (neqb dE n0)) (hasExpressions (e_products e)) (ReducedMass M0 (nadd M1 M2)) (ReducedMass M1 M2)
     (nsqrt (ndiv (rm_value (ie_mu a)) (rm_value (ReducedMass M0 (nadd M1 M2)))))
     (nsqrt (ndiv (rm_value (ie_mu a)) (rm_value (ReducedMass M1 M2))))
     (ndiv (if negb (neqb dE n0) then dE else n0) (nmul nhalf (rm_value (e_mu e))))), M0, Q0, M1, Q1, M2, Q2.
  cbn. rewrite (cl_mu _ _ _ _ _ E). repeat (split; [assumption || reflexivity|]).
  intros f Hf. destruct (Z_le_gt_dec (f_src f) 2); [assumption|].
  exfalso. rewrite <- not_true_iff_false in Hs. apply Hs. apply existsb_exists. exists f. split; [assumption|].
  apply Z.ltb_lt; lia.
Qed.

(** Shape of a collision without expressions. *)
Definition built (b : inelastic N) (f : factory) (p1 p2 : particle N) (w : vec N) : particle N :=
  setVelocity (factory_create f p1 p2
    (make_scratch (ie_factories b) p1 p2 (ie_mu b) (ie_muQ b) (ie_force_cm b) (ie_force_cq b))) w.

Lemma interact22_shape inplace m p1 p2 l (g : rng N) k :
  i2_useX m = false -> length (ie_factories (i2_base m)) = 2%nat -> length (ie_expr (i2_base m)) = 2%nat ->
  exists f0 f1, ie_factories (i2_base m) = [f0; f1] /\
  model_interact inplace (MIn22 m) p1 p2 l g k =
    let w := vel22 m (p_vel p1) (p_vel p2) (g_rand g k) (g_rand g (k + 1)) in
    Ok (p1, p2, l ++ [built (i2_base m) f0 p1 p2 (fst w); built (i2_base m) f1 p1 p2 (snd w)], (k + 2)%nat).
Proof.
  intros Hx Hf He.
  destruct (ie_factories (i2_base m)) as [|f0 [|f1 [|? ?]]] eqn:E; try discriminate.
  exists f0, f1. split; [reflexivity|].
  cbn [model_interact]. unfold interact22. rewrite E, Hx.
  destruct (ie_expr (i2_base m)) as [|e0 [|e1 [|? ?]]]; try discriminate.
  unfold oget, nth_error, obind, built. rewrite E.
  destruct (vel22 _ _ _ _ _) as [w1 w2]. reflexivity.
Qed.

Lemma interact23_shape inplace m p1 p2 l (g : rng N) k :
  i3_useX m = false -> length (ie_factories (i3_base m)) = 3%nat -> length (ie_expr (i3_base m)) = 3%nat ->
  exists f0 f1 f2, ie_factories (i3_base m) = [f0; f1; f2] /\
  model_interact inplace (MIn23 m) p1 p2 l g k =
    let w := vel23 m (p_vel p1) (p_vel p2) (g_rand g k) (g_rand g (k + 1)) (g_rand g (k + 2)) (g_rand g (k + 3)) (g_rand g (k + 4)) in
    Ok (p1, p2, l ++ [built (i3_base m) f0 p1 p2 (fst (fst w)); built (i3_base m) f1 p1 p2 (snd (fst w));
                      built (i3_base m) f2 p1 p2 (snd w)], (k + 5)%nat).
Proof.
  intros Hx Hf He.
  destruct (ie_factories (i3_base m)) as [|f0 [|f1 [|f2 [|? ?]]]] eqn:E; try discriminate.
  exists f0, f1, f2. split; [reflexivity|].
  cbn [model_interact]. unfold interact23. rewrite E, Hx.
  destruct (ie_expr (i3_base m)) as [|e0 [|e1 [|e2 [|? ?]]]]; try discriminate.
  unfold oget, nth_error, obind, built. rewrite E.
  destruct (vel23 _ _ _ _ _ _ _ _) as [[w1 w2] w3]. reflexivity.
Qed.
End AnyNum.

Local Open Scope R_scope.
(** ** Splitting with a scale *)
Lemma splits_momentum m1 m2 s (cm W : rvec) : 0 < m1 -> 0 < m2 ->
  let mu := ReducedMass (N:=RNum) m1 m2 in
  momentum2 m1 (vadd cm (vscale (nmul (over_m1 mu) s) W)) m2 (vsub cm (vscale (nmul (over_m2 mu) s) W))
  = scale3 (m1 + m2) (vx cm, vy cm, vz cm).
Proof.
  intros H1 H2. cbv zeta. rewrite rm_over1, rm_over2 by assumption.
  destruct cm as [a1 b1 c1], W as [aw bw cw]; unfold momentum2, scale3, vadd, vsub, vscale; cbn [vx vy vz]; unR.
  apply f_equal2; [apply f_equal2|]; field; lra.
Qed.
Lemma splits_energy m1 m2 s (cm W : rvec) : 0 < m1 -> 0 < m2 ->
  let mu := ReducedMass (N:=RNum) m1 m2 in
  kinetic m1 (vadd cm (vscale (nmul (over_m1 mu) s) W)) + kinetic m2 (vsub cm (vscale (nmul (over_m2 mu) s) W))
  = kinetic (m1 + m2) cm + rm_value mu / 2 * (s * s) * norm2 W.
Proof.
  intros H1 H2. cbv zeta. rewrite rm_over1, rm_over2, rm_val by assumption.
  destruct cm as [a1 b1 c1], W as [aw bw cw]; unfold kinetic, norm2, vadd, vsub, vscale; cbn [vx vy vz]; unR.
  field; lra.
Qed.
Lemma cm_momentum mA mB v1 v2 c : 0 < mA -> 0 < mB ->
  let cm := VelCM (ReducedMass (N:=RNum) mA mB) v1 v2 in
  scale3 c (vx cm, vy cm, vz cm) = scale3 (c / (mA + mB)) (momentum2 mA v1 mB v2).
Proof.
  intros H1 H2. cbv zeta. unfold VelCM. rewrite rm_over1, rm_over2 by assumption.
  destruct v1 as [a1 b1 c1], v2 as [a2 b2 c2]; unfold momentum2, scale3, vadd, vsub, vscale; cbn [vx vy vz]; unR.
  apply f_equal2; [apply f_equal2|]; field; lra.
Qed.
Lemma cm_energy mA mB v1 v2 : 0 < mA -> 0 < mB ->
  kinetic (mA + mB) (VelCM (ReducedMass (N:=RNum) mA mB) v1 v2)
  = kinetic mA v1 + kinetic mB v2 - rm_value (ReducedMass (N:=RNum) mA mB) / 2 * dist2 v1 v2.
Proof.
  intros H1 H2. unfold VelCM. rewrite rm_over1, rm_over2, rm_val by assumption.
  destruct v1 as [a1 b1 c1], v2 as [a2 b2 c2]; unfold kinetic, norm2, dist2, vadd, vsub, vscale; cbn [vx vy vz]; unR.
  field; lra.
Qed.

Lemma scale_sq a b : 0 < a -> 0 < b -> b / 2 * (R_sqrt.sqrt (a / b) * R_sqrt.sqrt (a / b)) = a / 2.
Proof.
  intros. rewrite sqrt_sqrt; [field; lra|]. left. apply Rdiv_lt_0_compat; assumption.
Qed.

(** CalculateVRel squared. *)
Lemma vrel_sq hasE (v1 v2 : rvec) dE mu : 0 < mu ->
  hasE = negb (Reqb dE 0) -> 0 <= mu / 2 * dist2 v1 v2 + dE ->
  mu / 2 * (CalculateVRel (N:=RNum) hasE v1 v2 ((if hasE then dE else 0) / (1 / 2 * mu))%R) ^ 2
  = mu / 2 * dist2 v1 v2 + dE.
Proof.
  intros Hmu -> Hnn. unfold CalculateVRel. destruct (Reqb_spec dE 0) as [->|Hne]; cbn [negb].
  - rewrite vabs_relspeed, relspeed_sq. ring.
  - rewrite vsqr_dist2. unR. rewrite <- Rsqr_pow2, Rsqr_sqrt.
    + field. lra.
    + apply Rmult_le_reg_l with (mu / 2); [lra|]. rewrite Rmult_0_r.
      replace (mu / 2 * (dist2 v1 v2 + dE / (1 / 2 * mu))) with (mu / 2 * dist2 v1 v2 + dE) by (field; lra).
      assumption.
Qed.
