(** Lemmas for SpecUnits. *)
From Coq Require Import String List ZArith Reals Lra Lia Bool.
From Flocq Require Import IEEE754.BinarySingleNaN.
From Verif Require Import Base Num ModelTerm ModelCollide ModelXsec ModelEq ModelMisc ModelUnits SpecUnits ProofInelastic ProofLoad2 ProofF64.
From Coq Require Import List.
Import ListNotations.
Local Open Scope string_scope.
Local Open Scope list_scope.

Section Units.
Context {N : Num}.
Lemma dims_eqb_eq a b : dims_eqb a b = true <-> a = b.
Proof.
  unfold dims_eqb. rewrite !andb_true_iff, !Z.eqb_eq. destruct a, b; cbn. split.
  - intros [[[[-> ->] ->] ->] ->]. reflexivity.
  - intros [= -> -> -> -> ->]. tauto.
Qed.
Lemma getCoeff_ok u (q : qty N) c : getCoeff u q = Ok c <-> q = mkQty c u.
Proof.
  unfold getCoeff. destruct (dims_eqb (q_u q) u) eqn:E.
  - apply dims_eqb_eq in E. destruct q as [c' u']; cbn in *. subst u'. split; [intros [= ->]|intros [= ->]]; reflexivity.
  - split; [discriminate|]. intros ->. cbn in E. rewrite (proj2 (dims_eqb_eq u u) eq_refl) in E. discriminate.
Qed.
Ltac units := change (area * (energy * energy))%dims with u_m2J2 in *; change (area * speed)%dims with u_m3_s in *; change energy with u_J in *; change area with u_m2 in *;
  change speed with u_m_s in *; change dimensionless with u_none in *; change a_temperature with u_K in *; change a_mass with u_kg in *; change a_charge with u_C in *.
Lemma query_ok (k : kids N) name u c : query k name u = Ok c <-> child k name u c.
Proof.
  unfold query, child. destruct (k name) as [q|]; [|split; discriminate].
  rewrite getCoeff_ok. split; [intros ->; reflexivity|intros [= ->]; reflexivity].
Qed.
Lemma threshold_ok (k : kids N) t : read_threshold k = Ok t <-> threshold_child k t.
Proof.
  unfold read_threshold, threshold_child, child. destruct (k "threshold") as [[c u]|].
  - cbn [q_u q_c]. destruct (dims_eqb u u_m_s) eqn:E.
    + apply dims_eqb_eq in E. subst u. split.
      * intros [= <-]. reflexivity.
      * destruct t as [[e|v]|]; intros [= ->]; reflexivity.
    + unfold getCoeff. cbn [q_u q_c]. destruct (dims_eqb u u_J) eqn:E'.
      * apply dims_eqb_eq in E'. subst u. cbn [obind]. split; [intros [= <-]; reflexivity|].
        destruct t as [[e|v]|]; intros [= ->]; reflexivity.
      * cbn [obind]. split; [discriminate|]. destruct t as [[e|v]|]; intros [= -> ->]; discriminate.
  - split; [intros [= <-]; reflexivity|]. destruct t as [[e|v]|]; [discriminate|discriminate|reflexivity].
Qed.
Lemma row_ok (r : qty N * qty N) x : parse_row r = Ok x <-> row_says r x.
Proof.
  destruct r as [[c u] [c2 u2]], x as [w y]. unfold parse_row, row_says. cbn [fst snd q_u q_c]. split.
  - intros H. apply obind_ok in H as (v & Ev & H). apply obind_ok in H as (s & Es & H). injection H as <- <-.
    apply getCoeff_ok in Es. split; [exact Es|]. destruct (dims_eqb u u_J) eqn:E.
    + apply dims_eqb_eq in E. subst u. injection Ev as <-. reflexivity.
    + apply obind_ok in Ev as (v' & E2 & Ev). injection Ev as <-. apply getCoeff_ok in E2. exact E2.
  - intros [[= -> ->] H]. destruct w as [e|v]; injection H as -> ->; reflexivity.
Qed.
Lemma shell_ok m_e (k : kids N) p : parse_shell m_e k = Ok p <-> shell_says m_e k p.
Proof.
  unfold parse_shell, shell_says. split.
  - intros H. apply obind_ok in H as (P & E1 & H). apply obind_ok in H as (q & E2 & H). apply obind_ok in H as (a & E3 & H).
    apply obind_ok in H as (b & E4 & H). apply obind_ok in H as (c & E5 & H). injection H as <-. unfold lotz_parse. cbn.
    apply query_ok in E1, E2, E3, E4, E5. auto 8.
  - intros (E1 & E2 & E3 & E4 & E5 & E6). apply query_ok in E1, E2, E3, E4, E5. units. rewrite E1, E2, E3, E4, E5. cbn.
    unfold lotz_parse. rewrite <- E6. destruct p; reflexivity.
Qed.
Lemma parse_exact tg m_e l (x : xs_xml N) d : parse_xs tg m_e l x = Ok d <-> says tg m_e x l d.
Proof.
  split.
  - unfold parse_xs.
    destruct (String.eqb_spec l "vhs") as [->|_].
    { unfold parse_vhs. intros H. apply obind_ok in H as (c & E1 & H). apply obind_ok in H as (T & E2 & H). apply obind_ok in H as (w & E3 & H).
      apply obind_ok in H as (t & E4 & H). injection H as <-. apply query_ok in E1, E2, E3. apply threshold_ok in E4. constructor; auto. }
    destruct (String.eqb_spec l "log") as [->|_].
    { unfold parse_log. intros H. apply obind_ok in H as (A & E1 & H). apply obind_ok in H as (B & E2 & H).
      apply obind_ok in H as (t & E4 & H). injection H as <-. apply query_ok in E1, E2. apply threshold_ok in E4. constructor; auto. }
    destruct (String.eqb_spec l "data") as [->|_].
    { unfold parse_data. intros H. apply obind_ok in H as (rows & E1 & H). injection H as <-. constructor.
      apply (proj1 (omap_forall2 parse_row row_says row_ok _ _) E1). }
    destruct (String.eqb_spec l "lotz") as [->|_].
    { unfold parse_lotz. intros H. apply obind_ok in H as (ps & E1 & H). injection H as <-. constructor.
      apply (proj1 (omap_forall2 _ _ (shell_ok m_e) _ _) E1). }
    destruct (String.eqb_spec l "inverse") as [->|_].
    { unfold parse_inverse. intros H. apply obind_ok in H as (A & E1 & H).
      apply obind_ok in H as (t & E4 & H). injection H as <-. apply query_ok in E1. apply threshold_ok in E4. constructor; auto. }
    destruct (String.eqb_spec l "constant") as [->|_].
    { unfold parse_constant. intros H. apply obind_ok in H as (A & E1 & H).
      apply obind_ok in H as (t & E4 & H). injection H as <-. apply query_ok in E1. apply threshold_ok in E4. constructor; auto. }
    discriminate.
  - destruct 1 as [v t E1 E2|v t E1 E2|A B t E1 E2 E3|i t E1 E2 E3 E4 E5|rows E|ps E]; unfold parse_xs; cbn [String.eqb Ascii.eqb Bool.eqb].
    + apply query_ok in E1. apply threshold_ok in E2. units. unfold parse_constant. rewrite E1. cbn. now rewrite E2.
    + apply query_ok in E1. apply threshold_ok in E2. units. unfold parse_inverse. rewrite E1. cbn. now rewrite E2.
    + apply query_ok in E1, E2. apply threshold_ok in E3. units. unfold parse_log. rewrite E1. cbn. rewrite E2. cbn. now rewrite E3.
    + apply query_ok in E1, E2, E3. apply threshold_ok in E4. units. unfold parse_vhs. rewrite E1. cbn. rewrite E2. cbn. rewrite E3. cbn. rewrite E4. cbn.
      rewrite <- E5. destruct i; reflexivity.
    + unfold parse_data. apply (proj2 (omap_forall2 parse_row row_says row_ok _ _)) in E. now rewrite E.
    + unfold parse_lotz. apply (proj2 (omap_forall2 _ _ (shell_ok m_e) _ _)) in E. now rewrite E.
Qed.

(** Never undefined. *)
Lemma bind_defined {A B} (a : outcome A) (f : A -> outcome B) :
  a <> UB /\ a <> Diverge -> (forall x, f x <> UB /\ f x <> Diverge) -> obind a f <> UB /\ obind a f <> Diverge.
Proof. intros [H1 H2] Hf. destruct a; cbn; auto; split; congruence. Qed.
Lemma getCoeff_def u (q : qty N) : getCoeff u q <> UB /\ getCoeff u q <> Diverge.
Proof. unfold getCoeff. destruct (dims_eqb _ _); split; discriminate. Qed.
Lemma query_def (k : kids N) n u : query k n u <> UB /\ query k n u <> Diverge.
Proof. unfold query. destruct (k n); [apply getCoeff_def|split; discriminate]. Qed.
Lemma thr_def (k : kids N) : read_threshold k <> UB /\ read_threshold k <> Diverge.
Proof.
  unfold read_threshold. destruct (k _) as [q|]; [|split; discriminate]. destruct (dims_eqb _ _); [split; discriminate|].
  apply bind_defined; [apply getCoeff_def|]. split; discriminate.
Qed.
Lemma omap_def {A B} (f : A -> outcome B) l : (forall x, f x <> UB /\ f x <> Diverge) -> omap f l <> UB /\ omap f l <> Diverge.
Proof.
  intros H. induction l as [|a l IH]; cbn [omap]; [split; discriminate|].
  apply bind_defined; [apply H|]. intros y. apply bind_defined; [apply IH|]. split; discriminate.
Qed.
Lemma parse_defined tg m_e l (x : xs_xml N) : parse_xs tg m_e l x <> UB /\ parse_xs tg m_e l x <> Diverge.
Proof.
  unfold parse_xs, parse_vhs, parse_log, parse_data, parse_lotz, parse_inverse, parse_constant, parse_row, parse_shell.
  repeat (destruct (String.eqb l _); [|]);
    repeat (apply bind_defined || apply query_def || apply thr_def || apply getCoeff_def || apply omap_def || intros ? || (split; discriminate)).
  all: destruct (dims_eqb _ _); repeat (apply bind_defined || apply getCoeff_def || intros ? || (split; discriminate)).
Qed.

Lemma registry_cs fuel allowed inf ninf tol solve spf parse fcm fcq (x : xinter N) e l d :
  xi_cs x = Some (Some l, d) ->
  let reg := default_reg fuel allowed inf ninf tol solve spf parse fcm fcq in
  (l = kind_label d -> load_cs reg x e = xs_load fuel allowed inf ninf tol solve (e_mu e) d) /\
  (known_label l -> l <> kind_label d -> load_cs reg x e = Throw ExnNotFound) /\
  (~ known_label l -> load_cs reg x e = Throw ExnXml).
Proof.
  intros E. cbv zeta. unfold load_cs, default_reg. rewrite E. cbn [r_cs]. split; [|split].
  - intros ->. destruct d; reflexivity.
  - intros K H. repeat (destruct K as [<-|K]); try contradiction; destruct d; cbn in H; try reflexivity; congruence.
  - intros K. unfold known_label in K. cbn [In] in K.
    destruct (String.eqb_spec l "vhs"); [subst; tauto|]. destruct (String.eqb_spec l "log"); [subst; tauto|].
    destruct (String.eqb_spec l "data"); [subst; tauto|]. destruct (String.eqb_spec l "lotz"); [subst; tauto|].
    destruct (String.eqb_spec l "inverse"); [subst; tauto|]. destruct (String.eqb_spec l "constant"); [subst; tauto|]. reflexivity.
Qed.
Lemma says_kind tg m_e (x : xs_xml N) l d : says tg m_e x l d -> l = kind_label d.
Proof. destruct 1; reflexivity. Qed.

Lemma kec_ok (k : kids N) r : read_kec k = Ok r <->
  match r with Some e => child k "KineticEnergyChange" energy e | None => k "KineticEnergyChange" = None end.
Proof.
  unfold read_kec, child. destruct (k "KineticEnergyChange") as [q|].
  - split.
    + intros H. apply obind_ok in H as (e & E & H). injection H as <-. apply getCoeff_ok in E. now rewrite E.
    + destruct r as [e|]; [|discriminate]. intros [= ->]. units. now rewrite (proj2 (getCoeff_ok u_J _ e) eq_refl).
  - split; [intros [= <-]; reflexivity|]. destruct r; [discriminate|reflexivity].
Qed.
Lemma opt_prop (k : kids N) name u c :
  prop_load false n0 (option_map (getCoeff u) (k name)) = Ok c <-> or_zero k name u c.
Proof.
  unfold prop_load, or_zero, child. destruct (k name) as [q|]; cbn [option_map].
  - rewrite getCoeff_ok. split; [intros ->; now left|intros [[= ->]|[? _]]; [reflexivity|discriminate]].
  - split; [intros [= <-]; now right|intros [?|[_ ->]]; [discriminate|reflexivity]].
Qed.
Lemma particle_ok name (k : kids N) p : read_particle name k = Ok p <-> particle_says name k p.
Proof.
  unfold read_particle, particle_says. split.
  - intros H. apply obind_ok in H as (n & E1 & H). apply obind_ok in H as (m & E2 & H). apply obind_ok in H as (q & E3 & H). injection H as <-.
    cbn. apply opt_prop in E2, E3. split; [|auto]. destruct name; cbn in E1; [congruence|discriminate].
  - intros (-> & E2 & E3). apply opt_prop in E2, E3. units. cbn [option_map prop_load obind]. rewrite E2. cbn [obind]. rewrite E3. destruct p; reflexivity.
Qed.
End Units.

(** ** Two ways of writing one document, real arithmetic *)
Section Real.
Local Open Scope R_scope.
Variable mu : reducedMass RNum.
Hypothesis Hmu : 0 < rm_value mu.
Lemma thr_value t : loadThreshold (N:=RNum) t mu n0 = threshold_energy mu t.
Proof. destruct t as [[e|v]|]; cbn; unfold collision_energy, n0; cbn; lra || field. Qed.
Lemma row_value q q' : same_point mu q q' ->
  match q with QVelocity v => v | QEnergy e => nsqrt (n:=RNum) (ndiv (n:=RNum) e (nmul (n:=RNum) (nhalf (N:=RNum)) (rm_value mu))) end =
  match q' with QVelocity v => v | QEnergy e => nsqrt (n:=RNum) (ndiv (n:=RNum) e (nmul (n:=RNum) (nhalf (N:=RNum)) (rm_value mu))) end.
Proof.
  assert (S : forall v, 0 <= v -> sqrt (collision_energy mu v / (1 / 2 * rm_value mu)) = v).
  { intros v Hv. unfold collision_energy. replace (_ / _) with (v * v) by (field; lra). now apply sqrt_square. }
  destruct q as [e|v], q' as [e'|v']; cbn; intros H; try congruence.
  - destruct H as [H ->]. now apply S.
  - destruct H as [H ->]. symmetry. now apply S.
Qed.
Lemma same_load fuel allowed inf ninf tol solve d d' : same_doc mu d d' ->
  xs_load (N:=RNum) fuel allowed inf ninf tol solve mu d = xs_load fuel allowed inf ninf tol solve mu d'.
Proof.
  destruct 1 as [v t t' E|v t t' E|A B t t' E|i t t' E|rows rows' H|ps]; cbn [xs_load].
  1-4: change (ofZ (n:=RNum) 0) with (@n0 RNum); rewrite !thr_value, E; reflexivity.
  - f_equal. f_equal. unfold loadCrossSectionData. generalize (@nil (RNum * RNum)).
    induction H as [|[q s] [q' s'] rows rows' [Hq Hs] H IH]; intros t; [reflexivity|].
    cbn [fold_left fst snd] in *. rewrite (row_value q q' Hq), Hs. apply IH.
  - reflexivity.
Qed.
End Real.

(** ** binary64 *)
Section Float.
Context (lm : libm).
Notation N := (F64 lm).
Lemma nan_first (s : N) rows : 
  fold_left (fun t (r : N * N) => table_insert (N:=N) r t) rows [(fnan, s) : N * N] = [(fnan, s)].
Proof.
  induction rows as [|[v y] rows IH]; [reflexivity|]. cbn [fold_left].
  assert (T : table_insert (N:=N) (v, y) [(fnan, s) : N * N] = [(fnan, s)]); [|etransitivity; [exact (f_equal _ T)|exact IH]].
  cbn [table_insert fst]. change (nltb (n:=N) v fnan) with (Bltb v fnan). change (nltb (n:=N) fnan v) with (Bltb fnan v).
  replace (Bltb v fnan) with false by (destruct v; reflexivity). replace (Bltb fnan v) with false by (destruct v; reflexivity). reflexivity.
Qed.
Lemma nan_table (mu : reducedMass N) (e s : N) rows : Bltb (fdiv e (fmul (@nhalf N) (rm_value mu))) (fofZ 0) = true ->
  loadCrossSectionData mu ((QEnergy (N:=N) e, s) :: rows) = [(fnan, s)].
Proof.
  intros H. unfold loadCrossSectionData. cbn [fold_left fst snd].
  change (nsqrt (n:=N) (ndiv (n:=N) e (nmul (n:=N) nhalf (rm_value mu)))) with (fsqrt (fdiv e (fmul (@nhalf N) (rm_value mu)))).
  rewrite (fsqrt_neg _ H). cbn [table_insert].
  set (g := fun r : quantity N * N => (match fst r with QVelocity v => v | QEnergy e => nsqrt (n:=N) (ndiv (n:=N) e (nmul (n:=N) nhalf (rm_value mu))) end, snd r)).
  etransitivity; [|apply (nan_first s (map g rows))].
  assert (G : forall rs (t : table N), fold_left (fun t r => table_insert (N:=N) (g r) t) rs t = fold_left (fun t r => table_insert (N:=N) r t) (map g rs) t).
  { clear. induction rs as [|r rs IH]; intros t; [reflexivity|]. cbn [fold_left map]. apply IH. }
  apply G.
Qed.
Lemma nan_sigma (d : data N) s v : d_table d = [(fnan, s)] -> data_sigma d v = Ok (fofZ 0).
Proof.
  intros E. unfold data_sigma. rewrite E. cbn [lower_bound fst]. change (nltb (n:=N) fnan v) with (Bltb fnan v).
  replace (Bltb fnan v) with false by (destruct v; reflexivity). cbn [data_eval fst].
  change (neqb (n:=N) fnan v) with (Beqb fnan v). replace (Beqb fnan v) with false by (destruct v; reflexivity). reflexivity.
Qed.
Lemma mul_zero_not_pos (V : binary64) : Bltb (fofZ 0) (fmul V (fofZ 0)) = false.
Proof. change (fofZ 0) with (B754_zero false : binary64). destruct V as [[]|[]| |[]]; reflexivity. Qed.
Lemma nan_max (d : data N) s V : d_table d = [(fnan, s)] -> data_max d V = Ok (fofZ 0, fofZ 0).
Proof.
  intros E. pose proof (nan_sigma d s V E) as S. unfold data_sigma in S. unfold data_max. cbv zeta. rewrite S. rewrite E.
  cbn [lower_bound fst]. change (nltb (n:=N) fnan V) with (Bltb fnan V).
  replace (Bltb fnan V) with false by (destruct V; reflexivity). cbn [fst fold_left obind]. unfold max_step. cbn [fst].
  change (nltb (n:=N) n0 (nmul (n:=N) V (fofZ 0))) with (Bltb (fofZ 0) (fmul V (fofZ 0))). rewrite mul_zero_not_pos. reflexivity.
Qed.
Lemma negative_row (K_B : N) fuel allowed inf ninf tol solve (mu : reducedMass N) (e s : N) rows :
  Bltb (fdiv e (fmul (@nhalf N) (rm_value mu))) (fofZ 0) = true ->
  let load := xs_load (N:=N) fuel allowed inf ninf tol solve mu (DData ((QEnergy (N:=N) e, s) :: rows)) in
  (Beqb s (fofZ 0) = true -> load = UB) /\
  (Beqb s (fofZ 0) = false -> exists c, load = Ok c /\
    (forall v, sigma (N:=N) K_B c v = Ok (fofZ 0)) /\ (forall V, findMaxSigmaV (N:=N) K_B c V = Ok (fofZ 0, fofZ 0)) /\
    getThresholdEnergy c = Ok fnan).
Proof.
  intros H. cbv zeta. cbn [xs_load]. rewrite (nan_table mu e s rows H). unfold data_init. cbn [checkThreshold snd].
  change (neqb (n:=N) s n0) with (Beqb s (fofZ 0)). split; intros ->.
  - reflexivity.
  - cbn [obind]. replace (setCoeffs (N:=N) fuel allowed [(fnan, s)]) with (Ok (n0, n0, n0, n0) : outcome (N * N * N * N)) by (destruct allowed; reflexivity).
    cbn [obind]. eexists. split; [reflexivity|]. split; [|split].
    + intros v. cbn [sigma]. apply (nan_sigma _ s). reflexivity.
    + intros V. cbn [findMaxSigmaV]. apply (nan_max _ s). reflexivity.
    + cbn [getThresholdEnergy]. unfold data_thrE. cbn [d_table d_mu fst]. f_equal. unfold sqr.
      change (nmul (n:=N) fnan fnan) with (fmul fnan fnan). rewrite fmul_nan_l. apply fmul_nan_r.
Qed.

Lemma massless (v1 v2 w : vec N) : let mu := ReducedMass (N:=N) n0 n0 in
  vadd (VelCM mu v1 v2) w = vnan lm /\ vsub (VelCM mu v1 v2) w = vnan lm.
Proof.
  cbv zeta.
  assert (E : VelCM (ReducedMass (N:=N) n0 n0) v1 v2 = vnan lm).
  { unfold VelCM. replace (over_m1 (ReducedMass (N:=N) n0 n0)) with (fnan : N) by reflexivity.
    replace (over_m2 (ReducedMass (N:=N) n0 n0)) with (fnan : N) by reflexivity.
    unfold vadd, vscale, vnan. cbn [vx vy vz]. f_equal.
    all: match goal with |- nadd (nmul _ ?a) (nmul _ ?b) = _ => change (fadd (fmul fnan a) (fmul fnan b) = fnan) end; rewrite !fmul_nan_l; apply fadd_nan_l. }
  rewrite E. split; [apply vadd_nan_l|apply vsub_nan_l].
Qed.
End Float.
