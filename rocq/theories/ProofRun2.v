(** Conservation laws of whole in-place runs. *)
From Coq Require Import Reals Lra Lia List ZArith Bool Permutation.
From Verif Require Import Base Num ModelTerm ModelCollide ModelFactories ModelXsec ModelSet SpecTerm SpecPhys SpecFactories SpecXsec SpecSet SpecMore SpecRun
  ProofTerm ProofCollide ProofInelastic ProofFactories ProofReact ProofTop1 ProofXsec ProofSet ProofThr ProofDriver ProofDriver2 ProofDriver3 ProofRun.
From Coq Require Import List.
Import ListNotations.
Local Open Scope R_scope.

Lemma Forall2_length {A B} (P : A -> B -> Prop) l l' : Forall2 P l l' -> length l = length l'.
Proof. induction 1; cbn; congruence. Qed.
Lemma Rltb_irr (x : RNum) : nltb x x = false.
Proof. cbn. destruct (Rltb_spec x x); [lra|reflexivity]. Qed.
Lemma Rltb_trs (x y z : RNum) : nltb x y = true -> nltb y z = true -> nltb x z = true.
Proof. cbn. destruct (Rltb_spec x y), (Rltb_spec y z), (Rltb_spec x z); try discriminate; try reflexivity. intros; lra. Qed.

Lemma momentum2_comp m1 (v1 : rvec) m2 v2 n1 w1 n2 w2 : momentum2 m1 v1 m2 v2 = momentum2 n1 w1 n2 w2 ->
  forall i, m1 * component i v1 + m2 * component i v2 = n1 * component i w1 + n2 * component i w2.
Proof.
  intros H i. unfold momentum2 in H. injection H as H1 H2 H3. destruct i as [|[|i]]; assumption.
Qed.
Lemma momentum3_comp m1 (v1 : rvec) m2 v2 m3 v3 n1 w1 n2 w2 : momentum3 m1 v1 m2 v2 m3 v3 = momentum2 n1 w1 n2 w2 ->
  forall i, m1 * component i v1 + m2 * component i v2 + m3 * component i v3 = n1 * component i w1 + n2 * component i w2.
Proof.
  intros H i. unfold momentum2, momentum3 in H. injection H as H1 H2 H3. destruct i as [|[|i]]; assumption.
Qed.

Section Gas.
Variables (mass charge : Z -> R).
Notation mom := (momentum_of mass).
Notation kin := (kinetic_of mass).

Lemma react_products A B kec thrE q : loaded_reaction mass charge A B kec thrE q ->
  let dE := match kec with Some d => d | None => - thrE end in
  forall ip (p1 p2 : particle RNum) l g k, exists new k',
    model_interact ip (q_model q) p1 p2 l g k = Ok (p1, p2, l ++ new, k') /\ new <> [] /\
    map p_species new = expand_species (e_products (q_core q)) /\
    (balanced mass A B q ->
       (forall i, Rsum (map (mom i) new) = mass A * component i (p_vel p1) + mass B * component i (p_vel p2)) /\
       (rng_ok g -> 0 <= mass A * mass B / (mass A + mass B) / 2 * dist2 (p_vel p1) (p_vel p2) + dE ->
        Rsum (map kin new) = kinetic (mass A) (p_vel p1) + kinetic (mass B) (p_vel p2) + dE)).
Proof.
  intros (inf & parse & fcm & fcq & ms & Hlen & Hr & Hx & Hload) dE ip p1 p2 l g k.
  pose proof Hr as (_ & _ & _ & Hok & HF & _).
  assert (Hle : (length (expand_species (e_products (q_core q))) = 2 \/ length (expand_species (e_products (q_core q))) = 3)%nat).
  { rewrite (Forall2_length _ _ _ HF). exact Hlen. }
  destruct (react_sources_gen (N:=RNum) inf Rltb_irr Rltb_trs _ _ _ _ _ _ _ _ ip p1 p2 l g k Hok Hle Hx Hload) as (qs & _ & k' & _ & _ & _ & _ & Hm & _ & _ & Hsp & _).
  exists qs, k'. split; [exact Hm|]. split.
  { intros ->. rewrite <- Hsp in Hle. cbn in Hle. lia. }
  split; [exact Hsp|]. intros Hbal.
  assert (Hbal' : Rsum (map mass (expand_species (e_products (q_core q)))) = mass A + mass B).
  { destruct (dispatch (species_db mass charge) (setParticleFactories (N:=RNum) inf) parse fcm fcq kec thrE (q_core q)) as [_ Hd].
    unfold balanced in Hbal. destruct (q_model q) eqn:Em; try exact Hbal; exfalso;
      destruct (model_appends ip (q_model q) p1 p2 l g k p1 p2 (l ++ qs) k'); try (rewrite Em; exact I); try (rewrite Em; exact Hm).
    - destruct (Hd _ Hload) as [H2 H3]. destruct Hle as [L|L].
      + destruct H2 as (m & ? & _); [rewrite (numberProducts_len _ Hok), L; reflexivity|discriminate].
      + destruct H3 as (m & ? & _); [rewrite (numberProducts_len _ Hok), L; reflexivity|discriminate].
    - destruct (Hd _ Hload) as [H2 H3]. destruct Hle as [L|L].
      + destruct H2 as (m & ? & _); [rewrite (numberProducts_len _ Hok), L; reflexivity|discriminate].
      + destruct H3 as (m & ? & _); [rewrite (numberProducts_len _ Hok), L; reflexivity|discriminate]. }
  assert (Hms : ms = map mass (map p_species qs)).
  { rewrite Hsp. clear -HF. induction HF as [|s m ss ms (qq & H) HF IH]; [reflexivity|]. cbn [map]. rewrite <- IH. unfold species_db in H. injection H as -> _. reflexivity. }
  rewrite <- Hsp in Hbal'. destruct Hlen as [L|L].
  - destruct ms as [|M0 [|M1 [|]]]; try discriminate.
    destruct qs as [|a [|b [|]]]; try discriminate. injection Hms as -> ->. cbn [map Rsum] in *.
    destruct (react22 _ _ _ _ _ _ _ _ _ _ _ _ _ ip p1 p2 l g k Hr Hx Hload) as (q1 & q2 & Hq & _ & Hmom & Hen).
    rewrite Hm in Hq. injection Hq as Hl _. apply app_inv_head in Hl. injection Hl as <- <-. split.
    + intros i. pose proof (momentum2_comp _ _ _ _ _ _ _ _ (Hmom ltac:(lra)) i). unfold momentum_of. cbn [map Rsum]. lra.
    + intros Hg HE. etransitivity; [|exact (Hen ltac:(lra) (proj1 (Hg k)) HE)]. unfold kinetic_of. cbn [map Rsum]. lra.
  - destruct ms as [|M0 [|M1 [|M2 [|]]]]; try discriminate.
    destruct qs as [|a [|b [|c [|]]]]; try discriminate. injection Hms as -> -> ->. cbn [map Rsum] in *.
    destruct (react23 _ _ _ _ _ _ _ _ _ _ _ _ _ _ ip p1 p2 l g k Hr Hx Hload) as (q1 & q2 & q3 & Hq & _ & Hmom & Hen).
    rewrite Hm in Hq. injection Hq as Hl _. apply app_inv_head in Hl. injection Hl as <- <- <-. split.
    + intros i. pose proof (momentum3_comp _ _ _ _ _ _ _ _ _ _ (Hmom ltac:(lra)) i). unfold momentum_of. lra.
    + intros Hg HE. etransitivity; [|exact (Hen ltac:(lra) Hg HE)]. unfold kinetic_of. cbn [map Rsum]. lra.
Qed.

Lemma reaction_appends A B kec thrE q : loaded_reaction mass charge A B kec thrE q -> appends (q_model q).
Proof.
  intros (inf & parse & fcm & fcq & ms & Hlen & Hr & Hx & Hload). pose proof Hr as (_ & _ & _ & Hok & HF & _).
  destruct (dispatch (species_db mass charge) (setParticleFactories (N:=RNum) inf) parse fcm fcq kec thrE (q_core q)) as [_ Hd].
  destruct (Hd _ Hload) as [H2 H3]. rewrite <- (Forall2_length _ _ _ HF) in Hlen. destruct Hlen as [L|L].
  - destruct H2 as (m & -> & _); [rewrite (numberProducts_len _ Hok), L; reflexivity|exact I].
  - destruct H3 as (m & -> & _); [rewrite (numberProducts_len _ Hok), L; reflexivity|exact I].
Qed.
Lemma gas_appends A B q : gas_channel mass charge A B q -> appends (q_model q).
Proof.
  intros (_ & _ & [->|[(al & ->)|[(kec & thrE & H)| ->]]]); [exact I|exact I| |exact I]. eapply reaction_appends; eassumption.
Qed.

Lemma set_channels K ip rhs msv (pA pB : particle RNum) l g k x : set_interact (N:=RNum) K ip rhs msv pA pB l g k = Ok x ->
  exists cs, channels K rhs (relspeed (p_vel pA) (p_vel pB)) cs.
Proof.
  intros H. unfold set_interact in H. cbv zeta in H. rewrite vabs_relspeed in H.
  apply obind_ok in H as (y & H & _). unfold calculateOutPath in H. apply obind_ok in H as (cs & H & _).
  exists cs. now apply channel_ok.
Qed.
(** A selected channel of a pair in species order. *)
Lemma selected_in_order K g rhs (A B : nat) msv (pA pB : particle RNum) l k path a b l' k' : (A <= B)%nat ->
  p_species pA = Z.of_nat A -> p_species pB = Z.of_nat B ->
  set_interact (N:=RNum) K true rhs msv pA pB l g k = Ok (path, a, b, l', k') -> (0 <= fst path)%Z ->
  exists q k1, nth_error rhs (Z.to_nat (fst path)) = Some q /\ model_interact true (q_model q) pA pB l g k1 = Ok (a, b, l', k').
Proof.
  intros HAB TA TB H L. apply set_interact_order in H as (k1 & _ & [(L' & _)|(e & _ & En & [(_ & H)|(Hlt & _)])]); [lia| |lia].
  eauto.
Qed.

Lemma species_step (h : Z -> R) K g db (A B : nat) : (A <= B)%nat ->
  List.Forall (gas_channel mass charge (Z.of_nat A) (Z.of_nat B)) (db A B) ->
  step_ok (fun p => h (p_species p)) K g (db A B) A B (species_change h db A B) (species_change h db A B).
Proof.
  intros HAB HG msv pA pB l k path a b l' k' TA TB H L.
  destruct (selected_in_order _ _ _ _ _ _ _ _ _ _ _ _ _ _ _ HAB TA TB H L) as (q & k1 & Eq & Hm).
  rewrite List.Forall_forall in HG. specialize (HG q (nth_error_In _ _ Eq)).
  unfold species_change. rewrite Eq.
  destruct HG as (_ & _ & [Em|[(al & Em)|[(kec & thrE & HR)|Em]]]); [| | |rewrite Em in Hm; discriminate Hm].
  - rewrite Em in Hm |- *. destruct (elastic_out_in (ReducedMass (N:=RNum) (mass (Z.of_nat A)) (mass (Z.of_nat B))) pA pB l g k1) as (q1 & q2 & E & _ & _ & S1 & _ & _ & S2 & _).
    rewrite E in Hm. injection Hm as <- <- <- _. exists []. rewrite app_nil_r. split; [reflexivity|]. rewrite S1, S2. split; [lra|auto].
  - rewrite Em in Hm |- *. destruct (vss_out_in (ReducedMass (N:=RNum) (mass (Z.of_nat A)) (mass (Z.of_nat B))) al pA pB l g k1) as (q1 & q2 & E & _ & _ & S1 & _ & _ & S2 & _).
    rewrite E in Hm. injection Hm as <- <- <- _. exists []. rewrite app_nil_r. split; [reflexivity|]. rewrite S1, S2. split; [lra|auto].
  - destruct (react_products _ _ _ _ _ HR true pA pB l g k1) as (new & k2 & E & Hne & Hsp & _).
    rewrite E in Hm. injection Hm as _ _ <- _. exists new. split; [reflexivity|]. split; [|contradiction].
    assert (Hs : Rsum (map (fun p => h (p_species p)) new) = Rsum (map h (expand_species (e_products (q_core q))))) by (rewrite <- (map_map p_species h), Hsp; reflexivity).
    assert (Hc : (match q_model q with MElastic _ | MVSS _ _ => 0 | _ => Rsum (map h (expand_species (e_products (q_core q)))) - (h (Z.of_nat A) + h (Z.of_nat B)) end)
      = Rsum (map h (expand_species (e_products (q_core q)))) - (h (Z.of_nat A) + h (Z.of_nat B))).
    { destruct (q_model q) eqn:Em; try reflexivity; exfalso;
      [destruct (elastic_out_in mu pA pB l g k1) as (q1 & q2 & E' & _)|destruct (vss_out_in mu vss_param_inv pA pB l g k1) as (q1 & q2 & E' & _)];
      rewrite E' in E; injection E as _ _ E _; rewrite <- (app_nil_r l) in E at 1; apply app_inv_head in E; congruence. }
    rewrite Hc. destruct new as [|n0 new]; [contradiction|]. rewrite Hs, TA, TB. lra.
Qed.

Lemma momentum_step i K g rhs (A B : nat) : (A <= B)%nat ->
  List.Forall (gas_channel mass charge (Z.of_nat A) (Z.of_nat B)) rhs -> List.Forall (balanced mass (Z.of_nat A) (Z.of_nat B)) rhs ->
  step_ok (mom i) K g rhs A B (fun _ => 0) (fun _ => 0).
Proof.
  intros HAB HG HB msv pA pB l k path a b l' k' TA TB H L.
  destruct (selected_in_order _ _ _ _ _ _ _ _ _ _ _ _ _ _ _ HAB TA TB H L) as (q & k1 & Eq & Hm).
  rewrite List.Forall_forall in HG, HB. specialize (HG q (nth_error_In _ _ Eq)). specialize (HB q (nth_error_In _ _ Eq)).
  destruct HG as (PA & PB & [Em|[(al & Em)|[(kec & thrE & HR)|Em]]]); [| | |rewrite Em in Hm; discriminate Hm].
  - rewrite Em in Hm. destruct (elastic_out_in (ReducedMass (N:=RNum) (mass (Z.of_nat A)) (mass (Z.of_nat B))) pA pB l g k1) as (q1 & q2 & E & _ & _ & S1 & _ & _ & S2 & _).
    destruct (top_momentum _ _ pA pB l g k1 PA PB) as (r1 & r2 & E' & Hmom). rewrite E in E'. injection E' as <- <-.
    rewrite E in Hm. injection Hm as <- <- <- _. exists []. rewrite app_nil_r. split; [reflexivity|]. split; [|auto].
    pose proof (momentum2_comp _ _ _ _ _ _ _ _ Hmom i). unfold momentum_of. rewrite S1, S2, TA, TB. lra.
  - rewrite Em in Hm. destruct (vss_out_in (ReducedMass (N:=RNum) (mass (Z.of_nat A)) (mass (Z.of_nat B))) al pA pB l g k1) as (q1 & q2 & E & _ & _ & S1 & _ & _ & S2 & _).
    destruct (top_vss _ _ al pA pB l g k1 PA PB) as (r1 & r2 & E' & Hmom & _). rewrite E in E'. injection E' as <- <-.
    rewrite E in Hm. injection Hm as <- <- <- _. exists []. rewrite app_nil_r. split; [reflexivity|]. split; [|auto].
    pose proof (momentum2_comp _ _ _ _ _ _ _ _ Hmom i). unfold momentum_of. rewrite S1, S2, TA, TB. lra.
  - destruct (react_products _ _ _ _ _ HR true pA pB l g k1) as (new & k2 & E & Hne & Hsp & Hbal).
    rewrite E in Hm. injection Hm as _ _ <- _. exists new. split; [reflexivity|]. split; [|contradiction].
    destruct (Hbal HB) as [Hmom _]. specialize (Hmom i). destruct new as [|n0 new]; [contradiction|].
    rewrite Hmom. unfold momentum_of. rewrite TA, TB. lra.
Qed.

(** Kinetic energy from momentum and relative velocity. *)
Lemma koenig m1 m2 (p1 p2 : particle RNum) : 0 < m1 -> 0 < m2 ->
  kinetic m1 (p_vel p1) + kinetic m2 (p_vel p2) =
  m1 * m2 / (m1 + m2) / 2 * norm2 (relvel p1 p2) +
  ((m1 * component 0 (p_vel p1) + m2 * component 0 (p_vel p2)) ^ 2 + (m1 * component 1 (p_vel p1) + m2 * component 1 (p_vel p2)) ^ 2 +
   (m1 * component 2 (p_vel p1) + m2 * component 2 (p_vel p2)) ^ 2) / (2 * (m1 + m2)).
Proof.
  intros H1 H2. unfold kinetic, norm2, relvel. cbn [component vx vy vz]. generalize (vx (p_vel p1)) (vy (p_vel p1)) (vz (p_vel p1)) (vx (p_vel p2)) (vy (p_vel p2)) (vz (p_vel p2)).
  cbn [T RNum]. intros. field. lra.
Qed.

Lemma energy_step K g rhs (A B : nat) (dE loss : nat -> R) : (A <= B)%nat -> rng_ok g ->
  (forall j q, nth_error rhs j = Some q -> energy_channel mass charge (Z.of_nat A) (Z.of_nat B) q (dE j) (loss j)) ->
  cross_sections_ok K rhs ->
  step_ok kin K g rhs A B (fun j => dE j - loss j) dE.
Proof.
  intros HAB Hg HG Hcs msv pA pB l k path a b l' k' TA TB H L.
  destruct (selected_in_order _ _ _ _ _ _ _ _ _ _ _ _ _ _ _ HAB TA TB H L) as (q & k1 & Eq & Hm).
  destruct (HG _ _ Eq) as (PA & PB & Hch).
  set (mA := mass (Z.of_nat A)) in *. set (mB := mass (Z.of_nat B)) in *.
  destruct Hch as [(Em & Ed & Elo)|[(al & Hal & Em & Ed & Elo)|[(kec & E & fuel & allowed & inf & ninf & tol & solve & doc & HR & Hbal & Hdoc & Hinf & Hsol & Hl & HE & Ed & Hlow & Elo)|Em]]]; [| | |rewrite Em in Hm; discriminate Hm].
  - rewrite Ed, Elo. rewrite Em in Hm. destruct (elastic_out_in (ReducedMass (N:=RNum) mA mB) pA pB l g k1) as (q1 & q2 & E & _ & _ & S1 & _ & _ & S2 & _).
    destruct (top_energy _ _ pA pB l g k1 PA PB Hg) as (r1 & r2 & E' & _ & Hen). rewrite E in E'. injection E' as <- <-.
    rewrite E in Hm. injection Hm as <- <- <- _. exists []. rewrite app_nil_r. split; [reflexivity|]. split; [|auto].
    unfold kinetic_of. rewrite S1, S2, TA, TB. fold mA mB. lra.
  - rewrite Ed, Elo. rewrite Em in Hm. destruct (vss_out_in (ReducedMass (N:=RNum) mA mB) al pA pB l g k1) as (q1 & q2 & E & _ & _ & S1 & _ & _ & S2 & _).
    destruct (top_vss _ _ al pA pB l g k1 PA PB) as (r1 & r2 & E' & Hmom & Hrel). rewrite E in E'. injection E' as <- <-.
    rewrite E in Hm. injection Hm as <- <- <- _. exists []. rewrite app_nil_r. split; [reflexivity|]. split; [|auto].
    unfold kinetic_of. rewrite S1, S2, TA, TB. fold mA mB.
    destruct (Hrel ltac:(apply Hg) Hal) as [R1 R2]. cbv zeta in R1, R2.
    rewrite (koenig mA mB q1 q2 PA PB), (koenig mA mB pA pB PA PB).
    rewrite !(momentum2_comp _ _ _ _ _ _ _ _ Hmom).
    set (D := R_sqrt.sqrt _) in R1, R2.
    assert (Hmu : 0 < mA * mB / (mA + mB)).
    { apply Rmult_lt_0_compat; [apply Rmult_lt_0_compat; assumption|apply Rinv_0_lt_compat; lra]. }
    set (mu := mA * mB / (mA + mB)) in *.
    destruct (Rle_or_lt D (1 / 1000000)) as [HD|HD].
    + destruct (R2 HD) as [-> HD2]. assert (0 <= D ^ 2) by apply pow2_ge_0.
      assert (0 <= mu / 2 * D ^ 2) by (apply Rmult_le_pos; lra).
      assert (mu / 2 * D ^ 2 <= mu / 2 * (1 / 1000000000000)) by (apply Rmult_le_compat_l; lra). lra.
    + destruct (R1 (or_introl HD)) as (-> & _). lra.
  - rewrite Elo. destruct (react_products _ _ _ _ _ HR true pA pB l g k1) as (new & k2 & E2 & Hne & Hsp & Hb).
    rewrite E2 in Hm. injection Hm as _ _ Hl' Hk. exists new. split; [congruence|]. split; [|contradiction].
    destruct (Hb Hbal) as [_ Hen]. fold mA mB in Hen.
    destruct HR as (inf' & parse & fcm & fcq & ms & _ & Hr & _). pose proof Hr as (_ & _ & Hmu & _).
    destruct (set_channels _ _ _ _ _ _ _ _ _ _ H) as (cs & Hc). pose proof (Hcs _ cs (relspeed_nonneg _ _) Hc) as Hnn.
    destruct (selected K fuel allowed inf ninf tol solve (q_core q) doc (q_cs q) (q_model q) rhs msv true pA pB l g k (Z.to_nat (fst path)) path a b l' k' mA mB cs)
      as ((E' & HE' & Haff) & _); try assumption.
    { rewrite Eq. destruct q; reflexivity. } { symmetry; apply Z2Nat.id; assumption. }
    rewrite HE in HE'. injection HE' as <-.
    assert (Hlo : low pA pB = pA /\ high pA pB = pB).
    { unfold low, high. rewrite TA, TB. destruct (Z.ltb_spec (Z.of_nat B) (Z.of_nat A)); [lia|auto]. }
    destruct Hlo as [-> ->] in Haff. 
    destruct new as [|n0 new]; [contradiction|].
    rewrite Hen; [|assumption|rewrite <- Ed; lra]. unfold kinetic_of. rewrite TA, TB, <- Ed. fold mA mB. lra.
Qed.

Lemma energy_appends A B q dE loss : energy_channel mass charge A B q dE loss -> appends (q_model q).
Proof.
  intros (_ & _ & [(-> & _)|[(al & _ & -> & _)|[(kec & E & fuel & allowed & inf & ninf & tol & solve & doc & HR & _)| ->]]]); [exact I|exact I| |exact I].
  eapply reaction_appends; eassumption.
Qed.

Lemma over_zero log : over_collisions (fun _ _ _ => 0) log = 0.
Proof. unfold over_collisions. induction log as [|e log IH]; cbn [map Rsum]; [reflexivity|]. rewrite IH. destruct (0 <=? snd e)%Z; lra. Qed.

Section Runs.
Variables (K : R) (fuel : nat) (dt : R) (c : cell RNum) (nprops : nat) (db : nat -> nat -> list (equation RNum))
  (res : list (particle RNum)) (er : list nat) (g : rng RNum) (k : nat) (s : dstate RNum).
Hypothesis Hg : rng_ok g.
Hypothesis Hb : bounded (2 ^ 31) (c_ranges c).
Hypothesis Hd : disjoint (c_ranges c).
Hypothesis Ht : typed (c_mem c) (c_ranges c).
Hypothesis Hrun : driver (N:=RNum) K fuel true dt c nprops db res er g k = Ok s.

Lemma run_species (h : Z -> R) :
  (forall A B, (A <= B)%nat -> List.Forall (gas_channel mass charge (Z.of_nat A) (Z.of_nat B)) (db A B)) ->
  (forall A B, (B < A)%nat -> db A B = []) ->
  amount (fun p => h (p_species p)) (s_mem s) (s_ranges s) (s_res s) =
    amount (fun p => h (p_species p)) (c_mem c) (c_ranges c) res + over_collisions (species_change h db) (s_log s).
Proof.
  intros HG Hlow. destruct (run_amount (fun p => h (p_species p)) K fuel dt c nprops db res er g k s (2 ^ 31) (species_change h db) (species_change h db)) as [_ H]; try assumption.
  - apply rpos_ok, Hg.
  - intros A B. destruct (Nat.le_gt_cases A B) as [L|L]; [|rewrite Hlow by assumption; constructor].
    eapply List.Forall_impl; [|exact (HG A B L)]. intros q Hq. eapply gas_appends; eassumption.
  - intros A B L. apply species_step; auto.
  - lra.
Qed.

Lemma run_momentum (i : nat) :
  (forall A B, (A <= B)%nat -> List.Forall (gas_channel mass charge (Z.of_nat A) (Z.of_nat B)) (db A B) /\ List.Forall (balanced mass (Z.of_nat A) (Z.of_nat B)) (db A B)) ->
  (forall A B, (B < A)%nat -> db A B = []) ->
  amount (mom i) (s_mem s) (s_ranges s) (s_res s) = amount (mom i) (c_mem c) (c_ranges c) res.
Proof.
  intros HG Hlow. destruct (run_amount (mom i) K fuel dt c nprops db res er g k s (2 ^ 31) (fun _ _ _ => 0) (fun _ _ _ => 0)) as [_ H]; try assumption.
  - apply rpos_ok, Hg.
  - intros A B. destruct (Nat.le_gt_cases A B) as [L|L]; [|rewrite Hlow by assumption; constructor].
    eapply List.Forall_impl; [|exact (proj1 (HG A B L))]. intros q Hq. eapply gas_appends; eassumption.
  - intros A B L. destruct (HG A B L). apply momentum_step; assumption.
  - rewrite !over_zero in H. lra.
Qed.

Lemma run_energy (dE loss : nat -> nat -> nat -> R) :
  (forall A B j q, (A <= B)%nat -> nth_error (db A B) j = Some q -> energy_channel mass charge (Z.of_nat A) (Z.of_nat B) q (dE A B j) (loss A B j)) ->
  (forall A B, (A <= B)%nat -> cross_sections_ok K (db A B)) ->
  (forall A B, (B < A)%nat -> db A B = []) ->
  amount kin (c_mem c) (c_ranges c) res + over_collisions (fun A B j => dE A B j - loss A B j) (s_log s)
    <= amount kin (s_mem s) (s_ranges s) (s_res s)
    <= amount kin (c_mem c) (c_ranges c) res + over_collisions dE (s_log s).
Proof.
  intros HG Hcs Hlow. destruct (run_amount kin K fuel dt c nprops db res er g k s (2 ^ 31) (fun A B j => dE A B j - loss A B j) dE) as [_ H]; try assumption.
  - apply rpos_ok, Hg.
  - intros A B. destruct (Nat.le_gt_cases A B) as [L|L]; [|rewrite Hlow by assumption; constructor].
    apply List.Forall_forall. intros q Hq. apply In_nth_error in Hq as (j & Hj). eapply energy_appends. eapply HG; eassumption.
  - intros A B L. apply energy_step; [assumption|assumption|intros j q Hj; eapply HG; eassumption|apply Hcs; assumption].
Qed.
End Runs.
End Gas.
