(** What 'ops' expressions leave alone in a whole collision. *)
From Coq Require Import Reals Lra Lia ZArith String Bool List.
From Verif Require Import Base Num ModelTerm ModelCollide ModelOps ModelFactories SpecTerm SpecPhys SpecFactories SpecOps
  ProofInelastic ProofFactories ProofReact ProofRun2 ProofOps.
From Coq Require Import List.
Import ListNotations.
Local Open Scope list_scope.

Section Trees.
Context {N : Num}.
Variables (toint : N -> outcome Z) (charge : Z -> outcome N).

Lemma trees_of (parse : string -> outcome (list (qexp N))) texts ess :
  omap (fun s => if String.eqb s "" then Ok [] else parse_ops toint charge parse s) texts = Ok ess ->
  exists trees, omap (fun s => if String.eqb s "" then Ok [] else parse s) texts = Ok trees /\
    ess = map (map (op_expr toint charge)) trees.
Proof.
  revert ess. induction texts as [|s texts IH]; cbn [omap]; intros ess H.
  - injection H as <-. exists []. auto.
  - apply obind_ok in H as (x & Ex & H). apply obind_ok in H as (y & Ey & H). injection H as <-.
    apply IH in Ey as (ts & Et & ->). rewrite Et.
    destruct (String.eqb s "").
    + injection Ex as <-. exists ([] :: ts). auto.
    + unfold parse_ops in Ex. apply obind_ok in Ex as (es & Ee & Ex). injection Ex as <-.
      exists (es :: ts). rewrite Ee. auto.
Qed.

Lemma each_frame p1 p2 sc (trees : list (list (qexp N))) : forall qs rs,
  length qs = length trees ->
  each p1 p2 sc (map (map (op_expr toint charge)) trees) qs = Ok rs ->
  map p_species rs = map p_species qs /\
  (existsb (existsb (calls is_setVelocity)) trees = false -> map p_vel rs = map p_vel qs) /\
  (existsb (existsb (calls is_setPosition)) trees = false -> map p_pos rs = map p_pos qs) /\
  (existsb (existsb (calls is_setWeight)) trees = false -> map p_weight rs = map p_weight qs).
Proof.
  induction trees as [|es trees IH]; intros qs rs Hl H.
  - destruct qs; [|discriminate]. injection H as <-. auto.
  - destruct qs as [|q qs]; [discriminate|]. cbn [map each] in H.
    destruct (in_turn _ _ _ _ q) as [r| | |] eqn:E; try discriminate.
    destruct (each _ _ _ _ qs) as [rs'| | |] eqn:E'; try discriminate. injection H as <-.
    apply turn_frame in E as (A1 & A2 & A3 & A4).
    apply IH in E' as (B1 & B2 & B3 & B4); [|now injection Hl].
    cbn [map existsb]. split; [congruence|].
    repeat split; intros C; apply orb_false_elim in C as [C1 C2].
    + rewrite A2, B2; auto.
    + rewrite A3, B3; auto.
    + rewrite A4, B4; auto.
Qed.

Lemma terms_bare l : terms_ok l -> terms_ok (map bare l).
Proof.
  unfold terms_ok. intros [H1 H2]. split.
  - clear H2. induction H1; constructor; auto.
  - assert (E : length (expand_terms (map bare l)) = length (expand_terms l)).
    { unfold expand_terms. clear. induction l as [|t l IH]; [reflexivity|]. cbn. rewrite !app_length, !repeat_length. now rewrite IH. }
    rewrite E. exact H2.
Qed.
Lemma species_bare l : expand_species (map bare l) = expand_species l.
Proof. unfold expand_species. rewrite map_map. reflexivity. Qed.
Lemma reaction_bare pos db e mA mB ms : reaction (N:=N) pos db e mA mB ms -> reaction pos db (without_ops e) mA mB ms.
Proof.
  intros (HA & HB & Hm & Ht & Hs & Hp). unfold reaction, without_ops, e_A, e_B. cbn [e_in e_products e_mu].
  fold bare. rewrite species_bare. split; [exact HA|]. split; [exact HB|]. split; [exact Hm|].
  split; [apply terms_bare; exact Ht|]. split; [exact Hs|exact Hp].
Qed.
Lemma count_products (l : list term) : terms_ok l -> countComponents l = Z.of_nat (length (expand_species l)).
Proof.
  intros [H1 H2].
  assert (E : length (expand_species l) = length (expand_terms l)).
  { unfold expand_species, expand_terms. clear. induction l as [|t l IH]; [reflexivity|]. cbn. rewrite !app_length, !repeat_length. now rewrite IH. }
  rewrite E. clear E. unfold countComponents.
  assert (G : forall a, (0 <= a)%Z -> (a + Z.of_nat (length (expand_terms l)) < 4294967296)%Z ->
     fold_left (fun s t => u32 (s + t_n t)) l a = (a + Z.of_nat (length (expand_terms l)))%Z).
  { clear H2. induction H1 as [|t l Ht Hl IH]; intros a Ha Hb; [cbn; lia|].
    cbn [fold_left]. unfold expand_terms in *. cbn [map concat] in *. rewrite app_length, repeat_length in *.
    assert (U : u32 (a + t_n t) = (a + t_n t)%Z) by (unfold u32; apply Z.mod_small; lia).
    rewrite U. rewrite IH by lia. lia. }
  rewrite (G 0%Z) by lia. lia.
Qed.

(** Velocities and species of the products with expressions that never set a velocity. *)
Lemma ops_velocities db spf parse fcm fcq kec thrE (e : eqcore N) model trees :
  inelastic_new_load db spf (parse_ops toint charge parse) fcm fcq kec thrE e = Ok model ->
  numberProducts e = 2%Z \/ numberProducts e = 3%Z ->
  omap (fun s => if String.eqb s "" then Ok [] else parse s) (ops_texts (e_products e)) = Ok trees ->
  exists model0, inelastic_new_load db spf (parse_ops toint charge parse) false false kec thrE (without_ops e) = Ok model0 /\
  forall inplace p1 p2 l (g : rng N) k p1' p2' l' k', model_interact inplace model p1 p2 l g k = Ok (p1', p2', l', k') ->
    p1' = p1 /\ p2' = p2 /\
    exists qs rs, model_interact inplace model0 p1 p2 l g k = Ok (p1, p2, l ++ qs, k') /\ l' = l ++ rs /\
      map p_species rs = map p_species qs /\
      (existsb (existsb (calls is_setVelocity)) trees = false -> map p_vel rs = map p_vel qs) /\
      (existsb (existsb (calls is_setPosition)) trees = false -> map p_pos rs = map p_pos qs) /\
      (existsb (existsb (calls is_setWeight)) trees = false -> map p_weight rs = map p_weight qs).
Proof.
  intros H Hn Ht. destruct (ops_apart _ _ _ _ _ _ _ _ _ H Hn) as (model0 & ess & _ & _ & qa & qb & fs & H0 & He & _ & _ & _ & Hi).
  exists model0. split; [exact H0|]. intros inplace p1 p2 l g k p1' p2' l' k' E.
  destruct (Hi inplace p1 p2 l g k) as (qs & kk & Hl & _ & Hm0 & Hm). rewrite Hm in E.
  destruct (each _ _ _ ess qs) as [rs| | |] eqn:Er; try discriminate. injection E as <- <- <- <-.
  apply trees_of in He as (ts & Ht' & ->). rewrite Ht in Ht'. injection Ht' as <-. rewrite map_length in Hl.
  split; [reflexivity|]. split; [reflexivity|]. exists qs, rs. split; [exact Hm0|]. split; [reflexivity|].
  eapply each_frame; eassumption.
Qed.
End Trees.

Local Open Scope R_scope.
Lemma ops_conserve2 toint charge db spf parse fcm fcq kec thrE (e : eqcore RNum) model trees mA mB M0 M1
    inplace (p1 p2 : rpart) l g k p1' p2' l' k' :
  reaction (N:=RNum) (fun m : R => 0 < m) db e mA mB [M0; M1] ->
  inelastic_new_load db spf (parse_ops toint charge parse) fcm fcq kec thrE e = Ok model ->
  omap (fun s => if String.eqb s "" then Ok [] else parse s) (ops_texts (e_products e)) = Ok trees ->
  existsb (existsb (calls is_setVelocity)) trees = false ->
  model_interact inplace model p1 p2 l g k = Ok (p1', p2', l', k') ->
  let dE := match kec with Some d => d | None => - thrE end in
  exists q1 q2, l' = l ++ [q1; q2] /\
    momentum2 M0 (p_vel q1) M1 (p_vel q2)
      = scale3 ((M0 + M1) / (mA + mB)) (momentum2 mA (p_vel p1) mB (p_vel p2)) /\
    (M0 + M1 = mA + mB ->
     momentum2 M0 (p_vel q1) M1 (p_vel q2) = momentum2 mA (p_vel p1) mB (p_vel p2)) /\
    (M0 + M1 = mA + mB -> 0 <= g_rand g k <= 1 ->
     0 <= mA * mB / (mA + mB) / 2 * dist2 (p_vel p1) (p_vel p2) + dE ->
     kinetic M0 (p_vel q1) + kinetic M1 (p_vel q2) = kinetic mA (p_vel p1) + kinetic mB (p_vel p2) + dE).
Proof.
  intros Hr Hload Ht Hv Hi dE.
  assert (Hn : numberProducts e = 2%Z).
  { unfold numberProducts. destruct Hr as (_ & _ & _ & Hok & Hs & _). rewrite count_products by exact Hok.
    apply Forall2_length in Hs. rewrite Hs. reflexivity. }
  destruct (ops_velocities _ _ _ _ _ _ _ _ _ _ _ _ Hload (or_introl Hn) Ht) as (model0 & H0 & G).
  destruct (G _ _ _ _ _ _ _ _ _ _ Hi) as (-> & -> & qs & rs & Hm0 & -> & _ & Hvel & _). specialize (Hvel Hv).
  destruct (react22 _ _ _ _ _ _ _ _ _ _ _ _ _ inplace p1 p2 l g k (reaction_bare _ _ _ _ _ _ Hr) (nothing_bare _) H0) as (q1 & q2 & Hm & C).
  rewrite Hm in Hm0. injection Hm0 as E _. apply app_inv_head in E. subst qs.
  destruct rs as [|r1 [|r2 [|? ?]]]; try discriminate. cbn [map] in Hvel. injection Hvel as V1 V2.
  exists r1, r2. split; [reflexivity|]. rewrite V1, V2. exact C.
Qed.

Lemma ops_conserve3 toint charge db spf parse fcm fcq kec thrE (e : eqcore RNum) model trees mA mB M0 M1 M2
    inplace (p1 p2 : rpart) l g k p1' p2' l' k' :
  reaction (N:=RNum) (fun m : R => 0 < m) db e mA mB [M0; M1; M2] ->
  inelastic_new_load db spf (parse_ops toint charge parse) fcm fcq kec thrE e = Ok model ->
  omap (fun s => if String.eqb s "" then Ok [] else parse s) (ops_texts (e_products e)) = Ok trees ->
  existsb (existsb (calls is_setVelocity)) trees = false ->
  model_interact inplace model p1 p2 l g k = Ok (p1', p2', l', k') ->
  let dE := match kec with Some d => d | None => - thrE end in
  exists q1 q2 q3, l' = l ++ [q1; q2; q3] /\
    momentum3 M0 (p_vel q1) M1 (p_vel q2) M2 (p_vel q3)
      = scale3 ((M0 + M1 + M2) / (mA + mB)) (momentum2 mA (p_vel p1) mB (p_vel p2)) /\
    (M0 + M1 + M2 = mA + mB ->
     momentum3 M0 (p_vel q1) M1 (p_vel q2) M2 (p_vel q3) = momentum2 mA (p_vel p1) mB (p_vel p2)) /\
    (M0 + M1 + M2 = mA + mB -> rng_ok g ->
     0 <= mA * mB / (mA + mB) / 2 * dist2 (p_vel p1) (p_vel p2) + dE ->
     kinetic M0 (p_vel q1) + kinetic M1 (p_vel q2) + kinetic M2 (p_vel q3)
     = kinetic mA (p_vel p1) + kinetic mB (p_vel p2) + dE).
Proof.
  intros Hr Hload Ht Hv Hi dE.
  assert (Hn : numberProducts e = 3%Z).
  { unfold numberProducts. destruct Hr as (_ & _ & _ & Hok & Hs & _). rewrite count_products by exact Hok.
    apply Forall2_length in Hs. rewrite Hs. reflexivity. }
  destruct (ops_velocities _ _ _ _ _ _ _ _ _ _ _ _ Hload (or_intror Hn) Ht) as (model0 & H0 & G).
  destruct (G _ _ _ _ _ _ _ _ _ _ Hi) as (-> & -> & qs & rs & Hm0 & -> & _ & Hvel & _). specialize (Hvel Hv).
  destruct (react23 _ _ _ _ _ _ _ _ _ _ _ _ _ _ inplace p1 p2 l g k (reaction_bare _ _ _ _ _ _ Hr) (nothing_bare _) H0) as (q1 & q2 & q3 & Hm & C).
  rewrite Hm in Hm0. injection Hm0 as E _. apply app_inv_head in E. subst qs.
  destruct rs as [|r1 [|r2 [|r3 [|? ?]]]]; try discriminate. cbn [map] in Hvel. injection Hvel as V1 V2 V3.
  exists r1, r2, r3. split; [reflexivity|]. rewrite V1, V2, V3. exact C.
Qed.

Section Functions.
Context {N : Num}.
Variables (toint : N -> outcome Z) (charge : Z -> outcome N).
Lemma evs_literals p0 p1 sc (xs : list N) t : evs toint charge p0 p1 sc (map (@QNum N) xs) t = Ok (xs, t).
Proof. induction xs as [|x xs IH]; [reflexivity|]. cbn [map evs eval obind]. rewrite IH. reflexivity. Qed.

Lemma setters p0 p1 sc (xs : list N) (t : particle N) :
  (forall x y z, xs = [x; y; z] ->
     eval toint charge p0 p1 sc (QSetVelocity (map (@QNum N) xs)) t = Ok (n1, mkParticle (p_pos t) (V3 x y z) (p_species t) (p_weight t)) /\
     eval toint charge p0 p1 sc (QSetPosition (map (@QNum N) xs)) t = Ok (n1, mkParticle (V3 x y z) (p_vel t) (p_species t) (p_weight t))) /\
  (length xs <> 3%nat ->
     eval toint charge p0 p1 sc (QSetVelocity (map (@QNum N) xs)) t = Throw ExnRuntime /\
     eval toint charge p0 p1 sc (QSetPosition (map (@QNum N) xs)) t = Throw ExnRuntime) /\
  (forall w, eval toint charge p0 p1 sc (QSetWeight (QNum w)) t = Ok (n1, mkParticle (p_pos t) (p_vel t) (p_species t) w)).
Proof.
  assert (E1 : eval toint charge p0 p1 sc (QSetVelocity (map (@QNum N) xs)) t = do t <- q_setVelocity xs t; Ok (n1, t)).
  { rewrite (ev_eq _ _ p0 p1 sc (QSetVelocity _)). cbv iota. rewrite evs_literals. reflexivity. }
  assert (E2 : eval toint charge p0 p1 sc (QSetPosition (map (@QNum N) xs)) t = do t <- q_setPosition xs t; Ok (n1, t)).
  { rewrite (ev_eq _ _ p0 p1 sc (QSetPosition _)). cbv iota. rewrite evs_literals. reflexivity. }
  rewrite E1, E2. clear E1 E2. split; [|split].
  - intros x y z ->. split; reflexivity.
  - intros H. destruct xs as [|? [|? [|? [|? ?]]]]; cbn in H |- *; try (exfalso; lia); split; reflexivity.
  - reflexivity.
Qed.

Lemma readers p0 p1 sc (a b : N) (n i : Z) (t : particle N) : toint a = Ok n -> toint b = Ok i ->
  let P := eval toint charge p0 p1 sc (QP (QNum a) (QNum b)) t in
  (forall p, (n = 0%Z /\ p = p0) \/ (n = 1%Z /\ p = p1) ->
     (forall v, nth_error [vx (p_pos p); vy (p_pos p); vz (p_pos p); vx (p_vel p); vy (p_vel p); vz (p_vel p); p_weight p] (Z.to_nat i) = Some v ->
        (0 <= i)%Z -> P = Ok (v, t)) /\
     (forall v, i = 7%Z -> charge (p_species p) = Ok v -> P = Ok (v, t)) /\
     (i < 0 \/ 7 < i -> P = Throw ExnRuntime)%Z) /\
  (n <> 0%Z -> n <> 1%Z -> P = Throw ExnRuntime) /\
  (forall c v, (c = QCM (QNum b) /\ nth_error [vx (s_cm sc); vy (s_cm sc); vz (s_cm sc)] (Z.to_nat i) = Some v \/
              c = QCQ (QNum b) /\ nth_error [vx (s_cq sc); vy (s_cq sc); vz (s_cq sc)] (Z.to_nat i) = Some v) -> (0 <= i)%Z ->
     eval toint charge p0 p1 sc c t = Ok (v, t)) /\
  (i < 0 \/ 2 < i -> eval toint charge p0 p1 sc (QCM (QNum b)) t = Throw ExnRuntime /\
                     eval toint charge p0 p1 sc (QCQ (QNum b)) t = Throw ExnRuntime)%Z.
Proof.
  intros Ha Hb P.
  assert (EP : P = do x <- q_P charge p0 p1 n i; Ok (x, t)).
  { unfold P. cbn [eval obind]. rewrite Ha. cbn [obind]. rewrite Hb. reflexivity. }
  assert (EM : eval toint charge p0 p1 sc (QCM (QNum b)) t = do x <- q_centre (s_cm sc) i; Ok (x, t)).
  { cbn [eval obind]. rewrite Hb. reflexivity. }
  assert (EQ : eval toint charge p0 p1 sc (QCQ (QNum b)) t = do x <- q_centre (s_cq sc) i; Ok (x, t)).
  { cbn [eval obind]. rewrite Hb. reflexivity. }
  assert (Tri : (0 <= i)%Z -> forall (l : list N) v, nth_error l (Z.to_nat i) = Some v -> (i < Z.of_nat (length l))%Z).
  { intros Hi l v H. assert (Z.to_nat i < length l)%nat by (apply nth_error_Some; congruence). lia. }
  split; [|split; [|split]].
  - intros p Hp.
    assert (Eq : P = do x <- (if ((vt_X <=? i) && (i <=? vt_Z))%Z%bool then Ok (vcomp (p_pos p) i)
        else if ((vt_VX <=? i) && (i <=? vt_VZ))%Z%bool then Ok (vcomp (p_vel p) (i - 3))
        else if (i =? vt_WEIGHT)%Z then Ok (p_weight p)
        else if (i =? vt_SPECIES_CHARGE)%Z then charge (p_species p)
        else Throw ExnRuntime); Ok (x, t)).
    { rewrite EP. unfold q_P. destruct Hp as [[-> ->]|[-> ->]]; reflexivity. }
    split; [|split].
    + intros v Hv Hi. pose proof (Tri Hi _ _ Hv) as Hlt. cbn [length] in Hlt. rewrite Eq.
      assert (i = 0 \/ i = 1 \/ i = 2 \/ i = 3 \/ i = 4 \/ i = 5 \/ i = 6)%Z as C by lia.
      repeat destruct C as [C|C]; subst i; cbn in Hv |- *; injection Hv as <-; reflexivity.
    + intros v -> Hv. rewrite Eq. cbn. rewrite Hv. reflexivity.
    + intros Hi. rewrite Eq. unfold vt_X, vt_Z, vt_VX, vt_VZ, vt_WEIGHT, vt_SPECIES_CHARGE.
      repeat match goal with |- context [(?a <=? ?b)%Z] => destruct (Z.leb_spec a b); try lia
                           | |- context [(?a =? ?b)%Z] => destruct (Z.eqb_spec a b); try lia end; try reflexivity; lia.
  - intros H0 H1. rewrite EP. unfold q_P. destruct (Z.eqb_spec n 0); [contradiction|]. destruct (Z.eqb_spec n 1); [contradiction|]. reflexivity.
  - intros c v Hc Hi.
    assert (Hlt : (i < 3)%Z) by (destruct Hc as [[_ H]|[_ H]]; apply (Tri Hi) in H; cbn [length] in H; lia).
    assert (i = 0 \/ i = 1 \/ i = 2)%Z as C by lia.
    destruct Hc as [[-> Hv]|[-> Hv]]; [rewrite EM|rewrite EQ];
    repeat destruct C as [C|C]; subst i; cbn in Hv |- *; injection Hv as <-; reflexivity.
  - intros Hi. rewrite EM, EQ. unfold q_centre.
    destruct (Z.leb_spec 0 i), (Z.leb_spec i 2); try lia; split; reflexivity.
Qed.
End Functions.
