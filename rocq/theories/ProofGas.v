(** A gas in binary64 over many time steps. *)
From Coq Require Import Reals Lra Lia ZArith Bool List Permutation.
From Flocq Require Import Core.Core IEEE754.BinarySingleNaN Relative.
From Verif Require Import Base Num ModelTerm ModelCollide ModelXsec ModelSet SpecPhys SpecSet SpecMore SpecRound SpecGas ProofF64 ProofFloat ProofInelastic ProofSet ProofDriver ProofDriver2 ProofDriver3 ProofRound ProofRound2 ProofRound3 ProofRound4 ProofRound7 ProofRound15.
From Coq Require Import List.
Import ListNotations.
Local Open Scope R_scope.

Lemma Rsum_upd {A} (f : A -> R) (l : list A) i x y : nth_error l i = Some x -> Rsum (map f (upd i y l)) = Rsum (map f l) - f x + f y.
Proof.
  revert i; induction l as [|a l IH]; intros [|i] H; cbn [nth_error] in H; try discriminate.
  - injection H as ->. cbn [upd map Rsum]. lra.
  - cbn [upd map Rsum]. rewrite (IH i H). lra.
Qed.
Lemma Rsum_perm (l l' : list R) : Permutation l l' -> Rsum l = Rsum l'.
Proof. induction 1; cbn [Rsum]; lra. Qed.
Lemma Rsum_nonneg_in {A} (f : A -> R) (l : list A) x : (forall y, In y l -> 0 <= f y) -> In x l -> f x <= Rsum (map f l).
Proof.
  assert (P : forall l : list A, (forall y, In y l -> 0 <= f y) -> 0 <= Rsum (map f l)).
  { induction l0 as [|a l0 IH]; intros H; cbn [map Rsum]; [lra|]. pose proof (H a (or_introl eq_refl)). specialize (IH (fun y Hy => H y (or_intror Hy))). lra. }
  induction l as [|a l IH]; intros H Hx; cbn [map Rsum]; [contradiction|]. destruct Hx as [->|Hx].
  - pose proof (P l (fun y Hy => H y (or_intror Hy))). lra.
  - pose proof (H a (or_introl eq_refl)). specialize (IH (fun y Hy => H y (or_intror Hy)) Hx). lra.
Qed.
Lemma sq_le_abs a V : 0 <= V -> a * a <= V * V -> Rabs a <= V.
Proof. intros H0 H. apply Rabs_le. split; nra. Qed.
Lemma draw_unit {lm} (g : rng (F64 lm)) k : frng_ok g -> is_finite (g_rand g k) = true /\ 0 <= real64 (g_rand g k) <= 1.
Proof. intros H. destruct (H k) as (H0 & H1 & _). apply unit_closed; assumption. Qed.

Lemma within_le {lm} U W (v : vec (F64 lm)) : U <= W -> within U v -> within W v.
Proof. intros H ((F1 & L1) & (F2 & L2) & F3 & L3). split; [|split]; (split; [assumption|lra]). Qed.

Section Gas.
Context {lm : libm}.
Variables (mass : Z -> binary64) (loss V kap mlo mhi : R).
Hypothesis (HV : speed_ok V) (TR : trig_ok lm kap) (HL : 0 <= loss) (Hlo : 0 < mlo).
Hypothesis (HM : forall s, mass_ok (mass s) /\ mlo <= real64 (mass s) <= mhi).
Let dE : R := 2 * mhi * ((bpow radix2 (-41) + 2 * kap) * V ^ 2 + loss).
Let dP : R := bpow radix2 (-45) * mhi * V.
Let energy (p : particle (F64 lm)) : R := kinetic (real64 (mass (p_species p))) (realv (p_vel p)).
Let mom (i : nat) (p : particle (F64 lm)) : R := real64 (mass (p_species p)) * component i (realv (p_vel p)).

Lemma kap_pos : 0 <= kap.
Proof using TR.
  destruct TR as [_ H]. destruct (H (fofZ 0)) as (_ & _ & Hk); [apply fofZ_exact; cbn; lia|unfold real64; rewrite (proj1 (fofZ_exact 0 ltac:(cbn; lia))); lra|].
  eapply Rle_trans; [apply Rabs_pos|exact Hk].
Qed.
Lemma Vp : 0 < V. Proof using HV. exact (V_pos V HV). Qed.
Lemma dE_pos : 0 <= dE.
Proof using HV TR HL Hlo HM.
  unfold dE. pose proof kap_pos. pose proof Vp. pose proof (bpow_gt_0 radix2 (-41)). destruct (HM 0) as [_ M].
  apply Rmult_le_pos; [lra|]. apply Rplus_le_le_0_compat; [apply Rmult_le_pos; [lra|apply pow2_ge_0]|exact HL].
Qed.

(** The models of a plain channel never touch the product list nor species. *)
Lemma plain_pure A B (q : equation (F64 lm)) p1 p2 l g k a b l' k' : plain_channel mass loss A B q -> model_interact true (q_model q) p1 p2 l g k = Ok (a, b, l', k') ->
  l' = l /\ p_species a = p_species p1 /\ p_species b = p_species p2.
Proof using.
  intros [->|(_ & al & _ & ->)] H; cbn [model_interact] in H.
  - unfold elastic_collide in H. injection H as <- <- <- <-. auto.
  - unfold vss_collide in H. injection H as <- <- <- <-. auto.
Qed.
Lemma plain_step A B (q : equation (F64 lm)) p1 p2 l g k a b l' k' : plain_channel mass loss A B q -> p_species p1 = A -> p_species p2 = B -> within V (p_vel p1) -> within V (p_vel p2) -> frng_ok g ->
  model_interact true (q_model q) p1 p2 l g k = Ok (a, b, l', k') ->
  within (11 * V) (p_vel a) /\ within (11 * V) (p_vel b) /\ Rabs (energy a + energy b - (energy p1 + energy p2)) <= dE /\
  forall i, Rabs (mom i a + mom i b - (mom i p1 + mom i p2)) <= dP.
Proof using HV TR HL Hlo HM.
  intros Hc EA EB W1 W2 Hg H. destruct (plain_pure A B q _ _ _ _ _ _ _ _ _ Hc H) as (_ & Ea & Eb).
  destruct (HM A) as [MA LA]. destruct (HM B) as [MB LB]. destruct (draw_unit g k Hg) as [F0 H0]. destruct (draw_unit g (k + 1) Hg) as [F1 H1].
  pose proof kap_pos as KP. pose proof Vp as PV. pose proof (bpow_gt_0 radix2 (-41)) as B1. pose proof (bpow_gt_0 radix2 (-46)) as B2.
  assert (Le : bpow radix2 (-43) <= bpow radix2 (-41)) by (apply bpow_le; lia). assert (Lm : bpow radix2 (-47) <= bpow radix2 (-46)) by (apply bpow_le; lia).
  set (x1 := real64 (mass A)) in *. set (x2 := real64 (mass B)) in *.
  assert (V2 : 0 <= V ^ 2) by apply pow2_ge_0.
  assert (Main : within (11 * V) (p_vel a) /\ within (11 * V) (p_vel b) /\
    close3 (bpow radix2 (-46) * (x1 + x2) * V) (momentum2 x1 (realv (p_vel a)) x2 (realv (p_vel b))) (momentum2 x1 (realv (p_vel p1)) x2 (realv (p_vel p2))) /\
    Rabs (kinetic x1 (realv (p_vel a)) + kinetic x2 (realv (p_vel b)) - (kinetic x1 (realv (p_vel p1)) + kinetic x2 (realv (p_vel p2)))) <= (x1 + x2) * ((bpow radix2 (-41) + 2 * kap) * V ^ 2 + loss)).
  { destruct Hc as [Em|(HLo & al & PO & Em)]; rewrite Em in H; cbn [model_interact] in H.
    - pose proof (elastic_round lm kap (mass A) (mass B) V p1 p2 _ _ HV MA MB TR W1 W2 F0 H0 F1 H1) as Q. destruct (elastic_collide _ _ _ _ _) as [q1 q2]. injection H as <- <- <- <-.
      destruct Q as (Q1 & Q2 & Q3 & Q4). assert (MV : 0 <= (x1 + x2) * V) by (apply Rmult_le_pos; lra). assert (MV2 : 0 <= (x1 + x2) * V ^ 2) by (apply Rmult_le_pos; lra).
      split; [eapply within_le; [|exact Q1]; lra|]. split; [eapply within_le; [|exact Q2]; lra|]. split.
      + fold x1 x2 in Q3. unfold close3 in *. destruct (momentum2 x1 (realv (p_vel q1)) x2 _) as [[? ?] ?]. destruct (momentum2 x1 (realv (p_vel p1)) x2 _) as [[? ?] ?].
        assert (bpow radix2 (-47) * (x1 + x2) * V <= bpow radix2 (-46) * (x1 + x2) * V) by (rewrite !Rmult_assoc; apply Rmult_le_compat_r; lra). lra.
      + fold x1 x2 in Q4. eapply Rle_trans; [exact Q4|]. assert ((bpow radix2 (-43) + 2 * kap) * ((x1 + x2) * V ^ 2) <= (bpow radix2 (-41) + 2 * kap) * ((x1 + x2) * V ^ 2)) by (apply Rmult_le_compat_r; lra).
        assert (0 <= (x1 + x2) * loss) by (apply Rmult_le_pos; lra). lra.
    - pose proof (vss_round lm kap al (mass A) (mass B) V p1 p2 _ _ HV MA MB TR PO W1 W2 F0 H0 F1 H1) as Q. pose proof (vss_energy lm kap al (mass A) (mass B) V p1 p2 _ _ HV MA MB TR PO W1 W2 F0 H0 F1 H1) as Q4.
      destruct (vss_collide _ _ _ _ _ _) as [q1 q2]. injection H as <- <- <- <-. destruct Q as (Q1 & Q2 & Q3 & _). split; [exact Q1|]. split; [exact Q2|]. split; [exact Q3|].
      eapply Rle_trans; [exact Q4|]. fold x1 x2. assert ((x1 + x2) * (1 / 5000000000000) <= (x1 + x2) * loss) by (apply Rmult_le_compat_l; lra). lra. }
  destruct Main as (Q1 & Q2 & Q3 & Q4). split; [exact Q1|]. split; [exact Q2|]. unfold energy, mom. rewrite Ea, Eb, EA, EB. fold x1 x2. split.
  - eapply Rle_trans; [exact Q4|]. unfold dE. apply Rmult_le_compat_r; [|lra]. apply Rplus_le_le_0_compat; [apply Rmult_le_pos; lra|exact HL].
  - assert (L : bpow radix2 (-46) * (x1 + x2) * V <= dP).
    { unfold dP. replace (bpow radix2 (-45)) with (2 * bpow radix2 (-46)) by (change (-45)%Z with (1 + -46)%Z; rewrite bpow_plus; reflexivity). apply Rmult_le_compat_r; [lra|].
      replace (2 * bpow radix2 (-46) * mhi) with (bpow radix2 (-46) * (2 * mhi)) by ring. apply Rmult_le_compat_l; lra. }
    intros i. unfold close3, momentum2 in Q3. destruct Q3 as (C1 & C2 & C3). destruct i as [|[|i]]; cbn [component]; lra.
Qed.

(** ** Invariant of a run *)
Variable E0 : R.
Variable P0 : nat -> R.
Hypothesis HE0 : E0 <= mlo * V ^ 2 / 4.
(** [n] collisions after energy [E0] and momentum [P0]. *)
Definition fine (n : nat) (mem : list (particle (F64 lm))) : Prop :=
  INR n * dE <= mlo * V ^ 2 / 4 ->
  Forall (fun p => within V (p_vel p)) mem /\ Rabs (Rsum (map energy mem) - E0) <= INR n * dE /\ forall i, Rabs (Rsum (map (mom i) mem) - P0 i) <= INR n * dP.

Lemma energy_nonneg p : 0 <= energy p.
Proof using HM Hlo. unfold energy, kinetic, norm2. destruct (HM (p_species p)) as [_ M]. pose proof (pow2_ge_0 (vx (realv (p_vel p)))). pose proof (pow2_ge_0 (vy (realv (p_vel p)))). pose proof (pow2_ge_0 (vz (realv (p_vel p)))). cbn [realv vx vy vz] in *. nra. Qed.
Lemma within_energy W p : within W (p_vel p) -> energy p <= mlo * V ^ 2 / 2 -> within V (p_vel p).
Proof using HM Hlo HV.
  intros (X & Y & Z) H. pose proof Vp. destruct (HM (p_species p)) as [_ M]. unfold energy, kinetic, norm2, realv in H. cbn [vx vy vz] in H.
  set (x := real64 (vx (p_vel p))) in *. set (y := real64 (vy (p_vel p))) in *. set (z := real64 (vz (p_vel p))) in *. set (m := real64 (mass (p_species p))) in *.
  assert (K : x * x + y * y + z * z <= V * V).
  { apply Rmult_le_reg_l with (mlo / 2); [lra|]. assert (mlo / 2 * (x * x + y * y + z * z) <= m / 2 * (x * x + y * y + z * z)) by (apply Rmult_le_compat_r; nra). simpl pow in H. lra. }
  pose proof (Rle_0_sqr x) as q1. pose proof (Rle_0_sqr y) as q2. pose proof (Rle_0_sqr z) as q3. unfold Rsqr in *.
  split; [|split]; (split; [first [apply X|apply Y|apply Z]|apply sq_le_abs; [lra|first [change (x * x <= V * V)|change (y * y <= V * V)|change (z * z <= V * V)]; lra]]).
Qed.

Lemma fine_start n mem : fine n mem -> INR n * dE <= mlo * V ^ 2 / 4 -> Forall (fun p => within V (p_vel p)) mem. Proof using. intros H L. apply H, L. Qed.
Lemma fine_step n mem i j pa pb a b A B (q : equation (F64 lm)) l g k l' k' : fine n mem -> nth_error mem i = Some pa -> nth_error mem j = Some pb -> i <> j ->
  plain_channel mass loss A B q -> p_species pa = A -> p_species pb = B -> frng_ok g -> model_interact true (q_model q) pa pb l g k = Ok (a, b, l', k') ->
  fine (S n) (upd j b (upd i a mem)).
Proof using HV TR HL Hlo HM HE0.
  intros F Ei Ej Hij Hc EA EB Hg H L. rewrite S_INR in L. pose proof dE_pos as DP. rewrite S_INR. destruct (F ltac:(lra)) as (W & E & P). rewrite Forall_forall in W.
  destruct (plain_step A B q pa pb l g k a b l' k' Hc EA EB (W _ (nth_error_In _ _ Ei)) (W _ (nth_error_In _ _ Ej)) Hg H) as (Wa & Wb & De & Dm).
  assert (Ej' : nth_error (upd i a mem) j = Some pb).
  { rewrite upd_nth. destruct (Nat.eqb_spec i j); [contradiction|]. exact Ej. }
  assert (En : Rabs (Rsum (map energy (upd j b (upd i a mem))) - E0) <= (INR n + 1) * dE).
  { rewrite (Rsum_upd _ _ _ _ _ Ej'), (Rsum_upd _ _ _ _ _ Ei). apply Rabs_le_inv in E, De. apply Rabs_le. lra. }
  split; [|split; [exact En|]].
  - apply Forall_forall. intros p Hp. assert (Hw : exists U, within U (p_vel p)).
    { apply In_nth_error in Hp as [m Hm]. rewrite upd_nth in Hm. destruct (Nat.eqb j m && _)%bool; [injection Hm as <-; eauto|]. rewrite upd_nth in Hm.
      destruct (Nat.eqb i m && _)%bool; [injection Hm as <-; eauto|]. exists V. apply W. eapply nth_error_In. exact Hm. }
    destruct Hw as [U Hw]. apply (within_energy U); [exact Hw|]. pose proof (Rsum_nonneg_in energy _ p (fun y _ => energy_nonneg y) Hp). apply Rabs_le_inv in En. lra.
  - intros c. rewrite (Rsum_upd _ _ _ _ _ Ej'), (Rsum_upd _ _ _ _ _ Ei). pose proof (P c) as Pc. pose proof (Dm c) as Dc. apply Rabs_le_inv in Pc, Dc. apply Rabs_le. lra.
Qed.

Lemma collisions_app log e : collisions (log ++ [e]) = (collisions log + if (0 <=? snd e)%Z then 1 else 0)%nat.
Proof using. unfold collisions. rewrite filter_app, app_length. cbn [filter]. destruct (0 <=? snd e)%Z; reflexivity. Qed.
Lemma species_upd i (a p : particle (F64 lm)) mem : nth_error mem i = Some p -> p_species a = p_species p -> map p_species (upd i a mem) = map p_species mem.
Proof using.
  revert i; induction mem as [|x mem IH]; intros [|i] H E; cbn [nth_error] in H; try discriminate; cbn [upd map].
  - injection H as ->. rewrite E. reflexivity.
  - rewrite (IH i H E). reflexivity.
Qed.

Variables (K : F64 lm) (c : cell (F64 lm)) (er : list nat) (res : list (particle (F64 lm))) (db : nat -> nat -> list (equation (F64 lm))) (g : rng (F64 lm)) (n0 : nat).
Hypothesis (Hg : frng_ok g) (Hb : bounded (2 ^ 32) (c_ranges c)) (Hs : sorted_cell c) (Hdb : plain_gas mass loss db).
Definition good_state (s : dstate (F64 lm)) : Prop :=
  s_ranges s = c_ranges c /\ s_res s = res /\ s_erase s = er /\ map p_species (s_mem s) = map p_species (c_mem c) /\ fine (n0 + collisions (s_log s)) (s_mem s).

Lemma good_species s A r i p : good_state s -> nth_error (s_ranges s) A = Some r -> in_range i r -> nth_error (s_mem s) i = Some p -> p_species p = Z.of_nat A.
Proof using Hs.
  intros (Er & _ & _ & Es & _) HA Hi Hp. rewrite Er in HA. destruct (Hs A r i HA Hi) as (p' & Hp' & E). 
  assert (Q : nth_error (map p_species (s_mem s)) i = nth_error (map p_species (c_mem c)) i) by (rewrite Es; reflexivity).
  rewrite (map_nth_error _ _ _ Hp), (map_nth_error _ _ _ Hp') in Q. injection Q as ->. exact E.
Qed.
Lemma good_test sfuel msv A B s s' : (A <= B)%nat -> good_state s -> enough A B (s_ranges s) -> one_test K true sfuel (db A B) msv A B g s = Ok s' -> good_state s'.
Proof using HV TR HL Hlo HM HE0 Hg Hb Hs Hdb.
  intros HAB G He H. destruct (enough_nth A B _ He) as (ra & rb & EA & EB).
  assert (HB : bounded (2 ^ 32) (s_ranges s)) by (destruct G as (-> & _); exact Hb).
  destruct (enough_sizes (2 ^ 32) A B _ ra rb He EA EB HB) as (SA & SB).
  destruct (one_test_ok K true sfuel (db A B) msv A B g s s' (2 ^ 32) ra rb (fpos_ok g Hg) H EA EB SA SB) as (i & j & path & pA & pB & a & b & k & k' & Ri & Rj & Hij & EpA & EpB & Hpath & Hset & Hlog & Hcase).
  pose proof (good_species s A ra i pA G EA Ri EpA) as SpA. pose proof (good_species s B rb j pB G EB Rj EpB) as SpB. destruct G as (Gr & Gres & Ger & Gs & Gf).
  apply set_interact_order in Hset as (k1 & _ & [(Hn & -> & -> & El & _)|(e & Hp & Ee & Hm)]).
  - destruct Hcase as [(_ & Em & Er & Eer)|(_ & Hp & _)]; [|lia]. 
    assert (Emem : s_mem s' = s_mem s). { rewrite Em. rewrite (upd_same i pA (s_mem s) EpA). apply upd_same. exact EpB. }
    unfold good_state. rewrite Emem, Er, Eer, El, Hlog, collisions_app. cbn [snd]. destruct (Z.leb_spec 0 (fst path)); [lia|]. rewrite Nat.add_0_r. auto.
  - assert (Hc : plain_channel mass loss (Z.of_nat A) (Z.of_nat B) e). { pose proof (Hdb A B HAB) as Q. rewrite Forall_forall in Q. apply Q. eapply nth_error_In. exact Ee. }
    destruct Hm as [[_ Hm]|[Hlt _]]; [|rewrite SpA, SpB in Hlt; lia].
    destruct (plain_pure _ _ _ _ _ _ _ _ _ _ _ _ Hc Hm) as (El & Ea & Eb).
    destruct Hcase as [(_ & Em & Er & Eer)|(_ & _ & Hlen & _)]; [|rewrite El in Hlen; lia].
    assert (EpB' : nth_error (upd i a (s_mem s)) j = Some pB) by (rewrite upd_nth; destruct (Nat.eqb_spec i j); [contradiction|exact EpB]).
    split; [congruence|]. split; [congruence|]. split; [congruence|]. split.
    + rewrite Em, (species_upd j b pB _ EpB' Eb), (species_upd i a pA _ EpA Ea). exact Gs.
    + rewrite Em, Hlog, collisions_app. cbn [snd]. destruct (Z.leb_spec 0 (fst path)); [|lia]. replace (n0 + (collisions (s_log s) + 1))%nat with (S (n0 + collisions (s_log s))) by lia.
      eapply fine_step; [exact Gf|exact EpA|exact EpB|exact Hij|exact Hc|exact SpA|exact SpB|exact Hg|exact Hm].
Qed.
Lemma good_loop sfuel msv A B : (A <= B)%nat -> forall fuel x s s', good_state s -> test_loop K fuel true sfuel (db A B) msv A B x g s = Ok s' -> good_state s'.
Proof using HV TR HL Hlo HM HE0 Hg Hb Hs Hdb.
  intros HAB. induction fuel as [|fuel IH]; intros x s s' G H; cbn [test_loop] in H; [discriminate|].
  destruct (n1 <? x)%num; [|injection H as <-; exact G].
  apply obind_ok in H as (ra & EA & H). apply oget_ok in EA. apply obind_ok in H as (rb & EB & H). apply oget_ok in EB.
  destruct (_ || _)%bool eqn:Ec in H; [injection H as <-; exact G|]. apply obind_ok in H as (s1 & H1 & H). 
  apply (IH _ _ _) with (2 := H). apply (good_test sfuel msv A B s s1 HAB G); [|exact H1]. apply (enough_cond A B (s_ranges s) ra rb EA EB). exact Ec.
Qed.
Lemma good_driver fuel dt nprops k st : driver K fuel true dt c nprops db res er g k = Ok st -> fine n0 (c_mem c) -> good_state st.
Proof using HV TR HL Hlo HM HE0 Hg Hb Hs Hdb.
  intros H F. unfold driver in H. cbv zeta in H. set (n := Nat.min _ _) in H. apply obind_ok in H as ([l k1] & E1 & H). apply first_pass_ok in E1 as [Hm _].
  assert (HAB : Forall (fun ct => (ct_A ct <= ct_B ct)%nat) l).
  { apply Forall_forall. intros ct Hct. assert (Hp : In (ct_A ct, ct_B ct) (filter (has_eqs db) (species_pairs n))) by (rewrite <- Hm; apply in_map_iff; exists ct; auto).
    apply filter_In in Hp as [Hp _]. apply species_pairs_in in Hp. lia. }
  assert (G0 : good_state (mkState (c_mem c) (c_ranges c) res er k1 [])). { do 4 (split; [reflexivity|]). cbn [s_log s_mem]. unfold collisions. cbn [filter length]. rewrite Nat.add_0_r. exact F. }
  clear Hm F. revert G0 H. generalize (mkState (N:=F64 lm) (c_mem c) (c_ranges c) res er k1 []) as s. unfold second_pass.
  induction HAB as [|ct l Hct Hl IH]; intros s G H; cbn [ofold] in H; [injection H as <-; exact G|].
  apply obind_ok in H as (s1 & H1 & H). apply (IH s1); [|exact H]. eapply good_loop; [exact Hct|exact G|exact H1].
Qed.
End Gas.

Lemma carried_forall {lm} (P : vec (F64 lm) -> Prop) mem mem' : carried mem mem' -> Forall (fun p => P (p_vel p)) mem -> Forall (fun p => P (p_vel p)) mem'.
Proof.
  intros C H. assert (Q : Forall (fun x => P (fst x)) (map (fun p => (p_vel p, p_species p)) mem)) by (apply Forall_map; exact H).
  apply (Permutation_Forall C) in Q. rewrite Forall_map in Q. exact Q.
Qed.
Lemma carried_sum {lm} (f : vec (F64 lm) -> Z -> R) mem mem' : carried mem mem' ->
  Rsum (map (fun p => f (p_vel p) (p_species p)) mem) = Rsum (map (fun p => f (p_vel p) (p_species p)) mem').
Proof.
  intros C. apply (Permutation_map (fun x => f (fst x) (snd x))) in C. rewrite !map_map in C. cbn [fst snd] in C. apply Rsum_perm, C.
Qed.
Section History.
Context {lm : libm}.
Variables (mass : Z -> binary64) (loss V kap mlo mhi : R).
Hypotheses (HV : speed_ok V) (TR : trig_ok lm kap) (HL : 0 <= loss) (Hlo : 0 < mlo) (HM : forall s, mass_ok (mass s) /\ mlo <= real64 (mass s) <= mhi).
Lemma fine_carried E0 P0 n (m m' : list (particle (F64 lm))) : fine mass loss V kap mlo mhi E0 P0 n m -> carried m m' -> fine mass loss V kap mlo mhi E0 P0 n m'.
Proof using.
  intros F C L. destruct (F L) as (W & E & P). split; [|split].
  - exact (carried_forall _ _ _ C W).
  - rewrite <- (carried_sum (fun v s => kinetic (real64 (mass s)) (realv v)) _ _ C). exact E.
  - intros i. rewrite <- (carried_sum (fun v s => real64 (mass s) * component i (realv v)) _ _ C). apply P.
Qed.
Lemma fine_first (mem : list (particle (F64 lm))) : Forall (fun p => exists W, within W (p_vel p)) mem -> gas_energy mass mem <= mlo * V ^ 2 / 4 ->
  fine mass loss V kap mlo mhi (gas_energy mass mem) (fun i => gas_momentum mass i mem) 0 mem.
Proof using HV HM Hlo.
  intros Fin E0 _. assert (VP : 0 < V) by (unfold speed_ok in HV; pose proof (bpow_gt_0 radix2 (-400)); lra). assert (0 < mlo * V ^ 2) by (apply Rmult_lt_0_compat; [exact Hlo|apply pow_lt; exact VP]).
  split; [|split].
  - apply Forall_forall. intros p Hp. rewrite Forall_forall in Fin. destruct (Fin p Hp) as (W & HW). apply (within_energy mass V mlo mhi HV Hlo HM W p HW).
    pose proof (Rsum_nonneg_in (fun p => kinetic (real64 (mass (p_species p))) (realv (p_vel p))) mem p (fun y _ => energy_nonneg mass mlo mhi Hlo HM y) Hp) as Q.
    unfold gas_energy in E0. cbv beta in Q. lra.
  - unfold gas_energy. rewrite Rminus_diag_eq by reflexivity. rewrite Rabs_R0. cbn [INR]. lra.
  - intros i. unfold gas_momentum. rewrite Rminus_diag_eq by reflexivity. rewrite Rabs_R0. cbn [INR]. lra.
Qed.
Lemma gas_history n mem mem' : history (lm:=lm) mass loss n mem mem' ->
  Forall (fun p => exists W, within W (p_vel p)) mem -> gas_energy mass mem <= mlo * V ^ 2 / 4 ->
  INR n * (2 * mhi * ((bpow radix2 (-41) + 2 * kap) * V ^ 2 + loss)) <= mlo * V ^ 2 / 4 ->
  Forall (fun p => within V (p_vel p)) mem' /\
  Rabs (gas_energy mass mem' - gas_energy mass mem) <= INR n * (2 * mhi * ((bpow radix2 (-41) + 2 * kap) * V ^ 2 + loss)) /\
  forall i, Rabs (gas_momentum mass i mem' - gas_momentum mass i mem) <= INR n * (bpow radix2 (-45) * mhi * V).
Proof using HV TR HL Hlo HM.
  intros H Fin E0. enough (F : fine mass loss V kap mlo mhi (gas_energy mass mem) (fun i => gas_momentum mass i mem) n mem') by exact F.
  induction H as [mem mem' C|n mem K fuel dt c nprops db res er g k st mem' H IH Hdb Hs Hb Hg Hd C].
  - apply (fine_carried _ _ _ _ _ (fine_first mem Fin E0) C).
  - apply (fun F => fine_carried _ _ _ _ _ F C).
    pose proof (good_driver mass loss V kap mlo mhi HV TR HL Hlo HM _ (fun i => gas_momentum mass i mem) E0 K c er res db g n Hg Hb Hs Hdb fuel dt nprops k st Hd (IH Fin E0)) as G.
    apply G.
Qed.
End History.
