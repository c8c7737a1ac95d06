(** C12: a selected channel is affordable (real arithmetic). *)
From Coq Require Import Reals Lra Lia List ZArith Bool.
From Verif Require Import Base Num ModelTerm ModelCollide ModelXsec ModelSet
  SpecTerm SpecPhys SpecXsec SpecSet ProofCollide ProofXsec ProofData ProofInelastic ProofReact ProofSet.
From Coq Require Import List.
Import ListNotations.
Local Open Scope R_scope.

Lemma thr_le mu E v : 0 < mu -> 0 <= E -> 0 <= v -> R_sqrt.sqrt (E / (1 / 2 * mu)) <= v -> E <= mu * v ^ 2 / 2.
Proof.
  intros Hmu HE Hv H. assert (0 <= E / (1 / 2 * mu)) by (apply Rmult_le_pos; [lra|left; apply Rinv_0_lt_compat; lra]).
  assert (E / (1 / 2 * mu) <= v ^ 2).
  { rewrite <- (sqrt_sqrt (E / (1 / 2 * mu))) by assumption. pose proof (sqrt_pos (E / (1 / 2 * mu))). nra. }
  apply Rmult_le_compat_r with (r := 1 / 2 * mu) in H1; [|lra].
  replace (E / (1 / 2 * mu) * (1 / 2 * mu)) with E in H1 by (field; lra). lra.
Qed.

Lemma half_sq m x v : 0 < m -> 0 <= x -> x <= v -> 0 <= 1 / 2 * m * (x * x) <= m * v ^ 2 / 2.
Proof.
  intros Hm Hx Hv. assert (x * x <= v * v) by (apply Rmult_le_compat; lra). assert (0 <= x * x) by (apply Rmult_le_pos; lra).
  split; [apply Rmult_le_pos; [lra|assumption]|]. pose proof (Rmult_le_compat_l (1 / 2 * m) _ _ ltac:(lra) H). lra.
Qed.

Lemma check_incl (t t' : table RNum) : checkThreshold (N:=RNum) t = Ok t' -> incl t' t.
Proof.
  induction t as [|x t IH]; cbn [checkThreshold]; [discriminate|].
  destruct t as [|y t]; [destruct (snd x =? n0)%num; [discriminate|]; injection 1 as <-; apply incl_refl|].
  destruct (_ && _)%bool; intros H; [|injection H as <-; apply incl_refl].
  apply incl_tl. auto.
Qed.
Lemma insert_in (e x : R * R) (t : table RNum) : In x (table_insert (N:=RNum) e t) -> x = e \/ In x t.
Proof.
  induction t as [|y t IH]; cbn [table_insert]; [intros [H|[]]; auto|].
  destruct (_ <? _)%num; [intros [H|H]; auto|]. destruct (_ <? _)%num; [|auto].
  intros [H|H]; [right; left; assumption|]. destruct (IH H); [auto|right; right; assumption].
Qed.
Lemma load_nonneg (mu : reducedMass RNum) rows :
  List.Forall (fun r : quantity RNum * R => match fst r with QVelocity v => 0 <= v | QEnergy _ => True end) rows ->
  List.Forall (fun e : R * R => 0 <= fst e) (loadCrossSectionData (N:=RNum) mu rows).
Proof.
  unfold loadCrossSectionData. set (f := fun t r => _). intros H.
  assert (G : forall t : table RNum, List.Forall (fun e : R * R => 0 <= fst e) t ->
     List.Forall (fun e : R * R => 0 <= fst e) (fold_left f rows t)); [|apply G; constructor].
  revert H. induction rows as [|r rows IH]; intros H t Ht; cbn [fold_left]; [exact Ht|].
  apply Forall_cons_iff in H as [Hr H]. apply IH; [assumption|]. apply Forall_forall. unfold f. intros x Hx.
  apply insert_in in Hx as [->|Hx]; [|rewrite Forall_forall in Ht; auto]. cbn [fst].
  destruct r as [[q|q] y]; cbn [fst] in *; [apply sqrt_pos|exact Hr].
Qed.

Lemma lotz_range_in (ps : list (lotzPar RNum)) (inf ninf : R) : 0 <= inf -> ps <> [] ->
  List.Forall (fun p => 0 < lz_beta p) ps ->
  let r := lotz_range (N:=RNum) inf ninf ps in 0 <= fst r <= snd r.
Proof.
  intros Hi Hne H. unfold lotz_range.
  assert (G : forall lo hi : R, 0 <= lo -> (0 <= lo <= hi \/ ps <> []) ->
    let r := fold_left (fun '(lo, hi) p => let vi := (n1 / nsqrt (lz_beta p))%num in
      ((if (vi <? lo)%num then vi else lo), (if (hi <? vi)%num then vi else hi))) ps (lo : T RNum, hi : T RNum) in 0 <= fst r <= snd r).
  { clear Hne Hi inf ninf. induction ps as [|p ps IH]; intros lo hi Hlo Hor; [destruct Hor as [H1|H1]; [exact H1|congruence]|].
    apply Forall_cons_iff in H as [Hp H]. cbn [fold_left]. unR.
    assert (0 < 1 / R_sqrt.sqrt (lz_beta p)) by (apply Rdiv_lt_0_compat; [lra|apply sqrt_lt_R0; assumption]).
    apply IH; [assumption| |].
    - destruct (Rltb_spec (1 / R_sqrt.sqrt (lz_beta p)) lo); lra.
    - left. destruct (Rltb_spec (1 / R_sqrt.sqrt (lz_beta p)) lo), (Rltb_spec hi (1 / R_sqrt.sqrt (lz_beta p))); lra. }
  apply G; [assumption|right; assumption].
Qed.

Lemma xs_affordable K fuel allowed inf ninf tol solve (mu : reducedMass RNum) doc c (v s : R) :
  0 < rm_value mu -> doc_ok doc -> 0 <= inf -> solver_in_bracket solve ->
  xs_load (N:=RNum) fuel allowed inf ninf tol solve mu doc = Ok c -> 0 <= v ->
  sigma_is K c v s -> s <> 0 ->
  exists E, getThresholdEnergy c = Ok E /\ 0 <= E <= rm_value mu * v ^ 2 / 2.
Proof.
  intros Hmu Hd Hinf Hsol Hl Hv Hs Hne. unfold sigma_is in Hs.
  assert (Hthr : forall (t : option (quantity RNum)) (E w : R), setThresholdEnergy (N:=RNum) (loadThreshold t mu n0) mu = Ok (E, w) ->
     w <= v -> 0 <= E <= rm_value mu * v ^ 2 / 2).
  { intros t E w. unfold setThresholdEnergy. unR. destruct (Rltb_spec (loadThreshold (N:=RNum) t mu 0) 0) as [|L]; [discriminate|].
    intros H Hw. injection H as <- <-. split; [lra|]. apply thr_le; [assumption|lra|assumption|assumption]. }
  destruct doc as [val t|val t|A B t|i t|rows|ps]; cbn [xs_load] in Hl.
  - apply obind_ok in Hl as ([E w] & El & Hl). injection Hl as <-. exists E. split; [reflexivity|]. cbn in Hs. unR.
    destruct (Rleb_spec w v); [eauto|]. injection Hs as <-. congruence.
  - apply obind_ok in Hl as ([E w] & El & Hl). injection Hl as <-. exists E. split; [reflexivity|]. cbn in Hs. unR.
    destruct (Rltb_spec v w); [injection Hs as <-; congruence|]. apply (Hthr _ _ _ El). lra.
  - apply obind_ok in Hl as ([E w] & El & Hl). injection Hl as <-. exists E. split; [reflexivity|]. cbn in Hs. unR.
    destruct (Rltb_spec v w); [injection Hs as <-; congruence|]. apply (Hthr _ _ _ El). lra.
  - apply obind_ok in Hl as ([E w] & El & Hl). injection Hl as <-. exists E. split; [reflexivity|]. cbn in Hs. unR.
    destruct (Rltb_spec v w); [injection Hs as <-; congruence|]. apply (Hthr _ _ _ El). lra.
  - apply obind_ok in Hl as (d & Ed & Hl). injection Hl as <-. cbn [sigma getThresholdEnergy] in *.
    unfold data_init in Ed. apply obind_ok in Ed as (t' & Et & Ed). apply obind_ok in Ed as ([[[C a] b] v02] & _ & Ed).
    injection Ed as <-. cbn [doc_ok] in Hd. apply (load_nonneg mu) in Hd.
    assert (Hk : List.Forall (fun e : R * R => 0 <= fst e) t').
    { apply Forall_forall. intros x Hx. rewrite Forall_forall in Hd. apply Hd. eapply check_incl; eassumption. }
    unfold data_sigma, data_thrE in *. cbn [d_table d_mu] in *.
    destruct t' as [|x t']; [discriminate|]. eexists. split; [reflexivity|]. apply Forall_cons_iff in Hk as [Hx _].
    assert (Hge : fst x <= v).
    { cbn [lower_bound] in Hs. unR. destruct (Rltb_spec (fst x) v) as [|L]; [lra|].
      cbn [data_eval] in Hs. unR. destruct (Reqb_spec (fst x) v); [lra|]. injection Hs as <-. congruence. }
    unfold sqr. unR. destruct x as [x y]; cbn [fst] in *. apply half_sq; lra.
  - apply obind_ok in Hl as (l & El & Hl). injection Hl as <-. cbn [sigma getThresholdEnergy] in *.
    unfold lotz_new in El. destruct Hd as [Hne' Hb].
    pose proof (lotz_range_in ps inf ninf Hinf Hne' Hb) as Hr. cbv zeta in Hr.
    destruct (lotz_range (N:=RNum) inf ninf ps) as [lo hi] eqn:Er. cbn [fst snd] in Hr.
    apply obind_ok in El as (thr & Et & El). match type of El with (if ?q then _ else _) = _ => destruct q; [|discriminate] end.
    injection El as <-. cbn [lo_mu lo_thr lo_pars] in *. eexists. split; [reflexivity|].
    assert (Ht : 0 <= thr).
    { destruct (tol lo hi); [injection Et as <-; lra|]. match type of Et with (if ?q then _ else _) = _ => destruct q; [|discriminate] end.
      injection Et as <-. destruct (Hsol (lotz_sigma (N:=RNum) ps n0) lo hi (proj2 Hr)) as [Hz _]. destruct Hr as [Hr _].
      exact (Rle_trans _ _ _ Hr Hz). }
    unfold lotz_sigma in Hs. unR. destruct (Rltb_spec v thr) as [|L]; [injection Hs as <-; congruence|].
    unfold sqr. unR. apply half_sq; lra.
Qed.

Section Sel.
Variables (K : R) (fuel : nat) (allowed : bool) (inf ninf : R) (tol : R -> R -> bool) (solve : (R -> R) -> R -> R -> R * R).
Variables (db : Z -> outcome (RNum * RNum)) (spf : list (massCharge RNum) -> list (massCharge RNum) -> outcome (list factory))
  (parse : String.string -> outcome (list (expr RNum))) (fcm fcq : bool).

Lemma selected (e : eqcore RNum) doc c model rhs (max : R) inplace (pA pB : rpart) l g k j path a b l' k' mA mB cs :
  e_mu e = ReducedMass (N:=RNum) mA mB -> 0 < mA -> 0 < mB ->
  doc_ok doc -> 0 <= inf -> solver_in_bracket solve ->
  xs_load (N:=RNum) fuel allowed inf ninf tol solve (e_mu e) doc = Ok c ->
  nth_error rhs j = Some (mkEquation (N:=RNum) e c model) ->
  channels K rhs (relspeed (p_vel pA) (p_vel pB)) cs -> List.Forall (fun x => 0 <= x) cs -> rng_ok g ->
  set_interact (N:=RNum) K inplace rhs max pA pB l g k = Ok (path, a, b, l', k') -> fst path = Z.of_nat j ->
  (exists E, getThresholdEnergy c = Ok E /\ 0 <= E <= mA * mB / (mA + mB) / 2 * dist2 (p_vel (low pA pB)) (p_vel (high pA pB))) /\
  exists k1 a' b', model_interact (N:=RNum) inplace model (low pA pB) (high pA pB) l g k1 = Ok (a', b', l', k').
Proof.
  intros Hmu HA HB Hd Hinf Hsol Hl Hj Hc Hnn Hg H Hp.
  apply set_interact_order in H as (k1 & Hcp & Hcase). rewrite vabs_relspeed in Hcp.
  destruct (outpath_spec K rhs max _ g k cs Hc Hnn Hg) as (j' & s & k'' & Ho & _ & _ & Hsel & _).
  rewrite Ho in Hcp. injection Hcp as <- <-. cbn [fst] in *.
  destruct Hsel as [Hsel|(i & Hi & Hn & Hs)]; [lia|]. assert (i = j) as -> by lia.
  assert (Hsig : sigma_is K c (relspeed (p_vel pA) (p_vel pB)) s).
  { clear -Hc Hj Hn. unfold channels in Hc. revert j Hj Hn. induction Hc as [|e0 s0 rhs cs H0 H IH]; intros [|j] Hj Hn; cbn in Hj, Hn; try discriminate.
    - injection Hj as ->. injection Hn as ->. exact H0.
    - eauto. }
  destruct Hcase as [[Hlt _]|(e' & Hge & He & Hmod)]; [lia|].
  rewrite Hp, Nat2Z.id, Hj in He. injection He as <-. cbn [q_model] in Hmod.
  assert (Hmup : 0 < rm_value (e_mu e)) by (rewrite Hmu, rm_val; apply rm_pos; assumption).
  split.
  - destruct (xs_affordable K fuel allowed inf ninf tol solve (e_mu e) doc c _ s Hmup Hd Hinf Hsol Hl (relspeed_nonneg _ _) Hsig) as (E & HE & Hle); [lra|].
    exists E. split; [assumption|]. rewrite relspeed_sq, Hmu, rm_val in Hle.
    assert (Hsym : dist2 (p_vel (low pA pB)) (p_vel (high pA pB)) = dist2 (p_vel pA) (p_vel pB)).
    { unfold low, high. destruct (Z.ltb _ _); [|reflexivity]. unfold dist2. unR. ring. }
    rewrite Hsym. lra.
  - unfold low, high. destruct Hmod as [[Hle Hm]|[Hlt Hm]].
    + destruct (Z.ltb_spec (p_species pB) (p_species pA)); [lia|]. eauto.
    + destruct (Z.ltb_spec (p_species pB) (p_species pA)); [|lia]. eauto.
Qed.

Lemma selected22 (e : eqcore RNum) doc c E model rhs (max : R) inplace (pA pB : rpart) l g k j path a b l' k' mA mB M0 M1 cs :
  reaction (N:=RNum) positive db e mA mB [M0; M1] -> M0 + M1 = mA + mB -> hasExpressions (e_products e) = false ->
  doc_ok doc -> 0 <= inf -> solver_in_bracket solve ->
  xs_load (N:=RNum) fuel allowed inf ninf tol solve (e_mu e) doc = Ok c -> getThresholdEnergy c = Ok E ->
  inelastic_new_load (N:=RNum) db spf parse fcm fcq None E e = Ok model ->
  nth_error rhs j = Some (mkEquation (N:=RNum) e c model) ->
  channels K rhs (relspeed (p_vel pA) (p_vel pB)) cs -> List.Forall (fun x => 0 <= x) cs -> rng_ok g ->
  set_interact (N:=RNum) K inplace rhs max pA pB l g k = Ok (path, a, b, l', k') -> fst path = Z.of_nat j ->
  exists q1 q2, l' = l ++ [q1; q2] /\
    momentum2 M0 (p_vel q1) M1 (p_vel q2) = momentum2 mA (p_vel (low pA pB)) mB (p_vel (high pA pB)) /\
    kinetic M0 (p_vel q1) + kinetic M1 (p_vel q2)
      = kinetic mA (p_vel (low pA pB)) + kinetic mB (p_vel (high pA pB)) - E.
Proof.
  intros Hr Hb Hx Hd Hinf Hsol Hl HE Hload Hj Hc Hnn Hg H Hp.
  pose proof Hr as (_ & _ & Hmu & _ & _ & HmA & HmB & _).
  destruct (selected _ _ _ _ _ _ _ _ _ _ _ _ _ _ _ _ _ _ _ _ _ Hmu HmA HmB Hd Hinf Hsol Hl Hj Hc Hnn Hg H Hp) as ((E' & HE' & Haff) & k1 & a' & b' & Hm).
  rewrite HE in HE'. injection HE' as <-.
  destruct (react22 _ _ _ _ _ _ _ _ _ _ _ _ _ inplace (low pA pB) (high pA pB) l g k1 Hr Hx Hload) as (q1 & q2 & Hq & _ & Hmom & Hen).
  rewrite Hq in Hm. injection Hm as _ _ <- _. exists q1, q2. split; [reflexivity|]. split; [auto|].
  rewrite Hen by (assumption || apply Hg || lra). lra.
Qed.

Lemma selected23 (e : eqcore RNum) doc c E model rhs (max : R) inplace (pA pB : rpart) l g k j path a b l' k' mA mB M0 M1 M2 cs :
  reaction (N:=RNum) positive db e mA mB [M0; M1; M2] -> M0 + M1 + M2 = mA + mB -> hasExpressions (e_products e) = false ->
  doc_ok doc -> 0 <= inf -> solver_in_bracket solve ->
  xs_load (N:=RNum) fuel allowed inf ninf tol solve (e_mu e) doc = Ok c -> getThresholdEnergy c = Ok E ->
  inelastic_new_load (N:=RNum) db spf parse fcm fcq None E e = Ok model ->
  nth_error rhs j = Some (mkEquation (N:=RNum) e c model) ->
  channels K rhs (relspeed (p_vel pA) (p_vel pB)) cs -> List.Forall (fun x => 0 <= x) cs -> rng_ok g ->
  set_interact (N:=RNum) K inplace rhs max pA pB l g k = Ok (path, a, b, l', k') -> fst path = Z.of_nat j ->
  exists q1 q2 q3, l' = l ++ [q1; q2; q3] /\
    momentum3 M0 (p_vel q1) M1 (p_vel q2) M2 (p_vel q3) = momentum2 mA (p_vel (low pA pB)) mB (p_vel (high pA pB)) /\
    kinetic M0 (p_vel q1) + kinetic M1 (p_vel q2) + kinetic M2 (p_vel q3)
      = kinetic mA (p_vel (low pA pB)) + kinetic mB (p_vel (high pA pB)) - E.
Proof.
  intros Hr Hb Hx Hd Hinf Hsol Hl HE Hload Hj Hc Hnn Hg H Hp.
  pose proof Hr as (_ & _ & Hmu & _ & _ & HmA & HmB & _).
  destruct (selected _ _ _ _ _ _ _ _ _ _ _ _ _ _ _ _ _ _ _ _ _ Hmu HmA HmB Hd Hinf Hsol Hl Hj Hc Hnn Hg H Hp) as ((E' & HE' & Haff) & k1 & a' & b' & Hm).
  rewrite HE in HE'. injection HE' as <-.
  destruct (react23 _ _ _ _ _ _ _ _ _ _ _ _ _ _ inplace (low pA pB) (high pA pB) l g k1 Hr Hx Hload) as (q1 & q2 & q3 & Hq & _ & Hmom & Hen).
  rewrite Hq in Hm. injection Hm as _ _ <- _. exists q1, q2, q3. split; [reflexivity|]. split; [auto|].
  rewrite Hen by (assumption || lra). lra.
Qed.
End Sel.
