(** Averages over a whole run of the driver. *)
From Coq Require Import Reals List ZArith Lra Lia Psatz Bool.
From Flocq Require Import Core.
From Coquelicot Require Import Coquelicot.
From Verif Require Import Base Num ModelTerm ModelCollide ModelXsec ModelSet SpecPhys SpecXsec SpecSet SpecRate ProofCollide ProofInelastic ProofSet ProofSelect ProofDriver ProofDriver2 ProofDriver3 ProofRate ProofRate2 ProofRate3.
From Coq Require Import List.
Import ListNotations.
Local Open Scope R_scope.

Definition cnt (y : R) : nat := Z.to_nat (Z.max 0 (Zceil y - 1)).
Lemma cnt_lt y i : (i < cnt y)%nat -> (n1 <? dec (N:=RNum) y i)%num = true.
Proof.
  intros H. unfold cnt in H. rewrite dec_R. unR. destruct (Rltb_spec 1 (y - INR i)) as [|L]; [reflexivity|]. exfalso.
  assert (Q : (Zceil y <= Z.of_nat i + 1)%Z) by (apply Zceil_glb; rewrite plus_IZR, <- INR_IZR_INZ; lra). lia.
Qed.
Lemma cnt_ge y : (n1 <? dec (N:=RNum) y (cnt y))%num = false.
Proof.
  rewrite dec_R. unR. destruct (Rltb_spec 1 (y - INR (cnt y))) as [L|]; [|reflexivity]. exfalso.
  rewrite INR_IZR_INZ in L. unfold cnt in L. rewrite Z2Nat.id in L by lia. pose proof (Zceil_ub y).
  assert (IZR (Zceil y - 1) <= IZR (Z.max 0 (Zceil y - 1))) by (apply IZR_le; lia). rewrite minus_IZR in *. lra.
Qed.
Lemma cnt_mono x y : x <= y -> (cnt x <= cnt y)%nat.
Proof. intros H. unfold cnt. pose proof (Zceil_le x y H). lia. Qed.

Lemma promote_R (x d : R) : promote (N:=RNum) x d = if Rltb d (x - IZR (Zfloor x)) then x + 1 else x.
Proof. reflexivity. Qed.
Lemma promote_le (x d : R) : promote (N:=RNum) x d <= x + 1.
Proof. rewrite promote_R. destruct (Rltb d (x - IZR (Zfloor x))); lra. Qed.

Section Drive.
Context (K dt : R) (c : cell RNum) (nprops : nat) (db : nat -> nat -> list (equation RNum)).
Context (phi : entry -> R).
Hypothesis HT : testable K dt c nprops db.
Hypothesis Hphi : forall e, 0 <= phi e.

Let rs := c_ranges c.
Let mem := c_mem c.
Let n := Nat.min (length rs) nprops.
Definition msvf (A B : nat) : R := match findMaxSigmaVProduct (N:=RNum) K (db A B) (c_maxv c A B) with Ok m => m | _ => 0 end.
Definition dummy : particle RNum := mkParticle (N:=RNum) (V3 (N:=RNum) 0 0 0) (V3 (N:=RNum) 0 0 0) 0%Z 0.
Definition drawcount (m : imodel RNum) : nat :=
  match model_interact (N:=RNum) false m dummy dummy [] (drawn (fun _ => 1 / 2)) 0 with Ok (_, _, _, k) => k | _ => 0%nat end.
Definition ddf (A B i : nat) : nat := match nth_error (db A B) i with Some e => drawcount (q_model e) | None => 0%nat end.
Definition Dmax : nat := list_max (flat_map (fun p => map (fun e => drawcount (q_model e)) (db (fst p) (snd p))) (species_pairs n)).
Definition wt (A : nat) : R := match nth_error mem (fst (rg rs A)) with Some p => p_weight p | None => 0 end.
Definition xe (A B : nat) : R := ntc (Nat.eqb A B) (wt A) (wt B) (rsize (rg rs A)) (rsize (rg rs B)) dt (msvf A B) (c_volume c).
Definition big (A B : nat) : bool := negb (Nat.eqb A B && Nat.ltb (rsize (rg rs A)) 2).
Definition neff (A B : nat) (y : R) : nat := if big A B then cnt y else 0%nat.

Definition okp (p : nat * nat) : Prop := (fst p <= snd p < n)%nat /\ db (fst p) (snd p) <> [].

Lemma rg_ok A : (A < n)%nat -> nth_error rs A = Some (rg rs A).
Proof. intros H. unfold rg. apply nth_error_nth'. unfold n in H. lia. Qed.
Lemma drawcount_uses d m : uses d m -> drawcount m = d.
Proof. intros H. unfold drawcount. destruct (H dummy dummy [] (drawn (fun _ => 1 / 2)) 0%nat) as (a & b & l' & E). rewrite E. reflexivity. Qed.

Lemma okp_size p : okp p -> (0 < rsize (rg rs (fst p)))%nat /\ (0 < rsize (rg rs (snd p)))%nat.
Proof.
  intros [H1 H2]. destruct HT as (_ & _ & _ & _ & _ & _ & H). destruct (H _ _ H1 H2) as (Hs & _).
  split; apply Hs; [left|right]; apply rg_ok; lia.
Qed.
Lemma okp_msv p : okp p -> findMaxSigmaVProduct (N:=RNum) K (db (fst p) (snd p)) (c_maxv c (fst p) (snd p)) = Ok (msvf (fst p) (snd p)) /\ 0 <= msvf (fst p) (snd p).
Proof.
  intros [H1 H2]. destruct HT as (_ & _ & _ & _ & _ & _ & H). destruct (H _ _ H1 H2) as (_ & (m & E & Hm) & _).
  unfold msvf. rewrite E. auto.
Qed.
Lemma okp_weight A : (A < n)%nat -> (0 < rsize (rg rs A))%nat -> first_weight mem (rg rs A) = Ok (wt A) /\ 0 < wt A.
Proof.
  intros HA Hs. destruct HT as (_ & _ & _ & _ & Hm & Hw & _). specialize (Hm A (rg rs A) (rg_ok A HA)).
  unfold first_weight, wt, oget. destruct (Nat.ltb_spec (fst (rg rs A)) (snd (rg rs A))) as [L|L]; [|unfold rsize in Hs; lia].
  destruct (nth_error mem (fst (rg rs A))) as [p|] eqn:E; [|apply nth_error_None in E; fold mem in Hm; lia].
  cbn [obind]. split; [reflexivity|]. rewrite List.Forall_forall in Hw. apply Hw. eapply nth_error_In; exact E.
Qed.

Lemma good_pair p : okp p -> big (fst p) (snd p) = true -> good K mem rs db msvf ddf Dmax (fst p) (snd p).
Proof.
  intros Hok Hbig. destruct (okp_size p Hok) as [SA SB]. destruct (okp_msv p Hok) as [_ Hm0]. destruct p as [A B]. cbn [fst snd] in *.
  destruct Hok as [H1 H2]. cbn [fst snd] in *. destruct HT as (_ & _ & Hdis & Hbnd & Hmem & _ & H). destruct (H _ _ H1 H2) as (_ & _ & Hd & Hcs).
  pose proof (rg_ok A ltac:(lia)) as EA. pose proof (rg_ok B ltac:(lia)) as EB. unfold bounded in Hbnd. rewrite List.Forall_forall in Hbnd.
  constructor; try assumption.
  - split; [lia|]. apply Hbnd. eapply nth_error_In; exact EA.
  - split; [lia|]. apply Hbnd. eapply nth_error_In; exact EB.
  - eapply Hmem; exact EA.
  - eapply Hmem; exact EB.
  - intros i j Hi Hj. destruct (in_mem mem i (rg rs A)) as (p & Ep); [eapply Hmem; exact EA|assumption|].
    destruct (in_mem mem j (rg rs B)) as (q & Eq); [eapply Hmem; exact EB|assumption|].
    destruct (Hcs p q) as (cs & Hc & Hnn); [eapply nth_error_In; exact Ep|eapply nth_error_In; exact Eq|].
    assert (Ev : vel mem i j = relspeed (p_vel p) (p_vel q)) by (unfold vel; rewrite Ep, Eq; reflexivity). unfold css. rewrite Ev.
    pose proof (proj2 (channel_ok _ _ _ _) Hc) as Ecs. rewrite Ecs. split; assumption.
  - intros i e Ei. unfold ddf. rewrite Ei. rewrite List.Forall_forall in Hd. destruct (Hd e (nth_error_In _ _ Ei)) as (d & Hu).
    rewrite (drawcount_uses d _ Hu). split; [assumption|]. unfold Dmax.
    assert (Hin : In d (flat_map (fun p => map (fun e => drawcount (q_model e)) (db (fst p) (snd p))) (species_pairs n))).
    { apply in_flat_map. exists (A, B). split; [apply species_pairs_in; lia|]. apply in_map_iff. exists e. split; [apply drawcount_uses; assumption|eapply nth_error_In; exact Ei]. }
    pose proof (proj1 (list_max_le _ (list_max (flat_map (fun p => map (fun e => drawcount (q_model e)) (db (fst p) (snd p))) (species_pairs n)))) (Nat.le_refl _)) as Q.
    rewrite List.Forall_forall in Q. apply Q. exact Hin.
  - unfold big in Hbig. destruct (Nat.eqb_spec A B) as [->|Hne].
    + left. split; [reflexivity|]. destruct (Nat.ltb_spec (rsize (rg rs B)) 2); [discriminate|assumption].
    + right. split; [assumption|]. intros i Hi. apply (Hdis A B (rg rs A) (rg rs B) i Hne EA EB Hi).
Qed.
Lemma good_it p y : okp p -> good_item K mem rs db msvf ddf Dmax (fst p, snd p, neff (fst p) (snd p) y).
Proof.
  intros Hok. unfold good_item, neff. cbn [fst snd]. destruct (big (fst p) (snd p)) eqn:E; [right; apply good_pair; assumption|left; reflexivity].
Qed.

(** ** The first pass *)
Fixpoint cts (u : nat -> R) (k : nat) (ps : list (nat * nat)) : list (ctdata RNum) :=
  match ps with
  | [] => []
  | (A, B) :: ps => mkCT (N:=RNum) A B (promote (N:=RNum) (xe A B) (u k)) (msvf A B) :: cts u (S k) ps
  end.
Fixpoint items (u : nat -> R) (k : nat) (ps : list (nat * nat)) : list item :=
  match ps with
  | [] => []
  | (A, B) :: ps => (A, B, neff A B (promote (N:=RNum) (xe A B) (u k))) :: items u (S k) ps
  end.
Lemma first_pass_cts u : forall ps k, List.Forall (fun p => (fst p <= snd p < n)%nat) ps ->
  first_pass (N:=RNum) K db dt c (drawn u) k ps = Ok (cts u k (filter (has_eqs db) ps), (k + length (filter (has_eqs db) ps))%nat).
Proof.
  induction ps as [|[A B] ps IH]; intros k H; [cbn; rewrite Nat.add_0_r; reflexivity|]. inversion H as [|? ? H1 Hps]; subst. cbn [fst snd] in H1.
  cbn [first_pass]. unfold oget at 1 2. pose proof (rg_ok A ltac:(lia)) as EA. pose proof (rg_ok B ltac:(lia)) as EB. unfold rs in EA, EB. rewrite EA, EB. cbn [obind].
  cbn [filter]. change (has_eqs db (A, B)) with (match db A B with [] => false | _ => true end). destruct (db A B) as [|e l] eqn:Edb; [apply IH; assumption|].
  assert (Hok : okp (A, B)) by (split; cbn [fst snd]; [assumption|rewrite Edb; discriminate]).
  destruct (okp_msv _ Hok) as [Em _]. destruct (okp_size _ Hok) as [SA SB]. cbn [fst snd] in *. rewrite Edb in Em.
  destruct (okp_weight A ltac:(lia) SA) as [EwA PA]. destruct (okp_weight B ltac:(lia) SB) as [EwB PB].
  rewrite Em. cbn [obind]. unfold rs, mem in EwA, EwB. rewrite EwA, EwB. cbn [obind].
  rewrite IH by assumption. cbn [obind cts length]. f_equal. f_equal; [|lia]. replace (k + 1)%nat with (S k) by lia. f_equal. f_equal.
  unfold xe. cbn [g_rand drawn]. f_equal. destruct HT as (_ & HV & _).
  apply estimate_R; [assumption|assumption|]. apply Rgt_not_eq. exact HV.
Qed.

(** ** The second pass *)
Lemma second_sim fuel u : inner u -> forall ps k (s : dstate RNum), List.Forall okp ps ->
  (forall A B, In (A, B) ps -> (cnt (xe A B + 1) < fuel)%nat) -> (0 < fuel)%nat ->
  s_mem s = mem -> s_ranges s = rs ->
  match sim_second K mem rs db msvf ddf fuel (items u k ps) u (s_pos s) with
  | Some (es, k') => exists s', second_pass (N:=RNum) K fuel false db (drawn u) (cts u k ps) s = Ok s' /\ s_log s' = s_log s ++ es
  | None => forall s', second_pass (N:=RNum) K fuel false db (drawn u) (cts u k ps) s <> Ok s'
  end.
Proof.
  intros Hu. induction ps as [|[A B] ps IH]; intros k s Hok Hf Hf0 Em Er.
  - cbn. exists s. rewrite app_nil_r. auto.
  - inversion Hok as [|? ? H1 Hps]; subst. cbn [items cts sim_second]. unfold second_pass. cbn [ofold ct_A ct_B ct_tests ct_msv].
    set (y := promote (N:=RNum) (xe A B) (u k)).
    assert (Hy : y <= xe A B + 1) by apply promote_le.
    assert (Hy2 : (cnt y < fuel)%nat) by (pose proof (cnt_mono _ _ Hy); specialize (Hf A B (or_introl eq_refl)); lia).
    assert (Hf' : forall A B, In (A, B) ps -> (cnt (xe A B + 1) < fuel)%nat) by (intros; apply Hf; right; assumption).
    unfold neff. destruct (big A B) eqn:Eb.
    + pose proof (loop_sim K mem rs db msvf ddf Dmax fuel A B u (good_pair _ H1 Eb) Hu (cnt y) fuel y s Em Er (cnt_lt y) (cnt_ge y) Hy2) as Q.
      cbn [fst snd] in Q. destruct (sim_loop K mem rs db msvf ddf fuel A B (cnt y) u (s_pos s)) as [[es k1]|].
      * destruct Q as (s1 & E1 & Em1 & Er1 & Ek1 & El1). rewrite E1. cbn [obind]. specialize (IH (S k) s1 Hps Hf' Hf0 Em1 Er1). rewrite Ek1 in IH.
        destruct (sim_second K mem rs db msvf ddf fuel (items u (S k) ps) u k1) as [[es2 k2]|].
        -- destruct IH as (s2 & E2 & El2). exists s2. split; [exact E2|]. rewrite El2, El1, <- app_assoc. reflexivity.
        -- exact IH.
      * intros s' H. apply obind_ok in H as (s1 & E1 & _). apply (Q s1). exact E1.
    + cbn [sim_loop].
      assert (E1 : test_loop (N:=RNum) K fuel false fuel (db A B) (msvf A B) A B y (drawn u) s = Ok s).
      { destruct fuel as [|fuel]; [lia|]. cbn [test_loop]. destruct (n1 <? y)%num; [|reflexivity].
        destruct H1 as [HL _]. cbn [fst snd] in HL. unfold oget. rewrite Er, (rg_ok A ltac:(lia)), (rg_ok B ltac:(lia)). cbn [obind].
        unfold big in Eb. apply negb_false_iff in Eb. rewrite Eb. reflexivity. }
      rewrite E1. cbn [obind]. specialize (IH (S k) s Hps Hf' Hf0 Em Er).
      destruct (sim_second K mem rs db msvf ddf fuel (items u (S k) ps) u (s_pos s)) as [[es2 k2]|]; exact IH.
Qed.

(** ** Averages over the promotion draws *)
Section Fuel.
Context (fuel : nat).
Notation RL := (Rl rs fuel).
Notation QL := (Ql K mem rs db msvf phi).
Notation q := (fun A B => qmean K mem rs db msvf A B phi).
Definition pf (A B : nat) : R := xe A B - IZR (Zfloor (xe A B)).
Fixpoint V (ps : list (nat * nat)) (done : list item) : R :=
  match ps with
  | [] => RL done * QL done
  | (A, B) :: ps => pf A B * V ps (done ++ [(A, B, neff A B (xe A B + 1))]) + (1 - pf A B) * V ps (done ++ [(A, B, neff A B (xe A B))])
  end.
Fixpoint NH (ps : list (nat * nat)) : nat := match ps with [] => 0 | (A, B) :: ps => neff A B (xe A B + 1) + NH ps end.
Lemma pf_01 A B : 0 <= pf A B <= 1.
Proof. unfold pf. pose proof (Zfloor_lb (xe A B)). pose proof (Zfloor_ub (xe A B)). lra. Qed.
Lemma neff_le A B x y : x <= y -> (neff A B x <= neff A B y)%nat.
Proof. intros H. unfold neff. destruct (big A B); [apply cnt_mono; assumption|lia]. Qed.
Lemma Nl_app a b : Nl (a ++ b) = (Nl a + Nl b)%nat.
Proof. induction a as [|[[A B] m] a IH]; [reflexivity|]. cbn [app Nl]. lia. Qed.

Lemma first_ev F : forall ps done k u, List.Forall okp ps -> List.Forall (good_item K mem rs db msvf ddf Dmax) done -> inner u ->
  (forall w, inner w -> agree k w u -> F w = match sim_second K mem rs db msvf ddf fuel (done ++ items w k ps) w (k + length ps) with
                                            | Some (es, _) => Phi phi es | None => 0 end) ->
  ev (length ps + (Nl done + NH ps) * T Dmax fuel) k F u (V ps done).
Proof.
  induction ps as [|[A B] ps IH]; intros done k u Hok Hd Hu H.
  - cbn [length V NH Nat.add]. rewrite Nat.add_0_r. replace (RL done * QL done) with (RL done * (QL done + 0)) by ring.
    replace (Nl done * T Dmax fuel)%nat with (Nl done * T Dmax fuel + 0)%nat by lia. cbn [length items] in H. rewrite app_nil_r, Nat.add_0_r in H.
    apply (second_ev K mem rs db msvf ddf Dmax fuel phi); [assumption|assumption| |].
    + intros w es k' Hw Ha E. rewrite Rplus_0_r. apply ev_const. intros z Hz Haz.
      destruct (sim_second_local K mem rs db msvf ddf Dmax fuel w Hw done Hd k es k' E) as [L Hloc].
      rewrite (H z Hz); [rewrite (Hloc z Hz Haz); reflexivity|]. eapply agree_trans; [eapply agree_le; [|exact Haz]; lia|assumption].
    + intros w Hw Ha E. rewrite (H w Hw Ha), E. reflexivity.
  - inversion Hok as [|? ? H1 Hps]; subst. cbn [length V NH Nat.add].
    set (hi := (A, B, neff A B (xe A B + 1))). set (lo := (A, B, neff A B (xe A B))).
    assert (Hle : (neff A B (xe A B) <= neff A B (xe A B + 1))%nat) by (apply neff_le; lra).
    assert (Step : forall x it, 0 < x < 1 -> (A, B, neff A B (promote (N:=RNum) (xe A B) x)) = it ->
              ev (length ps + (Nl done + (neff A B (xe A B + 1) + NH ps)) * T Dmax fuel) (S k) F (redraw u k x) (V ps (done ++ [it]))).
    { intros x it Hx <-. 
      assert (Hy : (neff A B (promote (N:=RNum) (xe A B) x) <= neff A B (xe A B + 1))%nat).
      { apply neff_le, promote_le. }
      eapply ev_mono; [|apply IH].
      - apply Nat.add_le_mono_l. apply Nat.mul_le_mono_r. rewrite Nl_app. cbn [Nl]. lia.
      - assumption.
      - apply List.Forall_app. split; [assumption|]. constructor; [|constructor]. apply (good_it (A, B)). assumption.
      - apply redraw_inner; assumption.
      - intros w Hw Ha. apply agree_S in Ha as [Ha Hwk]. rewrite (H w Hw Ha). cbn [items length]. rewrite Hwk, <- app_assoc. cbn [app].
        replace (k + S (length ps))%nat with (S k + length ps)%nat by lia. reflexivity. }
    apply ev_two with (f := fun x => if Rltb x (pf A B) then V ps (done ++ [hi]) else V ps (done ++ [lo])).
    + apply pf_01.
    + intros x Hx. destruct (Rltb_spec x (pf A B)) as [L|L]; apply Step; try assumption; unfold hi, lo, pf in *; rewrite promote_R;
        destruct (Rltb_spec x (xe A B - IZR (Zfloor (xe A B)))); try reflexivity; exfalso; lra.
    + intros x Hx L. destruct (Rltb_spec x (pf A B)); [reflexivity|exfalso; lra].
    + intros x Hx L. destruct (Rltb_spec x (pf A B)); [exfalso; lra|reflexivity].
Qed.

(** *** Bounds *)
Definition EN (A B : nat) : R := pf A B * INR (neff A B (xe A B + 1)) + (1 - pf A B) * INR (neff A B (xe A B)).
Fixpoint EQ (ps : list (nat * nat)) : R := match ps with [] => 0 | (A, B) :: ps => EN A B * q A B + EQ ps end.
Fixpoint Dl (l : list item) : R := match l with [] => 0 | (A, B, m) :: l => INR m * (1 - rr rs fuel A B) + Dl l end.
Fixpoint DH (ps : list (nat * nat)) : R := match ps with [] => 0 | (A, B) :: ps => INR (neff A B (xe A B + 1)) * (1 - rr rs fuel A B) + DH ps end.

Definition okr (o : item) : Prop := 0 <= rr rs fuel (fst (fst o)) (snd (fst o)) <= 1 /\ 0 <= INR (snd o) * q (fst (fst o)) (snd (fst o)).
Lemma pow_bern r m : 0 <= r <= 1 -> 1 - INR m * (1 - r) <= r ^ m /\ 0 <= r ^ m <= 1.
Proof.
  intros Hr. induction m as [|m [IH1 IH2]]; [cbn; lra|]. rewrite S_INR. cbn [pow]. pose proof (pos_INR m). split; [|split; nra]. nra.
Qed.
Lemma Rl_bounds l : List.Forall okr l -> 1 - Dl l <= RL l /\ 0 <= RL l <= 1 /\ 0 <= Dl l /\ 0 <= QL l.
Proof.
  induction l as [|[[A B] m] l IH]; intros H; [cbn; lra|]. inversion H as [|? ? [H1 H2] Hl]; subst. cbn [fst snd] in *.
  destruct (IH Hl) as (I1 & I2 & I3 & I4). cbn [Rl Ql Dl]. destruct (pow_bern _ m H1) as [P1 P2]. pose proof (pos_INR m).
  assert (0 <= INR m * (1 - rr rs fuel A B)) by (apply Rmult_le_pos; lra).
  split; [|split; [split; nra|split; lra]]. nra.
Qed.
Lemma Dl_app a b : Dl (a ++ b) = Dl a + Dl b.
Proof. induction a as [|[[A B] m] a IH]; [cbn; ring|]. cbn [app Dl]. rewrite IH. ring. Qed.
Lemma Ql_app a b : QL (a ++ b) = QL a + QL b.
Proof. induction a as [|[[A B] m] a IH]; [cbn; ring|]. cbn [app Ql]. rewrite IH. ring. Qed.

Lemma q_nonneg p y : okp p -> okr (fst p, snd p, neff (fst p) (snd p) y).
Proof.
  intros Hok. destruct (okp_size p Hok) as [SA SB]. split; cbn [fst snd].
  - unfold rr. apply psucc_01. lia.
  - unfold neff. destruct (big (fst p) (snd p)) eqn:E; [|cbn [INR]; lra]. pose proof (good_pair p Hok E) as G.
    apply Rmult_le_pos; [apply pos_INR|]. unfold qmean. apply Rmult_le_pos; [|left; apply Rinv_0_lt_compat, lt_0_INR; assumption].
    apply Rsum_le0. intros i Hi. apply in_seq in Hi. assert (Hia : in_range i (rg rs (fst p))) by (unfold in_range, rsize in *; lia).
    unfold umean. set (o := others (rg rs (snd p)) i). destruct (Nat.eq_dec (length o) 0) as [E0|E0].
    + destruct o; [|discriminate]. cbn [map Rsum]. unfold Rdiv. rewrite Rmult_0_l. lra.
    + apply Rmult_le_pos; [|left; apply Rinv_0_lt_compat, lt_0_INR; lia]. apply Rsum_le0. intros j Hj. unfold o, others in Hj. apply filter_In in Hj as [Hj _]. apply in_seq in Hj.
      destruct (g_cs _ _ _ _ _ _ _ _ _ G i j Hia) as [_ Hnn]; [unfold in_range, rsize in *; lia|].
      apply pmean_nonneg; [assumption|apply vel_nonneg|intros; apply Hphi].
Qed.

Lemma EQ_nonneg ps : List.Forall okp ps -> 0 <= EQ ps.
Proof.
  induction ps as [|[A B] ps IH]; intros H; [cbn; lra|]. inversion H as [|? ? H1 H2]; subst. cbn [EQ].
  pose proof (q_nonneg (A, B) (xe A B + 1) H1) as [_ R1]. pose proof (q_nonneg (A, B) (xe A B) H1) as [_ R2]. cbn [fst snd] in *. pose proof (pf_01 A B).
  specialize (IH H2). unfold EN. nra.
Qed.
Lemma V_bounds : forall ps done, List.Forall okp ps -> List.Forall okr done ->
  (1 - (Dl done + DH ps)) * (QL done + EQ ps) <= V ps done <= QL done + EQ ps.
Proof.
  induction ps as [|[A B] ps IH]; intros done Hok Hd.
  - cbn [V EQ DH]. destruct (Rl_bounds done Hd) as (I1 & I2 & I3 & I4). split; nra.
  - inversion Hok as [|? ? H1 Hps]; subst. cbn [V EQ DH]. pose proof (pf_01 A B) as Hp.
    pose proof (q_nonneg (A, B) (xe A B + 1) H1) as R1. pose proof (q_nonneg (A, B) (xe A B) H1) as R2. cbn [fst snd] in *.
    assert (Hd1 : List.Forall okr (done ++ [(A, B, neff A B (xe A B + 1))])) by (apply List.Forall_app; auto).
    assert (Hd2 : List.Forall okr (done ++ [(A, B, neff A B (xe A B))])) by (apply List.Forall_app; auto).
    pose proof (IH _ Hps Hd1) as [L1 U1]. pose proof (IH _ Hps Hd2) as [L2 U2]. rewrite Dl_app, Ql_app in *. cbn [Dl Ql] in *.
    assert (Hle : INR (neff A B (xe A B)) <= INR (neff A B (xe A B + 1))) by (apply le_INR, neff_le; lra).
    destruct R1 as [Rr R1]. destruct R2 as [_ R2]. cbn [fst snd] in *.
    assert (Qn : 0 <= QL done) by (apply Rl_bounds; assumption).
    assert (En : 0 <= EQ ps) by (apply EQ_nonneg; assumption).
    set (h := INR (neff A B (xe A B + 1))) in *. set (l := INR (neff A B (xe A B))) in *. set (r := 1 - rr rs fuel A B) in *. set (Q := q A B) in *. cbv beta in Q. fold Q in L1, U1, L2, U2, R1, R2.
    unfold EN. fold h l. set (p := pf A B) in *. set (v1 := V ps (done ++ [(A, B, neff A B (xe A B + 1))])) in *. set (v2 := V ps (done ++ [(A, B, neff A B (xe A B))])) in *.
    assert (Hr : 0 <= r) by (unfold r; lra).
    set (d := Dl done) in *. set (e := DH ps) in *.
    assert (L2' : (1 - (d + (h * r + e))) * (QL done + (l * Q + 0) + EQ ps) <= v2).
    { eapply Rle_trans; [|exact L2]. apply Rmult_le_compat_r; [lra|]. assert (l * r <= h * r) by (apply Rmult_le_compat_r; lra). lra. }
    assert (L1' : (1 - (d + (h * r + e))) * (QL done + (h * Q + 0) + EQ ps) <= v1).
    { eapply Rle_trans; [|exact L1]. apply Req_le. ring. }
    split.
    + apply Rmult_le_compat_l with (r := p) in L1'; [|lra]. apply Rmult_le_compat_l with (r := 1 - p) in L2'; [|lra].
      eapply Rle_trans; [|apply Rplus_le_compat; [exact L1'|exact L2']]. apply Req_le. ring.
    + apply Rmult_le_compat_l with (r := p) in U1; [|lra]. apply Rmult_le_compat_l with (r := 1 - p) in U2; [|lra].
      eapply Rle_trans; [apply Rplus_le_compat; [exact U1|exact U2]|]. apply Req_le. ring.
Qed.
Fixpoint CL (ps : list (nat * nat)) : R := match ps with [] => 0 | (A, B) :: ps => (if Nat.eqb A B then INR (neff A B (xe A B + 1)) else 0) + CL ps end.
Lemma DH_CL ps : (0 < fuel)%nat -> List.Forall okp ps -> DH ps <= CL ps / 2 ^ fuel.
Proof.
  intros Hf. induction ps as [|[A B] ps IH]; intros H; [cbn; unfold Rdiv; lra|]. inversion H as [|? ? H1 Hps]; subst. specialize (IH Hps). cbn [DH CL].
  assert (P : 0 < 2 ^ fuel) by (apply pow_lt; lra). unfold Rdiv in *. rewrite Rmult_plus_distr_r. apply Rplus_le_compat; [|assumption].
  unfold rr, psucc, neff, big. destruct (Nat.eqb_spec A B) as [->|Hne].
  - cbn [andb]. destruct (Nat.ltb_spec (rsize (rg rs B)) 2) as [L|L]; cbn [negb]; [cbn [INR]; rewrite !Rmult_0_l; lra|].
    apply Rmult_le_compat_l; [apply pos_INR|]. assert (2 <= INR (rsize (rg rs B))) by (replace 2 with (INR 2) by (cbn; ring); apply le_INR; assumption).
    replace (1 - (1 - (/ INR (rsize (rg rs B))) ^ fuel)) with ((/ INR (rsize (rg rs B))) ^ fuel) by ring. rewrite <- pow_inv.
    apply pow_incr. split; [left; apply Rinv_0_lt_compat; lra|apply Rinv_le_contravar; lra].
  - destruct fuel; [lia|]. lra.
Qed.
End Fuel.

Definition weigh (o : outcome (dstate RNum)) : R := match o with Ok s => Phi phi (s_log s) | _ => 0 end.

Theorem driver_average res er k : let ps := filter (has_eqs db) (species_pairs n) in
  exists f0, forall fuel, (f0 <= fuel)%nat -> exists M0 a,
    (forall M u, (M0 <= M)%nat -> inner u -> average_is M k (fun u => weigh (driver (N:=RNum) K fuel false dt c nprops db res er (drawn u) k)) u a) /\
    EQ ps * (1 - CL ps / 2 ^ fuel) <= a <= EQ ps.
Proof.
  intros ps.
  assert (Hall : List.Forall (fun p => (fst p <= snd p < n)%nat) (species_pairs n)).
  { apply List.Forall_forall. intros [A B] Hin. apply species_pairs_in in Hin. exact Hin. }
  assert (Hps : List.Forall okp ps).
  { apply List.Forall_forall. intros p Hin. apply filter_In in Hin as [Hin He]. rewrite List.Forall_forall in Hall. split; [apply Hall; assumption|].
    unfold has_eqs in He. destruct (db (fst p) (snd p)); [discriminate He|discriminate]. }
  exists (S (list_max (map (fun p => cnt (xe (fst p) (snd p) + 1)) ps))). intros fuel Hf.
  assert (Hcnt : forall A B, In (A, B) ps -> (cnt (xe A B + 1) < fuel)%nat).
  { intros A B Hin. pose proof (proj1 (list_max_le _ _) (Nat.le_refl (list_max (map (fun p => cnt (xe (fst p) (snd p) + 1)) ps)))) as Q.
    rewrite List.Forall_forall in Q. specialize (Q (cnt (xe A B + 1)) ltac:(apply in_map_iff; exists (A, B); auto)). lia. }
  exists (length ps + (0 + NH ps) * T Dmax fuel)%nat, (V fuel ps []).
  set (F := fun u => weigh (driver (N:=RNum) K fuel false dt c nprops db res er (drawn u) k)).
  assert (HF : forall w, inner w -> F w = match sim_second K mem rs db msvf ddf fuel ([] ++ items w k ps) w (k + length ps) with Some (es, _) => Phi phi es | None => 0 end).
  { intros w Hw. unfold F, weigh, driver. fold rs n. unfold rs at 1. fold rs. rewrite (first_pass_cts w _ k Hall). cbn [obind]. fold ps. cbn [app].
    pose proof (second_sim fuel w Hw ps k (mkState (N:=RNum) (c_mem c) (c_ranges c) res er (k + length ps)%nat []) Hps Hcnt ltac:(lia) eq_refl eq_refl) as Q. cbn [s_pos s_log app] in Q.
    destruct (sim_second K mem rs db msvf ddf fuel (items w k ps) w (k + length ps)) as [[es k']|].
    - destruct Q as (s' & E & El). fold rs mem in E. fold rs mem. rewrite E, El. reflexivity.
    - fold rs mem in Q. fold rs mem. destruct (second_pass K fuel false db (drawn w) (cts w k ps) _) as [s'| | |] eqn:E; try reflexivity. exfalso. exact (Q s' eq_refl). }
  split.
  - intros M u HM Hu. apply later_here; [assumption|]. apply (first_ev fuel F ps [] k u Hps ltac:(constructor) Hu); [|exact HM].
    intros w Hw _. apply HF. assumption.
  - pose proof (V_bounds fuel ps [] Hps ltac:(constructor)) as [L U]. cbn [Dl Ql] in *. rewrite !Rplus_0_l in *. split; [|exact U].
    eapply Rle_trans; [|exact L]. rewrite Rmult_comm. apply Rmult_le_compat_r.
    + apply (EQ_nonneg fuel). assumption.
    + pose proof (DH_CL fuel ps ltac:(lia) Hps). lra.
Qed.
End Drive.
