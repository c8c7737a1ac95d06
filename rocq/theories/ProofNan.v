(** What happens to particles whose velocities are not numbers. *)
From Coq Require Import List ZArith Bool Arith Lia Reals.
From Flocq Require Import Core.Core IEEE754.BinarySingleNaN.
From Verif Require Import Base Num ModelTerm ModelCollide ModelXsec ModelSet SpecSet SpecNan
  ProofInelastic ProofSelect ProofDB ProofDriver.
From Coq Require Import List.
Import ListNotations.

(** Zero or not a number. *)
Definition zn (x : binary64) : Prop := nan x \/ exists s, x = B754_zero s.
Lemma nan_is x : nan x -> x = B754_nan.
Proof. destruct x; [discriminate|discriminate|reflexivity|discriminate]. Qed.
Ltac zz := match goal with |- zn ?t => first [left; reflexivity | right; eexists; reflexivity] end.
Lemma zn_add x y : zn x -> zn y -> zn (fadd x y).
Proof. intros [H|[s ->]] [H'|[s' ->]]; try apply nan_is in H; try apply nan_is in H'; subst; try (left; reflexivity); try (destruct s; zz). right. destruct s, s'; eexists; reflexivity. Qed.
Lemma zn_mul x y : zn y -> zn (fmul x y).
Proof. intros [H|[s ->]]; [apply nan_is in H; subst|]; destruct x as [[]|[]| |[]]; zz. Qed.
Lemma zn_sqrt x : zn x -> zn (fsqrt x).
Proof. intros [H|[s ->]]; [apply nan_is in H; subst|]; zz. Qed.
Lemma zn_lt x y : zn x -> zn y -> Bltb x y = false.
Proof. intros [H|[s ->]] [H'|[s' ->]]; try apply nan_is in H; try apply nan_is in H'; subst; reflexivity. Qed.
Lemma nan_lt x y : nan x -> Bltb x y = false.
Proof. intros H. apply nan_is in H. subst. reflexivity. Qed.
Lemma lt_nan x y : nan y -> Bltb x y = false.
Proof. intros H. apply nan_is in H. subst. destruct x as [[]|[]| |[]]; reflexivity. Qed.
Lemma div_nan x y : nan y -> nan (fdiv x y).
Proof. intros H. apply nan_is in H. subst. destruct x as [[]|[]| |[]]; reflexivity. Qed.

(** Absorbing properties of numbers. *)
Record absorbing (bad : binary64 -> Prop) : Prop := {
  ab_add x y : bad x \/ bad y -> bad (fadd x y);
  ab_sub x y : bad x \/ bad y -> bad (fsub x y);
  ab_mul x y : bad x \/ bad y -> bad (fmul x y);
  ab_sqrt x : bad x -> bad (fsqrt x) }.
Lemma absorbing_nan : absorbing nan.
Proof.
  split; [| | |intros x H; apply nan_is in H; subst; reflexivity]; intros x y [H|H]; apply nan_is in H; subst;
    try reflexivity; destruct x as [[]|[]| |[]]; reflexivity.
Qed.
Lemma absorbing_not_finite : absorbing not_finite.
Proof.
  split; [| | |intros [| [] | |] H; try discriminate; reflexivity];
  intros x y [H|H]; destruct x as [[]|[]| |[]]; try discriminate; destruct y as [[]|[]| |[]]; try discriminate; reflexivity.
Qed.

Section Bad.
Context {lm : libm} (bad : binary64 -> Prop) (AB : absorbing bad).
Notation N := (F64 lm).
Notation bad3 := (some_component (lm:=lm) bad).
Lemma bad_add (u v : vec N) : bad3 u \/ bad3 v -> bad3 (vadd u v).
Proof. destruct AB as [A _ _ _]. intros [[H|[H|H]]|[H|[H|H]]]; [left|right; left|right; right|left|right; left|right; right]; apply A; auto. Qed.
Lemma bad_sub (u v : vec N) : bad3 u \/ bad3 v -> bad3 (vsub u v).
Proof. destruct AB as [_ A _ _]. intros [[H|[H|H]]|[H|[H|H]]]; [left|right; left|right; right|left|right; left|right; right]; apply A; auto. Qed.
Lemma bad_scale (s : N) (u : vec N) : bad3 u -> bad3 (vscale s u).
Proof. destruct AB as [_ _ A _]. intros [H|[H|H]]; [left|right; left|right; right]; apply A; auto. Qed.
Lemma bad_abs (u : vec N) : bad3 u -> bad (vabs (N:=N) u).
Proof.
  destruct AB as [A _ M S]. intros H. apply S. apply A. destruct H as [H|[H|H]]; [left; apply A; left|left; apply A; right|right]; apply M; auto.
Qed.
Lemma bad_speed (u v : vec N) : bad3 u \/ bad3 v -> bad (vabs (N:=N) (vsub u v)).
Proof. intros H. apply bad_abs, bad_sub, H. Qed.
Lemma bad_cm mu (u v : vec N) : bad3 u \/ bad3 v -> bad3 (VelCM mu u v).
Proof. intros [H|H]; apply bad_add; [left|right]; apply bad_scale, H. Qed.

Lemma spread inplace (m : imodel N) p1 p2 l g k a b l' k' : without_ops m ->
  bad3 (p_vel p1) \/ bad3 (p_vel p2) -> model_interact inplace m p1 p2 l g k = Ok (a, b, l', k') ->
  exists new, l' = l ++ new /\ List.Forall (fun p => bad3 (p_vel p)) new /\
    (bouncing m -> inplace = true -> new = [] /\ bad3 (p_vel a) /\ bad3 (p_vel b)) /\
    (bouncing m -> inplace = false -> length new = 2%nat) /\ (bouncing m \/ (2 <= length new)%nat).
Proof.
  intros Hm Hb H. destruct m as [mu|mu al|m|m| |f]; try contradiction; cbn [model_interact] in H.
  - destruct inplace.
    + unfold elastic_collide in H. injection H as <- <- <- <-. exists []. rewrite app_nil_r. split; [reflexivity|]. split; [constructor|].
      split; [intros _ _; split; [reflexivity|]; split; [apply bad_add|apply bad_sub]; left; apply bad_cm, Hb|]. split; [discriminate|left; exact I].
    + apply obind_ok in H as (l1 & E & H). injection H as <- <- <- <-. change (l ++ [p1] ++ [p2]) with (l ++ [p1; p2]) in E. rewrite (collide_last_two_app (N:=N)) in E. injection E as <-.
      eexists. split; [reflexivity|]. split; [constructor; [|constructor; [|constructor]]; [apply bad_add|apply bad_sub]; left; apply bad_cm, Hb|]. split; [discriminate|]. split; [reflexivity|left; exact I].
  - destruct inplace.
    + unfold vss_collide in H. injection H as <- <- <- <-. exists []. rewrite app_nil_r. split; [reflexivity|]. split; [constructor|].
      split; [intros _ _; split; [reflexivity|]; split; [apply bad_add|apply bad_sub]; left; apply bad_cm, Hb|]. split; [discriminate|left; exact I].
    + apply obind_ok in H as (l1 & E & H). injection H as <- <- <- <-. change (l ++ [p1] ++ [p2]) with (l ++ [p1; p2]) in E. rewrite (collide_last_two_app (N:=N)) in E. injection E as <-.
      eexists. split; [reflexivity|]. split; [constructor; [|constructor; [|constructor]]; [apply bad_add|apply bad_sub]; left; apply bad_cm, Hb|]. split; [discriminate|]. split; [reflexivity|left; exact I].
  - apply obind_ok in H as ([l1 k1] & E & H). injection H as <- <- <- <-. unfold interact22 in E. cbn [without_ops] in Hm. rewrite Hm in E.
    apply obind_ok in E as (f0 & _ & E). apply obind_ok in E as (f1 & _ & E). apply obind_ok in E as (e0 & _ & E). apply obind_ok in E as (e1 & _ & E).
    unfold vel22 in E. cbn [process obind] in E. injection E as <- <-. eexists. split; [reflexivity|].
    split; [constructor; [|constructor; [|constructor]]; [apply bad_add|apply bad_sub]; left; apply bad_cm, Hb|]. split; [intros []|]. split; [intros []|right; cbn; lia].
  - apply obind_ok in H as ([l1 k1] & E & H). injection H as <- <- <- <-. unfold interact23 in E. cbn [without_ops] in Hm. rewrite Hm in E.
    apply obind_ok in E as (f0 & _ & E). apply obind_ok in E as (f1 & _ & E). apply obind_ok in E as (f2 & _ & E). apply obind_ok in E as (e0 & _ & E). apply obind_ok in E as (e1 & _ & E). apply obind_ok in E as (e2 & _ & E).
    unfold vel23 in E. cbn [process obind] in E. injection E as <- <-. eexists. split; [reflexivity|].
    split; [constructor; [|constructor; [|constructor; [|constructor]]]; [apply bad_add|apply bad_add; left; apply bad_sub|apply bad_sub; left; apply bad_sub]; left; apply bad_cm, Hb|]. split; [intros []|]. split; [intros []|right; cbn; lia].
Qed.
End Bad.

Section Inert.
Context {lm : libm} (K : F64 lm).
Notation N := (F64 lm).
Notation nan3 := (some_component (lm:=lm) nan).

Lemma zn_lotz (v : N) ps : nan v -> forall t : N, zn t -> zn (fold_left (fun s p => nadd (n:=N) s (lotz_term v p)) ps t).
Proof.
  intros Hv. induction ps as [|p ps IH]; intros t Ht; cbn [fold_left]; [exact Ht|]. apply IH.
  left. apply (ab_add _ absorbing_nan). right. unfold lotz_term. cbv zeta. apply (ab_mul _ absorbing_nan). left.
  apply div_nan, (ab_mul _ absorbing_nan). right. apply (ab_mul _ absorbing_nan). left. apply (ab_mul _ absorbing_nan). left. exact Hv.
Qed.
Lemma quiet_data d (v s : N) : nan v -> data_sigma (N:=N) d v = Ok s -> zn s.
Proof.
  intros Hv H. unfold data_sigma in H. destruct (d_table d) as [|x t]; cbn [lower_bound] in H; [discriminate|].
  replace (nltb (n:=N) (fst x) v) with false in H by (symmetry; apply lt_nan, Hv). cbn [data_eval] in H.
  apply nan_is in Hv. subst v. replace (neqb (n:=N) (fst x) (B754_nan : binary64)) with false in H by (destruct (fst x) as [[]|[]| |[]]; reflexivity).
  injection H as <-. right. eexists. reflexivity.
Qed.
Lemma quiet_zn c : quiet (lm:=lm) c -> forall (v s : N), nan v -> sigma (N:=N) K c v = Ok s -> zn s.
Proof.
  induction c as [val e t|vr e t|A B e t|i mu e t|d|lo|c0 IH0 c1 IH1|d c0 _ c1 _|lb f mx e]; intros Hq v s Hv H; cbn [sigma] in H.
  - injection H as <-. apply nan_is in Hv. subst v. match goal with |- zn (if ?x then _ else _) => assert (E : x = false) by (destruct t as [[]|[]| |[]]; reflexivity); rewrite E end. right. eexists. reflexivity.
  - injection H as <-. match goal with |- zn (if ?x then _ else _) => assert (E : x = false) by exact (nan_lt v t Hv); rewrite E; clear E end. apply nan_is in Hv. subst v. left. cbn [ndiv F64]. destruct vr as [[]|[]| |[]]; reflexivity.
  - injection H as <-. match goal with |- zn (if ?x then _ else _) => assert (E : x = false) by exact (nan_lt v t Hv); rewrite E; clear E end. left. apply (ab_sub _ absorbing_nan). right. apply (ab_mul _ absorbing_nan). right. apply Hq, Hv.
  - injection H as <-. match goal with |- zn (if ?x then _ else _) => assert (E : x = false) by exact (nan_lt v t Hv); rewrite E; clear E end. left. unfold vhs_sigma. apply (ab_mul _ absorbing_nan). left. apply (ab_mul _ absorbing_nan). right.
    apply Hq. apply div_nan, (ab_add _ absorbing_nan). left. apply (ab_mul _ absorbing_nan). right. apply (ab_mul _ absorbing_nan). left. exact Hv.
  - apply (quiet_data d v s Hv H).
  - injection H as <-. unfold lotz_sigma. match goal with |- zn (if ?x then _ else _) => assert (E : x = false) by exact (nan_lt v (lo_thr lo) Hv); rewrite E; clear E end. apply zn_lotz; [exact Hv|]. right. eexists. reflexivity.
  - apply obind_ok in H as (s0 & E0 & H). apply obind_ok in H as (s1 & E1 & H). assert (Es : s = mean_sigma (N:=N) s0 s1) by congruence. rewrite Es. destruct Hq as [Q0 Q1].
    assert (Z : zn (fadd (fsqrt s0) (fsqrt s1))) by (apply zn_add; apply zn_sqrt; eauto).
    exact (zn_mul (nquarter (N:=N)) _ (zn_mul _ _ Z)).
  - apply (quiet_data d v s Hv H).
  - contradiction.
Qed.
Lemma total_zn cs : List.Forall (fun c : N => zn c) cs -> forall t : N, zn t -> zn (fold_left (fun s c => nadd (n:=N) s c) cs t).
Proof. induction 1 as [|c cs Hc _ IH]; intros t Ht; cbn [fold_left]; [exact Ht|]. apply IH, zn_add; assumption. Qed.
Lemma pick_zn cs (r : N) : List.Forall (fun c : N => zn c) cs -> zn r -> forall (t : N) j, zn t -> fst (pick (N:=N) cs r t j) = (-1)%Z.
Proof.
  intros H Hr. induction H as [|c cs Hc _ IH]; intros t j Ht; cbn [pick]; [reflexivity|].
  replace (nltb (n:=N) r (nadd (n:=N) t c)) with false by (symmetry; apply zn_lt; [exact Hr|apply zn_add; assumption]). apply IH, zn_add; assumption.
Qed.
Lemma inert inplace rhs max (pA pB : particle N) l g k path a b l' k' :
  List.Forall (fun e => quiet (lm:=lm) (q_cs e)) rhs -> nan3 (p_vel pA) \/ nan3 (p_vel pB) ->
  set_interact (N:=N) K inplace rhs max pA pB l g k = Ok (path, a, b, l', k') ->
  fst path = (-1)%Z /\ a = pA /\ b = pB /\ l' = l /\ k' = (k + 2)%nat.
Proof.
  intros Hq Hn H. unfold set_interact in H. cbv zeta in H. pose proof (bad_speed nan absorbing_nan (p_vel pA) (p_vel pB) Hn) as Hv.
  set (v := vabs (vsub (p_vel pA) (p_vel pB))) in *. clearbody v.
  apply obind_ok in H as ([p k1] & E & H). unfold calculateOutPath in E. apply obind_ok in E as (cs & Ec & E).
  assert (Z : List.Forall (fun c : N => zn c) cs).
  { unfold channel_cs in Ec. apply omap_forall2 in Ec. clear -Ec Hq Hv. induction Ec as [|e c rhs cs E _ IH]; [constructor|]. apply Forall_cons_iff in Hq as [Q Hq]. constructor; [apply (quiet_zn _ Q v c Hv E)|auto]. }
  replace (nltb (n:=N) (nmul (n:=N) (cs_total cs) v) (nmul (n:=N) (g_rand g k) max)) with false in E by (symmetry; apply nan_lt, (ab_mul _ absorbing_nan); right; exact Hv).
  injection E as <- <-. rewrite (pick_zn cs) in H; [|exact Z|apply zn_mul, total_zn; [exact Z|right; eexists; reflexivity]|right; eexists; reflexivity].
  cbn in H. injection H as <- <- <- <- <-. split; [|auto]. apply pick_zn; [exact Z|apply zn_mul, total_zn; [exact Z|right; eexists; reflexivity]|right; eexists; reflexivity].
Qed.
End Inert.

Section Run.
Context {lm : libm} (K : F64 lm) (inplace : bool) (db : nat -> nat -> list (equation (F64 lm))) (mem0 : list (particle (F64 lm))).
Notation N := (F64 lm).
Notation nan3 := (some_component (lm:=lm) nan).
Hypothesis HQ : forall A B, List.Forall (fun e => quiet (lm:=lm) (q_cs e)) (db A B).
Hypothesis HB : inplace = true -> forall A B, List.Forall (fun e => bouncing (lm:=lm) (q_model e)) (db A B).

Definition kept (s : dstate N) : Prop :=
  forall i p, nth_error mem0 i = Some p -> nan3 (p_vel p) -> nth_error (s_mem s) i = Some p /\ ~ collides_in (s_log s) i.

Lemma bouncing_same (m : imodel N) p1 p2 l g k a b l' k' : (inplace = true -> bouncing m) ->
  model_interact inplace m p1 p2 l g k = Ok (a, b, l', k') -> inplace = true /\ l' = l \/ inplace = false /\ a = p1 /\ b = p2.
Proof.
  intros Hb H. destruct inplace eqn:EI.
  - left. split; [reflexivity|]. specialize (Hb eq_refl). destruct m; try contradiction; cbn [model_interact] in H; [unfold elastic_collide in H|unfold vss_collide in H]; injection H as <- <- <- <-; reflexivity.
  - right. split; [reflexivity|]. destruct m; cbn [model_interact] in H; try discriminate.
    + apply obind_ok in H as (l1 & _ & H). injection H as <- <- _ _. auto.
    + apply obind_ok in H as (l1 & _ & H). injection H as <- <- _ _. auto.
    + apply obind_ok in H as ([l1 k1] & _ & H). injection H as <- <- _ _. auto.
    + apply obind_ok in H as ([l1 k1] & _ & H). injection H as <- <- _ _. auto.
    + apply obind_ok in H as ([[[a1 b1] l1] k1] & _ & H). injection H as <- <- _ _. auto.
Qed.
Lemma set_same A B max (pA pB : particle N) l g k path a b l' k' :
  set_interact (N:=N) K inplace (db A B) max pA pB l g k = Ok (path, a, b, l', k') ->
  inplace = true /\ l' = l \/ inplace = false /\ a = pA /\ b = pB.
Proof.
  intros H. unfold set_interact in H. cbv zeta in H. apply obind_ok in H as ([p k1] & E & H).
  destruct (0 <=? fst p)%Z.
  - apply obind_ok in H as (e & Ee & H).
    assert (Hb : inplace = true -> bouncing (q_model e)).
    { intros EI. apply oget_ok in Ee. apply nth_error_In in Ee. specialize (HB EI A B). rewrite Forall_forall in HB. exact (HB e Ee). }
    destruct (p_species pB <? p_species pA)%Z; apply obind_ok in H as ([[[u v] l1] k2] & Em & H); injection H as <- <- <- <- <-;
      destruct (bouncing_same _ _ _ _ _ _ _ _ _ _ Hb Em) as [[I1 I2]|(I1 & I2 & I3)]; auto.
  - injection H as <- <- <- <- <-. destruct inplace; auto.
Qed.
Lemma one_test_kept sfuel A B msv g s s' : kept s -> one_test K inplace sfuel (db A B) msv A B g s = Ok s' -> kept s'.
Proof.
  intros Hk H. unfold one_test in H.
  apply obind_ok in H as (ra & _ & H). apply obind_ok in H as (rb & _ & H). apply obind_ok in H as ([[i j] k] & _ & H).
  apply obind_ok in H as (pA & EA & H). apply oget_ok in EA. apply obind_ok in H as (pB & EB & H). apply oget_ok in EB.
  apply obind_ok in H as ([[[[path a] b] l] k'] & Ei & H). cbv zeta in H.
  assert (Hs : s' = mkState (upd j b (upd i a (s_mem s))) (s_ranges s) l (s_erase s) k' (s_log s ++ [(A, B, (i, j), fst path)])).
  { destruct (set_same _ _ _ _ _ _ _ _ _ _ _ _ _ Ei) as [[I1 I2]|(I1 & _)].
    - rewrite I2, Nat.leb_refl, orb_true_r in H. congruence.
    - rewrite I1 in H. cbn [negb orb] in H. congruence. }
  subst s'. clear H. intros i0 p E0 Hn. destruct (Hk i0 p E0 Hn) as [E1 C]. cbn [s_mem s_log].
  assert (D : i0 = i \/ i0 = j -> a = pA /\ b = pB /\ fst path = (-1)%Z).
  { intros D. assert (Hn' : nan3 (p_vel pA) \/ nan3 (p_vel pB)) by (destruct D as [-> | ->]; [left; assert (pA = p) by congruence|right; assert (pB = p) by congruence]; subst; exact Hn).
    destruct (inert K inplace (db A B) msv pA pB (s_res s) g k path a b l k' (HQ A B) Hn' Ei) as (P1 & P2 & P3 & _). auto. }
  split.
  - destruct (Nat.eq_dec i0 i) as [Q|Q]; [|destruct (Nat.eq_dec i0 j) as [Q'|Q']].
    + destruct (D (or_introl Q)) as (-> & -> & _). rewrite (upd_same i pA) by exact EA. rewrite (upd_same j pB) by exact EB. exact E1.
    + destruct (D (or_intror Q')) as (-> & -> & _). rewrite (upd_same i pA) by exact EA. rewrite (upd_same j pB) by exact EB. exact E1.
    + rewrite !upd_nth. destruct (Nat.eqb_spec j i0); [congruence|]. destruct (Nat.eqb_spec i i0); [congruence|]. exact E1.
  - intros (A' & B' & ij & pt & Hin & Hp & Hij). apply in_app_or in Hin as [Hin|[Hin|[]]]; [apply C; exists A', B', ij, pt; auto|].
    assert (E : ij = (i, j) /\ pt = fst path) by (split; congruence). destruct E as [-> ->]. cbn [fst snd] in Hij. destruct (D Hij) as (_ & _ & P). rewrite P in Hp. lia.
Qed.
Lemma loop_kept fuel sfuel A B msv g : forall x s s', test_loop K fuel inplace sfuel (db A B) msv A B x g s = Ok s' -> kept s -> kept s'.
Proof.
  induction fuel as [|fuel IH]; intros x s s' H Hk; cbn [test_loop] in H; [discriminate|].
  destruct (n1 <? x)%num; [|injection H as <-; exact Hk].
  apply obind_ok in H as (ra & _ & H). apply obind_ok in H as (rb & _ & H).
  destruct (_ || _)%bool in H; [injection H as <-; exact Hk|]. apply obind_ok in H as (s1 & E1 & H).
  apply IH in H; [exact H|]. exact (one_test_kept _ _ _ _ _ _ _ Hk E1).
Qed.
Lemma second_kept fuel g (l : list (ctdata N)) : forall s s', second_pass K fuel inplace db g l s = Ok s' -> kept s -> kept s'.
Proof.
  unfold second_pass. induction l as [|ct l IH]; intros s s' H Hk; cbn [ofold] in H; [injection H as <-; exact Hk|].
  apply obind_ok in H as (s1 & E1 & H). apply (IH s1 s' H). exact (loop_kept _ _ _ _ _ _ _ _ _ E1 Hk).
Qed.
End Run.
Lemma driver_kept {lm} (K : F64 lm) fuel inplace dt (c : cell (F64 lm)) nprops db res er g k s :
  (forall A B, List.Forall (fun e => quiet (lm:=lm) (q_cs e)) (db A B)) ->
  (inplace = true -> forall A B, List.Forall (fun e => bouncing (lm:=lm) (q_model e)) (db A B)) ->
  driver K fuel inplace dt c nprops db res er g k = Ok s ->
  forall i p, nth_error (c_mem c) i = Some p -> some_component nan (p_vel p) ->
  nth_error (s_mem s) i = Some p /\ ~ collides_in (s_log s) i.
Proof.
  intros HQ HB H. unfold driver in H. apply obind_ok in H as ([l k1] & _ & H).
  apply (second_kept K inplace db (c_mem c) HQ HB) in H; [exact H|]. intros i p E _. split; [exact E|]. intros (A & B & ij & pt & [] & _).
Qed.

(** A channel is chosen whatever the draws when the total cross section is an ordinary number. *)
Lemma always_chosen {lm} (K : F64 lm) rhs max v g k j c k' cs : frng_ok g ->
  (nan v \/ v = B754_infinity false) ->
  channel_cs K rhs v = Ok cs -> is_finite (cs_total cs) = true -> Bltb fmin_normal (cs_total cs) = true ->
  calculateOutPath (N:=F64 lm) K rhs max v g k = Ok (j, c, k') -> (0 <= j)%Z.
Proof.
  intros Hg Hv Hc Hf Hn H. apply (foutpath_total K rhs max v g k j c k' cs Hg Hc Hf Hn H).
  destruct Hv as [Hv|Hv]; [apply nan_lt, (ab_mul _ absorbing_nan); right; exact Hv|]. subst v.
  destruct (cs_total cs) as [ [] | [] | | [] m e He ]; try discriminate. cbn [fmul Bmult xorb].
  match goal with |- Bltb ?x ?y = false => destruct y as [ [] | [] | | [] ]; reflexivity end.
Qed.
Lemma speed_cases {lm} (u v : vec (F64 lm)) : some_component not_finite u \/ some_component not_finite v ->
  nan (vabs (N:=F64 lm) (vsub u v)) \/ vabs (N:=F64 lm) (vsub u v) = B754_infinity false.
Proof.
  intros H. assert (S : not_finite (vsqr (N:=F64 lm) (vsub u v))).
  { apply (bad_sub _ absorbing_not_finite) in H. destruct absorbing_not_finite as [A _ M _]. apply A.
    destruct H as [H|[H|H]]; [left; apply A; left|left; apply A; right|right]; apply M; auto. }
  unfold vabs. destruct (vsqr (N:=F64 lm) (vsub u v)) as [ [] | [] | | [] ]; try discriminate; [left|right|left]; reflexivity.
Qed.
Lemma collides {lm} (K : F64 lm) inplace rhs max (pA pB : particle (F64 lm)) l g k path a b l' k' cs : frng_ok g ->
  some_component not_finite (p_vel pA) \/ some_component not_finite (p_vel pB) ->
  List.Forall (fun e => without_ops (lm:=lm) (q_model e)) rhs ->
  channel_cs K rhs (vabs (N:=F64 lm) (vsub (p_vel pA) (p_vel pB))) = Ok cs ->
  is_finite (cs_total cs) = true -> Bltb fmin_normal (cs_total cs) = true ->
  set_interact (N:=F64 lm) K inplace rhs max pA pB l g k = Ok (path, a, b, l', k') ->
  (0 <= fst path)%Z /\ exists new, l' = l ++ new /\
    List.Forall (fun p => some_component not_finite (p_vel p)) new /\
    (new = [] -> some_component not_finite (p_vel a) /\ some_component not_finite (p_vel b)).
Proof.
  intros Hg Hb Ho Hc Hf Hn H. unfold set_interact in H. cbv zeta in H. apply obind_ok in H as ([[j cc] k1] & E & H).
  pose proof (always_chosen K rhs max _ g k j cc k1 cs Hg (speed_cases _ _ Hb) Hc Hf Hn E) as Hj. cbn [fst] in H.
  destruct (Z.leb_spec 0 j) as [_|]; [|lia]. apply obind_ok in H as (e & Ee & H).
  assert (Hm : without_ops (lm:=lm) (q_model e)) by (apply oget_ok in Ee; apply nth_error_In in Ee; rewrite Forall_forall in Ho; exact (Ho e Ee)).
  assert (Fin : forall p q u v l1 k2, some_component not_finite (p_vel p) \/ some_component not_finite (p_vel q) -> model_interact inplace (q_model e) p q l g k1 = Ok (u, v, l1, k2) ->
    exists new, l1 = l ++ new /\ List.Forall (fun p => some_component not_finite (p_vel p)) new /\ (new = [] -> some_component not_finite (p_vel u) /\ some_component not_finite (p_vel v))).
  { intros p q u v l1 k2 Hpq Em. destruct (spread not_finite absorbing_not_finite inplace _ p q l g k1 u v l1 k2 Hm Hpq Em) as (new & E1 & F & B1 & B2 & B3).
    exists new. split; [exact E1|]. split; [exact F|]. intros E0. subst new. destruct B3 as [B3|B3]; [|cbn in B3; lia]. destruct inplace; [destruct (B1 B3 eq_refl) as (_ & R); exact R|discriminate (B2 B3 eq_refl)]. }
  destruct (p_species pB <? p_species pA)%Z; apply obind_ok in H as ([[[u v] l1] k2] & Em & H); injection H as <- <- <- <- <-; (split; [exact Hj|]).
  - destruct (Fin pB pA u v l1 k2 ltac:(tauto) Em) as (new & E1 & F & B). exists new. split; [exact E1|]. split; [exact F|]. intros E0. destruct (B E0); auto.
  - exact (Fin pA pB u v l1 k2 Hb Em).
Qed.
