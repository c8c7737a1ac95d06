(** Lemmas on tabulated cross sections (C22-C25, C29). *)
From Coq Require Import Reals Lra Lia String List ZArith Bool.
From Verif Require Import Base Num ModelCollide ModelXsec SpecXsec ProofCollide ProofXsec.
From Coquelicot Require Import Coquelicot.
From Coq Require Import List.
Import ListNotations.
Local Open Scope R_scope.

Ltac rl := unR; lra.

Lemma lb_split (l r : table RNum) (v : R) :
  List.Forall (fun x => fst x < v) l -> (match r with [] => True | x :: _ => v <= fst x end) ->
  lower_bound (N:=RNum) (l ++ r) v = (l, r).
Proof.
  intros Hl Hr. induction Hl as [|x l Hx Hl IH]; cbn.
  - destruct r as [|y r]; [reflexivity|]. cbn; unR. destruct (Rltb_spec (fst y) v); [rl|reflexivity].
  - unR. destruct (Rltb_spec (fst x) v); [|rl]. rewrite IH. reflexivity.
Qed.

Lemma lb_ex (t : table RNum) (v : R) : exists l r, t = l ++ r /\ lower_bound (N:=RNum) t v = (l, r) /\
  List.Forall (fun x => fst x < v) l /\ (match r with [] => True | x :: _ => v <= fst x end).
Proof.
  induction t as [|x t IH]; [exists [], []; cbn; auto|].
  cbn. unR. destruct (Rltb_spec (fst x) v) as [Hx|Hx].
  - destruct IH as (l & r & -> & E & Hl & Hr). exists (x :: l), r. rewrite E. cbn. repeat split; auto.
  - exists [], (x :: t). repeat split; auto. rl.
Qed.

Lemma incr_cons x t : increasing (x :: t) -> increasing t /\ List.Forall (fun y => fst x < fst y) t.
Proof.
  revert x. induction t as [|y t IH]; intros x H; [split; [exact I|constructor]|].
  cbn in H. destruct H as [H1 H2]. split; [exact H2|]. constructor; [assumption|].
  destruct (IH y H2) as [_ H3]. eapply List.Forall_impl; [|exact H3]. cbn; intros; rl.
Qed.
Lemma incr_app l r : increasing (l ++ r) ->
  increasing l /\ increasing r /\ List.Forall (fun x => List.Forall (fun y => fst x < fst y) r) l.
Proof.
  induction l as [|x l IH]; intros H; [repeat split; [exact H|constructor]|].
  change ((x :: l) ++ r) with (x :: (l ++ r)) in H. destruct (incr_cons _ _ H) as [H1 H2].
  destruct (IH H1) as (A & B & C). apply List.Forall_app in H2 as [H2 H3].
  split; [|split; [assumption|constructor; assumption]].
  destruct l as [|y l]; [exact I|]. cbn. split; [|exact A]. inversion H2; assumption.
Qed.

Section D.
Variable d : data RNum.
Let t := d_table d.
Hypothesis Hinc : increasing t.

Lemma eval_mid l e f r v : t = l ++ e :: f :: r -> fst e < v <= fst f ->
  data_sigma (N:=RNum) d v = Ok (line e f v).
Proof.
  intros Ht Hv. unfold data_sigma. fold t. rewrite Ht in *.
  replace (l ++ e :: f :: r) with ((l ++ [e]) ++ f :: r) by (rewrite <- app_assoc; reflexivity).
  rewrite lb_split; [| |exact (proj2 Hv)].
  - unfold data_eval. destruct (l ++ [e]) eqn:El; [destruct l; discriminate|].
    rewrite <- El, rev_app_distr. cbn [rev app]. unR. unfold line. f_equal.
    assert (fst e < fst f) by rl. change (@eq (T RNum)) with (@eq R). field. rl.
  - destruct (incr_app _ _ Hinc) as (_ & _ & H). apply List.Forall_app. split; [|constructor; [rl|constructor]].
    eapply List.Forall_impl; [|exact H]. cbn. intros a Ha. inversion Ha; subst. rl.
Qed.

Lemma eval_first x r v : t = x :: r -> v = fst x -> data_sigma (N:=RNum) d v = Ok (snd x).
Proof.
  intros Ht ->. unfold data_sigma. fold t. rewrite Ht.
  change (x :: r) with ([] ++ x :: r). rewrite lb_split; [|constructor|cbn; rl].
  cbn. unR. destruct (Reqb_spec (fst x) (fst x)); [reflexivity|contradiction].
Qed.
Lemma eval_below x r v : t = x :: r -> v < fst x -> data_sigma (N:=RNum) d v = Ok 0.
Proof.
  intros Ht Hv. unfold data_sigma. fold t. rewrite Ht.
  change (x :: r) with ([] ++ x :: r). rewrite lb_split; [|constructor|cbn; rl].
  cbn. unR. destruct (Reqb_spec (fst x) v); [rl|reflexivity].
Qed.
Lemma eval_beyond l x v : t = l ++ [x] -> fst x < v ->
  data_sigma (N:=RNum) d v =
  if Reqb (snd x) 0 then Ok 0 else if Reqb (d_C d) 0 then Throw ExnRuntime
  else Ok (logE_f (N:=RNum) (v * v - d_v02 d) (d_C d) (d_a d) (d_b d)).
Proof.
  intros Ht Hv. unfold data_sigma. fold t. rewrite Ht in *.
  rewrite <- (app_nil_r (l ++ [x])). rewrite lb_split; [| |exact I].
  - unfold data_eval. destruct (l ++ [x]) eqn:El; [destruct l; discriminate|]. rewrite <- El, rev_app_distr. reflexivity.
  - destruct (incr_app _ _ Hinc) as (_ & _ & H). apply List.Forall_app. split; [|constructor; [rl|constructor]].
    eapply List.Forall_impl; [|exact H]. cbn. intros a Ha. inversion Ha; subst. rl.
Qed.

Lemma node_value v s : In (v, s) t -> data_sigma (N:=RNum) d v = Ok s.
Proof.
  intros Hin. apply in_split in Hin as (l & r & Ht).
  destruct l as [|x l] using rev_ind; [apply (eval_first (v, s) r); auto|].
  rewrite <- app_assoc in Ht. cbn in Ht. rewrite (eval_mid l x (v, s) r v Ht).
  - unfold line; cbn. f_equal.
    rewrite Ht in Hinc. destruct (incr_app _ _ Hinc) as (_ & H & _). cbn in H.
    change (@eq (T RNum)) with (@eq R). field. rl.
  - rewrite Ht in Hinc. destruct (incr_app _ _ Hinc) as (_ & H & _). cbn in H. cbn. rl.
Qed.

Lemma line_between e f v : fst e < fst f -> fst e <= v <= fst f ->
  Rmin (snd e) (snd f) <= line e f v <= Rmax (snd e) (snd f).
Proof.
  intros Hef Hv. unfold line.
  set (q := (v - fst e) / (fst f - fst e)).
  assert (Hq : 0 <= q <= 1).
  { unfold q. split; [apply Rdiv_le_0_compat; rl|]. apply Rmult_le_reg_r with (fst f - fst e); [rl|].
    unfold Rdiv. rewrite Rmult_assoc, Rinv_l by rl. rl. }
  replace ((snd f - snd e) * (v - fst e) / (fst f - fst e)) with ((snd f - snd e) * q) by (unfold q; field; rl).
  unfold Rmin, Rmax. destruct (Rle_dec (snd e) (snd f)); nra.
Qed.

Lemma eval_pair e f v : neighbours t e f -> fst e <= v <= fst f ->
  data_sigma (N:=RNum) d v = Ok (line e f v) /\ Rmin (snd e) (snd f) <= line e f v <= Rmax (snd e) (snd f).
Proof.
  intros (l & r & Ht) Hv.
  assert (Hef : fst e < fst f). { rewrite Ht in Hinc. destruct (incr_app _ _ Hinc) as (_ & H & _). cbn in H. rl. }
  split; [|apply line_between; assumption].
  destruct (Req_dec v (fst e)) as [->|Hn]; [|apply (eval_mid l e f r); [assumption|rl]].
  rewrite (node_value (fst e) (snd e)).
  - f_equal. unfold line. change (@eq (T RNum)) with (@eq R). field. rl.
  - rewrite Ht. apply in_app_iff. right; left. destruct e; reflexivity.
Qed.

(** Every speed not above the last entry is below the first, at it, or between two
    neighbours. *)
Lemma locate v : t <> [] ->
  (exists x r, t = x :: r /\ v < fst x) \/ (exists x r, t = x :: r /\ v = fst x) \/
  (exists e f, neighbours t e f /\ fst e < v <= fst f) \/ (exists l x, t = l ++ [x] /\ fst x < v).
Proof.
  intros Hne. destruct (lb_ex t v) as (l & r & Ht & _ & Hl & Hr).
  destruct r as [|f r].
  - right; right; right. rewrite app_nil_r in Ht.
    destruct l as [|x l _] using rev_ind; [contradiction|].
    exists l, x. split; [assumption|]. apply List.Forall_app in Hl as [_ Hl]. inversion Hl; assumption.
  - destruct l as [|e l _] using rev_ind.
    + destruct (Req_dec v (fst f)); [right; left|left]; exists f, r; (split; [assumption|rl]).
    + right; right; left. exists e, f. split; [exists l, r; rewrite <- app_assoc in Ht; assumption|].
      apply List.Forall_app in Hl as [_ Hl]. inversion Hl; subst. rl.
Qed.

Lemma sigma_nonneg : nonneg_values t -> t <> [] -> forall v l x, t = l ++ [x] -> v <= fst x ->
  exists s, data_sigma (N:=RNum) d v = Ok s /\ 0 <= s.
Proof.
  intros Hnn Hne v l x Hlast Hv.
  destruct (locate v Hne) as [(y & r & Ht & Hlt)|[(y & r & Ht & Heq)|[(e & f & Hn & Hb)|(l' & x' & Ht & Hgt)]]].
  - exists 0. split; [apply (eval_below y r); assumption|rl].
  - exists (snd y). split; [apply (eval_first y r); assumption|]. unfold nonneg_values in Hnn. rewrite Ht in Hnn. inversion Hnn; assumption.
  - exists (line e f v). destruct (eval_pair e f v Hn ltac:(rl)) as [E [H1 _]]. split; [assumption|].
    destruct Hn as (l0 & r0 & Ht). unfold nonneg_values in Hnn. rewrite Ht in Hnn.
    apply List.Forall_app in Hnn as [_ Hnn]. inversion Hnn as [|? ? A B]; subst. inversion B as [|? ? C _]; subst.
    pose proof (Rmin_glb _ _ 0 A C). rl.
  - rewrite Ht in Hlast. apply app_inj_tail in Hlast as [_ ->]. rl.
Qed.

(** ** C23 *)
Definition mstep (m : R * R) (i : R * R) : R * R := max_step (N:=RNum) m (fst i * snd i) (fst i).
Lemma mstep_fst m p v : fst (max_step (N:=RNum) m p v) = Rmax (fst m) p.
Proof.
  unfold max_step. unR. destruct (Rltb_spec (fst m) p); cbn; unfold Rmax; destruct (Rle_dec (fst m) p); rl.
Qed.
Lemma mfold_ge l : forall m, fst m <= fst (fold_left mstep l m) /\
  List.Forall (fun i => fst i * snd i <= fst (fold_left mstep l m)) l.
Proof.
  induction l as [|i l IH]; intros m; cbn; [split; [rl|constructor]|].
  destruct (IH (mstep m i)) as [H1 H2]. unfold mstep at 1 in H1. rewrite mstep_fst in H1.
  pose proof (Rmax_l (fst m) (fst i * snd i)). pose proof (Rmax_r (fst m) (fst i * snd i)).
  split; [rl|constructor; [rl|assumption]].
Qed.
Lemma mfold_in l : forall m, fold_left mstep l m = m \/
  exists i, In i l /\ fold_left mstep l m = (fst i * snd i, fst i).
Proof.
  induction l as [|i l IH]; intros m; cbn; [left; reflexivity|].
  destruct (IH (mstep m i)) as [E|(j & Hj & E)].
  - rewrite E. unfold mstep, max_step. unR. destruct (Rltb_spec (fst m) (fst i * snd i)); [right; exists i; auto|left; reflexivity].
  - right. exists j. auto.
Qed.

Lemma max_spec (V sV : R) : data_sigma (N:=RNum) d V = Ok sV -> 0 <= V ->
  exists M vm, data_max (N:=RNum) d V = Ok (M, vm) /\
    (forall v s, In (v, s) t -> v <= V -> v * s <= M) /\ V * sV <= M /\ 0 <= M /\
    ((M = 0 /\ vm = 0) \/ (vm <= V /\ exists s, data_sigma (N:=RNum) d vm = Ok s /\ vm * s = M)).
Proof.
  intros HV HV0. unfold data_max. unfold data_sigma in HV. fold t in HV |- *. rewrite HV. cbn [obind].
  destruct (lb_ex t V) as (l & r & Ht & E & Hl & Hr). rewrite E. cbn [fst].
  change (fold_left (fun m i => max_step m (nmul (fst i) (snd i)) (fst i)) l (n0, n0)) with (fold_left mstep l (0, 0)).
  set (m := fold_left mstep l (0, 0)). unR.
  destruct (max_step (N:=RNum) m (V * sV) V) as [M vm] eqn:Em.
  assert (HM : M = Rmax (fst m) (V * sV)) by (pose proof (mstep_fst m (V * sV) V) as Z; rewrite Em in Z; exact Z).
  destruct (mfold_ge l (0, 0)) as [G1 G2]. fold m in G1, G2. cbn in G1.
  pose proof (Rmax_l (fst m) (V * sV)) as Q1. pose proof (Rmax_r (fst m) (V * sV)) as Q2. rewrite <- HM in Q1, Q2.
  exists M, vm. split; [f_equal; exact Em|]. split; [|split; [assumption|split; [rl|]]].
  - intros v s Hin Hle. rewrite Ht in Hin. apply in_app_iff in Hin as [Hin|Hin].
    + rewrite List.Forall_forall in G2. specialize (G2 _ Hin). cbn in G2. rl.
    + (* v = V *)
      assert (v = V) as ->.
      { destruct r as [|x r]; [contradiction|]. destruct Hin as [->|Hin]; [cbn in Hr; rl|].
        rewrite Ht in Hinc. destruct (incr_app _ _ Hinc) as (_ & H & _).
        destruct (incr_cons _ _ H) as [_ H']. rewrite List.Forall_forall in H'. specialize (H' _ Hin). cbn in H'. rl. }
      assert (Hs : data_sigma (N:=RNum) d V = Ok s) by (apply node_value; rewrite Ht; apply in_app_iff; right; assumption).
      unfold data_sigma in Hs. fold t in Hs. rewrite HV in Hs. injection Hs as ->. assumption.
  - unfold max_step in Em. revert Em. unR. destruct (Rltb_spec (fst m) (V * sV)); intros Em.
    + injection Em as <- <-. right. split; [rl|]. exists sV. split; [|reflexivity]. unfold data_sigma. fold t. assumption.
    + destruct (mfold_in l (0, 0)) as [Ez|(i & Hi & Ei)].
      * fold m in Ez. rewrite Ez in Em. injection Em as <- <-. left; auto.
      * fold m in Ei. rewrite Ei in Em. injection Em as <- <-. right.
        rewrite List.Forall_forall in Hl. specialize (Hl _ Hi). split; [rl|].
        exists (snd i). split; [|reflexivity]. apply node_value. rewrite Ht. apply in_app_iff. left. destruct i; assumption.
Qed.

Definition sv_monotone_between (e f : R * R) (V : R) : Prop :=
  (forall u w, fst e <= u <= w -> w <= Rmin (fst f) V -> u * line e f u <= w * line e f w) \/
  (forall u w, fst e <= u <= w -> w <= Rmin (fst f) V -> w * line e f w <= u * line e f u).

Lemma max_bound (V : R) l x : t = l ++ [x] -> 0 < V <= fst x ->
  (forall e f, neighbours t e f -> fst e < V -> sv_monotone_between e f V) ->
  exists M vm, data_max (N:=RNum) d V = Ok (M, vm) /\
    forall v, 0 < v <= V -> exists s, data_sigma (N:=RNum) d v = Ok s /\ v * s <= M.
Proof.
  intros Hlast HV Hmono.
  assert (Hne : t <> []) by (rewrite Hlast; destruct l; discriminate).
  assert (Hdef : forall v, v <= fst x -> exists s, data_sigma (N:=RNum) d v = Ok s).
  { intros v Hv.
    destruct (locate v Hne) as [(y & r & Ht & Hlt)|[(y & r & Ht & Heq)|[(e & f & Hn & Hb)|(l' & x' & Ht & Hgt)]]].
    - eexists; apply (eval_below y r); assumption.
    - eexists; apply (eval_first y r); assumption.
    - eexists; apply (eval_pair e f v Hn); rl.
    - rewrite Ht in Hlast. apply app_inj_tail in Hlast as [_ ->]. rl. }
  destruct (Hdef V ltac:(rl)) as (sV & HsV).
  destruct (max_spec V sV HsV ltac:(rl)) as (M & vm & EM & Hnode & HVm & HM0 & _).
  exists M, vm. split; [assumption|]. intros v Hv.
  destruct (locate v Hne) as [(y & r & Ht & Hlt)|[(y & r & Ht & Heq)|[(e & f & Hn & Hb)|(l' & x' & Ht & Hgt)]]].
  - exists 0. split; [apply (eval_below y r); assumption|rl].
  - exists (snd y). split; [apply (eval_first y r); assumption|]. apply Hnode; [|rl].
    rewrite Ht, Heq. left. destruct y; reflexivity.
  - destruct (eval_pair e f v Hn ltac:(rl)) as [Ev _]. exists (line e f v). split; [assumption|].
    assert (Hin : In e t /\ In f t).
    { destruct Hn as (l0 & r0 & Ht). rewrite Ht. split; apply in_app_iff; right; [left|right; left]; reflexivity. }
    destruct Hin as [He Hf].
    assert (Hef : fst e < fst f) by rl.
    set (w := Rmin (fst f) V).
    assert (Hw : v <= w) by (apply Rmin_glb; rl).
    assert (Hwf : w <= fst f) by apply Rmin_l. assert (HwV : w <= V) by apply Rmin_r.
    destruct (Hmono e f Hn ltac:(rl)) as [Hup|Hdn].
    + specialize (Hup v w ltac:(rl) ltac:(apply Rle_refl)).
      apply Rle_trans with (w * line e f w); [assumption|].
      destruct (eval_pair e f w Hn ltac:(rl)) as [Ew _].
      destruct (Rle_lt_dec (fst f) V).
      * assert (w = fst f) as Hwe by (apply Rmin_left; assumption).
        rewrite (node_value w (snd f)) in Ew by (rewrite Hwe; destruct f; assumption).
        injection Ew as <-. rewrite Hwe. apply Hnode; [destruct f; assumption|assumption].
      * assert (w = V) as Hwe by (apply Rmin_right; rl). rewrite Hwe in *. rewrite HsV in Ew. injection Ew as <-. assumption.
    + specialize (Hdn (fst e) v ltac:(rl) Hw).
      apply Rle_trans with (fst e * line e f (fst e)); [assumption|].
      destruct (eval_pair e f (fst e) Hn ltac:(rl)) as [Ee _].
      rewrite (node_value (fst e) (snd e)) in Ee by (destruct e; assumption). injection Ee as <-.
      apply Hnode; [destruct e; assumption|rl].
  - rewrite Ht in Hlast. apply app_inj_tail in Hlast as [_ ->]. rl.
Qed.

(** Rising pieces satisfy the monotonicity hypothesis. *)
Lemma rising_monotone e f V : 0 <= fst e -> fst e < fst f -> 0 <= snd e <= snd f -> sv_monotone_between e f V.
Proof.
  intros H0 Hef Hs. left. intros u w Hu Hw. unfold line.
  set (k := (snd f - snd e) / (fst f - fst e)).
  assert (Hk : 0 <= k) by (apply Rdiv_le_0_compat; rl).
  assert (E : forall y, (snd f - snd e) * (y - fst e) / (fst f - fst e) = k * (y - fst e)) by (intros; unfold k; field; rl).
  rewrite !E. assert (k * (u - fst e) <= k * (w - fst e)) by (apply Rmult_le_compat_l; rl).
  assert (0 <= k * (u - fst e)) by (apply Rmult_le_pos; rl). apply Rmult_le_compat; rl.
Qed.
End D.

(** ** C24: leading zeros *)
Lemma check_two (x y : R * R) (t : table RNum) : checkThreshold (N:=RNum) (x :: y :: t) =
  if (Reqb (snd x) 0 && Reqb (snd y) 0)%bool then checkThreshold (N:=RNum) (y :: t) else Ok (x :: y :: t).
Proof. reflexivity. Qed.
Lemma check_spec (t : table RNum) :
  (t = [] -> checkThreshold (N:=RNum) t = Throw ExnRuntime) /\
  (t <> [] -> List.Forall (fun x => snd x = 0) t -> checkThreshold (N:=RNum) t = UB) /\
  (~ List.Forall (fun x => snd x = 0) t -> exists zs t',
     checkThreshold (N:=RNum) t = Ok t' /\ t = zs ++ t' /\ List.Forall (fun x => snd x = 0) zs /\
     (zs <> [] -> exists x r, t' = x :: r /\ snd x = 0) /\
     match t' with x :: y :: _ => ~ (snd x = 0 /\ snd y = 0) | [x] => snd x <> 0 | [] => False end).
Proof.
  split; [intros ->; reflexivity|]. split.
  - induction t as [|x [|y t] IH]; intros Hne Hz; [contradiction| |].
    + cbn. unR. inversion Hz as [|? ? H1 _]; subst. destruct (Reqb_spec (snd x) 0); [reflexivity|contradiction].
    + inversion Hz as [|? ? H1 H2]; subst. inversion H2 as [|? ? H3 H4]; subst.
      rewrite check_two; unR. destruct (Reqb_spec (snd x) 0); [|contradiction].
      destruct (Reqb_spec (snd y) 0); [|contradiction]. cbn [andb]. apply IH; [discriminate|assumption].
  - induction t as [|x [|y t] IH]; intros Hnz.
    + exfalso; apply Hnz; constructor.
    + exists [], [x]. cbn. unR. destruct (Reqb_spec (snd x) 0) as [e|n].
      * exfalso; apply Hnz; constructor; [assumption|constructor].
      * repeat split; auto; contradiction.
    + rewrite check_two; unR. destruct (Reqb_spec (snd x) 0) as [e|n].
      * destruct (Reqb_spec (snd y) 0) as [e'|n']; cbn [andb].
        -- destruct IH as (zs & t' & E & Ht & Hz & Hh & Hn); [intros H; apply Hnz; constructor; assumption|].
           exists (x :: zs), t'. split; [exact E|]. split; [cbn; rewrite Ht; reflexivity|].
           split; [constructor; assumption|]. split; [|assumption]. intros _.
           destruct zs as [|z zs]; [|apply Hh; discriminate]. cbn in Ht. exists y, t. rewrite Ht. split; [reflexivity|assumption].
        -- exists [], (x :: y :: t). repeat split; auto; try contradiction. intros [_ ?]; contradiction.
      * cbn [andb]. exists [], (x :: y :: t). repeat split; auto; try contradiction. intros [? _]; contradiction.
Qed.

Lemma trim_sigma (t' zs : table RNum) (C a b v02 C' a' b' v02' : R) (mu mu' : reducedMass RNum) :
  increasing (zs ++ t') -> List.Forall (fun x => snd x = 0) zs ->
  (zs <> [] -> exists x r, t' = x :: r /\ snd x = 0) -> t' <> [] ->
  forall v l x, t' = l ++ [x] -> v <= fst x ->
  data_sigma (N:=RNum) (mkData (zs ++ t') C a b v02 mu) v = data_sigma (N:=RNum) (mkData t' C' a' b' v02' mu') v.
Proof.
  intros Hinc Hz Hh Hne v l x Hlast Hv.
  set (d0 := mkData (zs ++ t') C a b v02 mu). set (d1 := mkData t' C' a' b' v02' mu').
  destruct (incr_app _ _ Hinc) as (Iz & It & Hc).
  assert (I0 : increasing (d_table d0)) by exact Hinc. assert (I1 : increasing (d_table d1)) by exact It.
  destruct (locate d1 v Hne) as [(y & r & Ht & Hlt)|[(y & r & Ht & Heq)|[(e & f & (l0 & r0 & Hn) & Hb)|(l' & x' & Ht & Hgt)]]];
    cbn [d_table] in *.
  - rewrite (eval_below d1 y r v Ht Hlt).
    destruct zs as [|z zs].
    + apply (eval_below d0 y r v); assumption.
    + destruct (Hh ltac:(discriminate)) as (y' & r' & Ht' & Hy0).
      unfold d1 in Ht; cbn in Ht. rewrite Ht in Ht'. injection Ht' as <- <-.
      assert (Hne0 : d_table d0 <> []) by discriminate.
      destruct (locate d0 v Hne0) as [(y1 & r1 & H1 & H1')|[(y1 & r1 & H1 & H1')|[(e & f & (l0 & r0 & Hn) & Hb)|(l' & x' & H1 & Hgt)]]];
        unfold d0 in *; cbn [d_table] in *.
      * apply (eval_below (mkData ((z :: zs) ++ t') C a b v02 mu) y1 r1); assumption.
      * rewrite (eval_first (mkData ((z :: zs) ++ t') C a b v02 mu) y1 r1) by assumption. cbn in H1. injection H1 as <- _. inversion Hz as [|? ? H2 _]; unR; rewrite H2; reflexivity.
      * destruct (eval_pair (mkData ((z :: zs) ++ t') C a b v02 mu) I0 e f v) as [E _]; [exists l0, r0; assumption|rl|].
        rewrite E. f_equal.
        (* both endpoints are zero *)
        assert (Hall : forall q, In q ((z :: zs) ++ t') -> fst q <= fst y -> snd q = 0).
        { intros q Hq Hle. apply in_app_iff in Hq as [Hq|Hq]; [rewrite List.Forall_forall in Hz; auto|].
          rewrite Ht in Hq. destruct Hq as [<-|Hq]; [assumption|].
          rewrite Ht in It. destruct (incr_cons _ _ It) as [_ H']. rewrite List.Forall_forall in H'. specialize (H' _ Hq). rl. }
        assert (Hf : fst f <= fst y).
        { (* f is the first entry >= v; y is an entry >= v *)
          assert (Hy : In y ((z :: zs) ++ t')) by (apply in_app_iff; right; rewrite Ht; left; reflexivity).
          rewrite Hn in Hy. apply in_app_iff in Hy.
          assert (Hx := I0). rewrite Hn in Hx. destruct (incr_app _ _ Hx) as (_ & H5 & H6).
          destruct Hy as [Hy|[<-|[<-|Hy]]].
          - rewrite List.Forall_forall in H6. specialize (H6 _ Hy). inversion H6; subst. rl.
          - rl.
          - rl.
          - destruct (incr_cons _ _ H5) as [H7 _]. destruct (incr_cons _ _ H7) as [_ H8].
            rewrite List.Forall_forall in H8. specialize (H8 _ Hy). rl. }
        unfold line. unR. rewrite (Hall e), (Hall f); [unfold Rdiv; ring| | | |rl].
        { rewrite Hn. apply in_app_iff. right; right; left; reflexivity. }
        { assumption. }
        { rewrite Hn. apply in_app_iff. right; left; reflexivity. }
      * exfalso. rewrite Hlast in H1. rewrite app_assoc in H1. apply app_inj_tail in H1 as [_ ->]. rl.
  - rewrite (eval_first d1 y r v) by assumption. apply (node_value d0); [assumption|].
    cbn [d_table]. apply in_app_iff. right. unfold d1 in Ht; cbn in Ht. rewrite Ht. left. rewrite Heq. destruct y; reflexivity.
  - unfold d1 in Hn; cbn in Hn.
    rewrite (eval_mid d1 I1 l0 e f r0 v Hn Hb). apply (eval_mid d0 I0 (zs ++ l0) e f r0); [|assumption].
    cbn [d_table d0]. rewrite Hn, app_assoc. reflexivity.
  - unfold d1 in Ht; cbn in Ht. rewrite Hlast in Ht. apply app_inj_tail in Ht as [_ <-]. rl.
Qed.

(** ** C25: extrapolation *)
Lemma e_bounds : 2 <= exp 1 <= 3.
Proof. pose proof exp_le_3. pose proof (exp_ineq1 1). rl. Qed.

Lemma refine_ok d2 x C a : forall fuel bi b err,
  100 < bi + INR fuel / 100 -> exp 1 <= bi -> exp 1 <= b ->
  exists b', refine_b (N:=RNum) (S fuel) d2 x C a bi b err = Ok b' /\ exp 1 <= b'.
Proof.
  induction fuel as [|fuel IH]; intros bi b err Hf Hbi Hb.
  - cbn in Hf. cbn [refine_b]. unR. destruct (Rleb_spec bi 100); [rl|]. exists b; auto.
  - rewrite S_INR in Hf. remember (S fuel) as k. cbn [refine_b]. subst k. unR.
    destruct (Rleb_spec bi 100); [|exists b; auto].
    assert (Hf' : 100 < bi + 1 / 100 + INR fuel / 100) by rl.
    change (@nquot RNum 1 100) with (1 / 100). destruct (Rltb _ _); apply IH; rl.
Qed.

(** ** Construction *)
Lemma incr_neq_nodup t v s s' : increasing t -> In (v, s) t -> In (v, s') t -> s = s'.
Proof.
  intros Hi. induction t as [|x t IH]; [contradiction|].
  destruct (incr_cons _ _ Hi) as [H1 H2]. rewrite List.Forall_forall in H2.
  intros [->|A] [B|B].
  - injection B as ->; reflexivity.
  - specialize (H2 _ B). cbn in H2. lra.
  - subst x. specialize (H2 _ A). cbn in H2. lra.
  - apply IH; assumption.
Qed.

Lemma tab_gives_sigma (d : data RNum) v s : increasing (d_table d) -> tab_gives (d_table d) v s -> data_sigma (N:=RNum) d v = Ok s.
Proof.
  intros Hi [H|[(e & f & Hn & Hv & ->)|(x & r & Ht & Hv & ->)]].
  - apply node_value; assumption.
  - destruct Hn as (l & r & Ht). apply (eval_mid d Hi l e f r); [exact Ht|rl].
  - apply (eval_below d x r); assumption.
Qed.

Lemma tab_gives_total (t : list (R * R)) : increasing t -> forall l x v, t = l ++ [x] -> v <= fst x -> exists s, tab_gives t v s.
Proof.
  intros Hi l x v Hl Hv.
  set (d := mkData (N:=RNum) t 0 0 0 0 (ReducedMass (N:=RNum) 1 1)).
  assert (Hne : d_table d <> []) by (cbn; rewrite Hl; destruct l; discriminate).
  destruct (locate d v Hne) as [(y & r & Ht & Hlt)|[(y & r & Ht & Heq)|[(e & f & Hn & Hb)|(l' & x' & Ht & Hgt)]]]; cbn [d_table d] in *.
  - exists 0. right; right. exists y, r. auto.
  - exists (snd y). left. rewrite Ht, Heq. left; destruct y; reflexivity.
  - destruct (Req_dec v (fst f)) as [Hf|Hf].
    + exists (snd f). left. destruct Hn as (a & b & ->). apply in_app_iff. right; right; left. rewrite Hf. destruct f; reflexivity.
    + exists (line e f v). right; left. exists e, f. split; [assumption|split; [rl|reflexivity]].
  - rewrite Ht in Hl. apply app_inj_tail in Hl as [_ ->]. rl.
Qed.

Lemma tab_gives_nonneg t v s : nonneg_values t -> increasing t -> tab_gives t v s -> 0 <= s.
Proof.
  unfold nonneg_values. rewrite List.Forall_forall. intros Hn Hi [H|[(e & f & (l & r & Ht) & Hv & ->)|(x & r & Ht & Hv & ->)]].
  - apply (Hn _ H).
  - pose proof (line_between e f v ltac:(lra) ltac:(lra)) as [H1 _].
    assert (A : 0 <= snd e) by (apply Hn; rewrite Ht; apply in_app_iff; right; left; reflexivity).
    assert (B : 0 <= snd f) by (apply Hn; rewrite Ht; apply in_app_iff; right; right; left; reflexivity).
    pose proof (Rmin_glb _ _ 0 A B). lra.
  - lra.
Qed.

Lemma setcoeffs_ok (fuel : nat) allowed (t : table RNum) : (9900 <= Z.of_nat fuel)%Z ->
  exists r, setCoeffs (N:=RNum) fuel allowed t = Ok r.
Proof.
  intros Hf. unfold setCoeffs. destruct allowed; cbn [negb]; [|eexists; reflexivity].
  destruct (rev t) as [|d2 [|d1 [|d0 r]]]; [eexists; reflexivity..|].
  destruct (neqb _ _); [eexists; reflexivity|]. unfold getCab_coeffs.
  destruct (nleb _ _); [eexists; reflexivity|].
  destruct fuel as [|fuel]; [lia|].
  match goal with |- context [refine_b (S fuel) ?d ?x ?C ?a ?bi ?b ?e] =>
    destruct (refine_ok d x C a fuel bi b e) as (b' & E & _) end.
  - change (@nM_E RNum) with (exp 1). pose proof e_bounds.
    assert (9899 <= INR fuel) by (rewrite INR_IZR_INZ; apply IZR_le; lia). rl.
  - change (@nM_E RNum) with (exp 1). rl.
  - pose proof e_bounds. rl.
  - rewrite E. eexists; reflexivity.
Qed.

Lemma init_spec (fuel : nat) allowed (t : table RNum) (mu : reducedMass RNum) : (9900 <= Z.of_nat fuel)%Z ->
  (t = [] -> data_init (N:=RNum) fuel allowed t mu = Throw ExnRuntime) /\
  (t <> [] -> List.Forall (fun x => snd x = 0) t -> data_init (N:=RNum) fuel allowed t mu = UB) /\
  (~ List.Forall (fun x => snd x = 0) t -> increasing t ->
   exists zs d, data_init (N:=RNum) fuel allowed t mu = Ok d /\ d_mu d = mu /\
     t = zs ++ d_table d /\ List.Forall (fun x => snd x = 0) zs /\
     (zs <> [] -> exists x r, d_table d = x :: r /\ snd x = 0) /\
     match d_table d with x :: y :: _ => ~ (snd x = 0 /\ snd y = 0) | [x] => snd x <> 0 | [] => False end /\
     (forall v s, tab_gives t v s -> data_sigma (N:=RNum) d v = Ok s)).
Proof.
  intros Hf. destruct (check_spec t) as (A & B & C). unfold data_init. split; [intros H; rewrite (A H); reflexivity|].
  split; [intros H1 H2; rewrite (B H1 H2); reflexivity|]. intros Hnz Hinc.
  destruct (C Hnz) as (zs & t' & E & Ht & Hz & Hh & Hm). rewrite E. cbn [obind].
  destruct (setcoeffs_ok fuel allowed t' Hf) as ([[[C0 a0] b0] v0] & Es). rewrite Es. cbn [obind].
  exists zs. eexists. split; [reflexivity|]. split; [reflexivity|]. cbn [d_table].
  split; [assumption|]. split; [assumption|]. split; [assumption|]. split; [assumption|].
  intros v s Hi. assert (Hne : t' <> []) by (intros ->; exact Hm).
  destruct (exists_last Hne) as (l & x & Hl).
  set (d0 := mkData (N:=RNum) t 0 0 0 0 mu).
  assert (E0 : data_sigma (N:=RNum) d0 v = Ok s) by (apply tab_gives_sigma; assumption).
  rewrite <- E0. symmetry. unfold d0. rewrite Ht.
  apply (trim_sigma t' zs) with (l := l) (x := x); try assumption; [rewrite <- Ht; assumption|].
  (* v is at most the last key *)
  assert (Hlast : t = (zs ++ l) ++ [x]) by (rewrite Ht, Hl, app_assoc; reflexivity).
  assert (Hle : forall q, In q t -> fst q <= fst x).
  { intros q Hq. rewrite Hlast in Hq, Hinc. destruct (incr_app _ _ Hinc) as (_ & _ & H).
    apply in_app_iff in Hq as [Hq|[<-|[]]]; [|apply Rle_refl].
    rewrite List.Forall_forall in H. specialize (H _ Hq). inversion H; subst. left; assumption. }
  destruct Hi as [H|[(e & f & (a & b & H) & Hv & _)|(y & r & H & Hv & _)]].
  - apply (Hle _ H).
  - assert (fst f <= fst x) by (apply Hle; rewrite H; apply in_app_iff; right; right; left; reflexivity). rl.
  - assert (fst y <= fst x) by (apply Hle; rewrite H; left; reflexivity). rl.
Qed.

(** ** C22: tables as loaded *)
Lemma insert_spec (e : R * R) (t : table RNum) : increasing t ->
  increasing (table_insert (N:=RNum) e t) /\
  forall x, In x (table_insert (N:=RNum) e t) <-> In x t \/ (x = e /\ List.Forall (fun y => fst y <> fst e) t).
Proof.
  induction t as [|y t IH]; intros Hi.
  - cbn. split; [exact I|]. intros x. split; [intros [<-|[]]; right; auto|intros [[]|[-> _]]; auto].
  - destruct (incr_cons _ _ Hi) as [H1 H2]. destruct (IH H1) as [I1 I2]. cbn [table_insert]. unR.
    destruct (Rltb_spec (fst e) (fst y)) as [L|L].
    + split; [cbn; split; [assumption|exact Hi]|]. intros x. cbn. split.
      * intros [<-|[<-|Hx]]; auto. right. split; [reflexivity|]. constructor; [lra|].
        eapply List.Forall_impl; [|exact H2]. cbn; intros; lra.
      * intros [[<-|Hx]|[-> _]]; auto.
    + destruct (Rltb_spec (fst y) (fst e)) as [L'|L'].
      * split.
        { destruct (table_insert (N:=RNum) e t) as [|z r] eqn:Ez; [exact I|]. cbn. split; [|exact I1].
          assert (Hz : In z (z :: r)) by (left; reflexivity). apply I2 in Hz as [Hz|[-> _]]; [|assumption].
          rewrite List.Forall_forall in H2. apply H2; assumption. }
        { intros x. cbn. rewrite I2. split.
          - intros [<-|[Hx|[-> Hx]]]; auto. right. split; [reflexivity|]. constructor; [lra|assumption].
          - intros [[<-|Hx]|[-> Hx]]; auto. inversion Hx; subst. auto. }
      * split; [exact Hi|]. intros x. split; [auto|]. intros [Hx|[-> Hx]]; [assumption|].
        inversion Hx; subst. exfalso. lra.
Qed.

Lemma load_spec (mu : reducedMass RNum) (rows : list (quantity RNum * R)) : 0 < rm_value mu ->
  increasing (loadCrossSectionData (N:=RNum) mu rows) /\
  forall v s, In (v, s) (loadCrossSectionData (N:=RNum) mu rows) <-> first_row mu rows v s.
Proof.
  intros Hmu. unfold loadCrossSectionData.
  set (step := fun t r => table_insert (N:=RNum) (match fst r with QVelocity v => v | QEnergy e => nsqrt (ndiv e (nmul nhalf (rm_value mu))) end, snd r) t).
  assert (Hs : forall r : quantity RNum * RNum, (match fst r with QVelocity v => v | QEnergy e => nsqrt (n:=RNum) (ndiv e (nmul nhalf (rm_value mu))) end) = row_speed mu (fst r)).
  { intros [[e|w] s]; cbn [fst row_speed]; [|reflexivity]. unR. f_equal. change (@eq (T RNum)) with (@eq R). field. lra. }
  induction rows as [|r rows IH] using rev_ind.
  - cbn. split; [exact I|]. intros v s. split; [intros []|]. intros (l & q & r & H & _). destruct l; discriminate.
  - rewrite fold_left_app. cbn [fold_left].
    set (t := fold_left step rows []) in *. destruct IH as [I1 I2].
    unfold step. rewrite Hs. destruct (insert_spec (row_speed mu (fst r), snd r) t I1) as [J1 J2].
    split; [exact J1|]. intros v s. specialize (J2 (v, s)). split.
    + intros H. apply J2 in H as [(l & q & r' & Hr & Hq & Hl)%I2|[E Hf]].
      * exists l, q, (r' ++ [r]). split; [rewrite Hr, <- app_assoc; reflexivity|auto].
      * injection E as -> ->. exists rows, (fst r), []. split; [destruct r; reflexivity|]. split; [reflexivity|].
        (* no earlier row has this speed: otherwise t has an entry with it *)
        clear J1 J2. rewrite List.Forall_forall in Hf |- *. intros x Hx Heq.
        (* first row with that speed *)
        assert (exists s', first_row mu rows (row_speed mu (fst r)) s') as (s' & Hs').
        { clear -Hx Heq. induction rows as [|y rows IH]; [contradiction|].
          destruct (Req_dec (row_speed mu (fst y)) (row_speed mu (fst r))) as [Hy|Hy].
          - exists (snd y), [], (fst y), rows. split; [destruct y; reflexivity|]. split; [assumption|constructor].
          - destruct Hx as [->|Hx]; [contradiction|]. destruct (IH Hx) as (s' & l & q & r' & A & B & C).
            exists s', (y :: l), q, r'. split; [cbn; rewrite A; reflexivity|]. split; [assumption|constructor; assumption]. }
        apply I2 in Hs'. apply (Hf _ Hs'). reflexivity.
    + intros (l & q & r' & Hr & Hq & Hl). destruct r' as [|z r' _] using rev_ind.
      * apply app_inj_tail in Hr as [-> ->]. apply J2. right. cbn [fst snd]. rewrite Hq. split; [reflexivity|].
        rewrite List.Forall_forall. intros [w s'] Hw. apply I2 in Hw as (l' & q' & r' & A & B & C). cbn.
        rewrite List.Forall_forall in Hl. intros ->. apply (Hl (q', s')); [rewrite A; apply in_app_iff; right; left; reflexivity|]. exact B.
      * rewrite app_comm_cons, app_assoc in Hr. apply app_inj_tail in Hr as [-> _].
        apply J2. left. apply I2. exists l, q, r'. auto.
Qed.

(** ** C25 *)
Lemma lnx_decr x y : exp 1 <= x -> x < y -> ln y / y < ln x / x.
Proof.
  intros Hx Hxy. pose proof (exp_pos 1).
  apply (decr_of_deriv (fun z => ln z / z) (fun z => (1 - ln z) / (z * z)) x y); [| |assumption].
  - intros z Hz. auto_derive; [lra|]. field. lra.
  - intros z Hz. assert (1 < ln z) by (rewrite <- (ln_exp 1); apply ln_increasing; lra).
    unfold Rdiv. assert (0 < / (z * z)) by (apply Rinv_0_lt_compat; nra). nra.
Qed.
Lemma ln_pos_e x : exp 1 <= x -> 1 <= ln x.
Proof.
  intros H. pose proof (exp_pos 1). rewrite <- (ln_exp 1) at 1. destruct H as [H|<-]; [left; apply ln_increasing; assumption|lra].
Qed.
Lemma ln30 : 1 < ln 30.
Proof. pose proof e_bounds. rewrite <- (ln_exp 1). apply ln_increasing; lra. Qed.

Lemma tail_shape C a b v02 v w : 0 < C -> 0 < a -> exp 1 <= b -> 0 <= v02 -> v02 < v * v -> v * v < w * w ->
  0 < logE_f (N:=RNum) (w * w - v02) C a b < logE_f (N:=RNum) (v * v - v02) C a b.
Proof.
  intros HC Ha Hb H0 Hv Hw. pose proof e_bounds. unfold logE_f. unR.
  set (s := a * (v * v - v02) + b). set (u := a * (w * w - v02) + b).
  assert (0 < a * (v * v - v02)) by (apply Rmult_lt_0_compat; lra).
  assert (Hs : exp 1 <= s) by (unfold s; lra).
  assert (Hsu : s < u) by (unfold s, u; nra).
  pose proof (lnx_decr s u Hs Hsu). pose proof (ln_pos_e u ltac:(lra)).
  assert (0 < ln u / u) by (apply Rdiv_lt_0_compat; lra).
  assert (0 < C * b) by (apply Rmult_lt_0_compat; lra).
  unfold Rdiv in *. rewrite !(Rmult_assoc (C * b)). split; [apply Rmult_lt_0_compat; lra|apply Rmult_lt_compat_l; lra].
Qed.

Lemma refine_ge (d2 x C a : R) : forall fuel bi b err b', exp 1 <= bi -> exp 1 <= b ->
  refine_b (N:=RNum) fuel d2 x C a bi b err = Ok b' -> exp 1 <= b'.
Proof.
  induction fuel as [|k IH]; intros bi b err b' A B Er; [discriminate|]. cbn [refine_b] in Er. unR.
  destruct (Rleb bi 100); [|injection Er as <-; assumption].
  change (@nquot RNum 1 100) with (1 / 100) in Er.
  destruct (Rltb _ _); apply IH in Er; assumption || lra.
Qed.

Lemma tail_spec (fuel : nat) allowed (t : table RNum) (mu : reducedMass RNum) d l x :
  data_init (N:=RNum) fuel allowed t mu = Ok d -> increasing t -> nonneg_values t ->
  List.Forall (fun y => 0 <= fst y) t -> d_table d = l ++ [x] ->
  (snd x = 0 -> forall v, fst x < v -> data_sigma (N:=RNum) d v = Ok 0) /\
  (snd x <> 0 -> allowed = true -> fittable (d_table d) ->
     forall v w, fst x < v -> v < w -> exists sv sw, data_sigma (N:=RNum) d v = Ok sv /\ data_sigma (N:=RNum) d w = Ok sw /\ 0 < sw < sv) /\
  (snd x <> 0 -> ~ (allowed = true /\ fittable (d_table d)) ->
     forall v, fst x < v -> data_sigma (N:=RNum) d v = Throw ExnRuntime).
Proof.
  intros Hd Hinc Hnn Hk Hl. unfold data_init in Hd.
  destruct (checkThreshold t) as [t'| | |] eqn:Ec; try discriminate. cbn [obind] in Hd.
  destruct (setCoeffs fuel allowed t') as [[[[C a] b] v02]| | |] eqn:Es; try discriminate. cbn [obind] in Hd.
  injection Hd as <-. cbn [d_table] in *.
  assert (Hsplit : exists zs, t = zs ++ t').
  { destruct (check_spec t) as (A & B & Q).
    destruct t as [|t0 t1]; [rewrite A in Ec by reflexivity; discriminate|].
    destruct (List.Forall_dec (fun y : R * R => snd y = 0) (fun y => Req_EM_T _ _) (t0 :: t1)) as [F|F].
    - rewrite B in Ec; [discriminate|discriminate|assumption].
    - destruct (Q F) as (zs & t2 & E & Ht & _). rewrite Ec in E. injection E as ->. exists zs; assumption. }
  destruct Hsplit as (zs & Hz). rewrite Hz in Hinc, Hnn, Hk.
  destruct (incr_app _ _ Hinc) as (_ & It & _). apply List.Forall_app in Hnn as [_ Hnn]. apply List.Forall_app in Hk as [_ Hk].
  set (d := mkData t' C a b v02 mu).
  assert (Hb : forall v, fst x < v -> data_sigma (N:=RNum) d v =
     if Reqb (snd x) 0 then Ok 0 else if Reqb C 0 then Throw ExnRuntime else Ok (logE_f (N:=RNum) (v * v - v02) C a b)).
  { intros v Hv. apply (eval_beyond d It l x v Hl Hv). }
  split; [|split].
  - intros Hx v Hv. rewrite Hb by assumption. destruct (Reqb_spec (snd x) 0); [reflexivity|contradiction].
  - intros Hx -> (l' & d0 & d1 & d2 & Ht & H2 & H1 & Hslope) v w Hv Hw.
    assert (x = d2) as ->.
    { rewrite Ht in Hl. replace (l' ++ [d0; d1; d2]) with ((l' ++ [d0; d1]) ++ [d2]) in Hl by (rewrite <- app_assoc; reflexivity).
      apply app_inj_tail in Hl as [_ ->]; reflexivity. }
    clear Hl. rewrite Ht in It, Hnn, Hk. destruct (incr_app _ _ It) as (_ & I3 & _). cbn in I3. destruct I3 as (K1 & K2 & _).
    apply List.Forall_app in Hk as [_ Hk]. inversion Hk as [|? ? P0 Hk1]; subst. inversion Hk1 as [|? ? P1 _]; subst.
    unfold setCoeffs in Es. cbn [negb] in Es. rewrite rev_app_distr in Es. cbn [rev app] in Es. unR.
    destruct (Reqb_spec (snd d2) 0); [contradiction|].
    unfold getCab_coeffs in Es. unfold sqr in Es. cbv zeta in Es. unR.
    match type of Es with context [Rleb 0 ?F] => set (Fp := F) in Es; assert (HFp : Fp < 0) end.
    { unfold mean_slope in Hslope. unfold Fp. cbn [pow] in Hslope. rewrite !Rmult_1_r in Hslope. lra. }
    destruct (Rleb_spec 0 Fp); [lra|].
    pose proof ln30 as L30.
    set (C0 := snd d1 / ln 30) in *. assert (HC0 : 0 < C0) by (apply Rdiv_lt_0_compat; lra).
    set (a0 := 30 * Fp / (C0 * (1 - ln 30))) in *.
    assert (Ha0 : 0 < a0).
    { unfold a0. replace (30 * Fp / (C0 * (1 - ln 30))) with (30 * (- Fp) / (C0 * (ln 30 - 1))) by (field; split; lra).
      apply Rdiv_lt_0_compat; [lra|apply Rmult_lt_0_compat; lra]. }
    destruct (refine_b _ _ _ _ _ _ _ _) as [b'| | |] eqn:Er; try discriminate. cbn [obind] in Es.
    assert (Hb' : exp 1 <= b').
    { apply refine_ge in Er; [assumption|change (@nM_E RNum) with (exp 1); lra|pose proof e_bounds; lra]. }
    injection Es as <- <- <- <-.
    rewrite !Hb by lra. destruct (Reqb_spec (snd d2) 0); [contradiction|]. destruct (Reqb_spec C0 0); [lra|].
    eexists; eexists; split; [reflexivity|split; [reflexivity|]].
    apply tail_shape; try assumption; nra.
  - intros Hx Hno v Hv. rewrite Hb by assumption. destruct (Reqb_spec (snd x) 0); [contradiction|].
    assert (HC : C = 0).
    { unfold setCoeffs in Es. destruct allowed; cbn [negb] in Es; [|injection Es as <- _ _ _; reflexivity].
      rewrite Hl, rev_app_distr in Es. cbn [rev app] in Es.
      destruct l as [|d1 l _] using rev_ind; [cbn in Es; injection Es as <- _ _ _; reflexivity|].
      rewrite rev_app_distr in Es. cbn [rev app] in Es.
      destruct l as [|d0 l _] using rev_ind; [cbn in Es; injection Es as <- _ _ _; reflexivity|].
      rewrite rev_app_distr in Es. cbn [rev app] in Es. unR.
      destruct (Reqb_spec (snd x) 0); [contradiction|].
      unfold getCab_coeffs in Es. unfold sqr in Es. cbv zeta in Es. unR.
      match type of Es with context [Rleb 0 ?F] => set (Fp := F) in Es; assert (HFp : Fp = mean_slope d0 d1 x) end.
      { unfold mean_slope, Fp. cbn [pow]. rewrite !Rmult_1_r. lra. }
      destruct (Rleb_spec 0 Fp) as [L|L]; [injection Es as <- _ _ _; reflexivity|].
      destruct (refine_b _ _ _ _ _ _ _ _) as [b'| | |] eqn:Er; try discriminate. cbn [obind] in Es. injection Es as <- _ _ _.
      assert (H1 : snd d1 = 0).
      { apply Rle_antisym; [apply Rnot_lt_le; intros Hp; apply Hno; split; [reflexivity|]|].
        - exists l, d0, d1, x. split; [rewrite Hl, <- !app_assoc; reflexivity|]. repeat split; [assumption..|]. lra.
        - rewrite Hl in Hnn. rewrite List.Forall_forall in Hnn. apply Hnn.
          apply in_app_iff. left. apply in_app_iff. right. left; reflexivity. }
      rewrite H1. unfold Rdiv. ring. }
    rewrite HC. destruct (Reqb_spec 0 0); [reflexivity|contradiction].
Qed.

(** ** C23: the reported maximum is not a bound between nodes *)
Lemma max_not_bound : exists (d : data RNum) (v V M vm s : R),
  increasing (d_table d) /\ nonneg_values (d_table d) /\ 0 < v < V /\
  (exists l x, d_table d = l ++ [x] /\ V <= fst x) /\
  data_max (N:=RNum) d V = Ok (M, vm) /\ data_sigma (N:=RNum) d v = Ok s /\ M < v * s.
Proof.
  set (d := mkData (N:=RNum) [(1, 8); (9, 0)] 0 0 0 0 (ReducedMass (N:=RNum) 1 1)).
  exists d, 5, 9. assert (Hi : increasing (d_table d)) by (cbn; lra).
  exists 8, 1, 4. split; [exact Hi|]. split; [repeat constructor; cbn; lra|]. split; [lra|].
  split; [exists [(1, 8)], (9, 0); split; [reflexivity|cbn; lra]|]. split; [|split; [|lra]].
  - unfold data_max. unfold d; cbn [d_table lower_bound fst snd]. unR.
    destruct (Rltb_spec 1 9); [|lra]. destruct (Rltb_spec 9 9); [lra|].
    cbn [data_eval rev app fst snd fold_left obind]. unfold max_step; cbn [fst snd]; unR.
    destruct (Rltb_spec 0 (1 * 8)); [|lra]. cbn [fst].
    match goal with |- context [Rltb (1 * 8) ?x] => replace x with 0 by field end.
    destruct (Rltb_spec (1 * 8) 0); [lra|]. do 2 f_equal. lra.
  - rewrite (eval_mid d Hi [] (1, 8) (9, 0) []); [|reflexivity|cbn; lra]. unfold line; cbn. f_equal. change (@eq (T RNum)) with (@eq R). field.
Qed.

(** ** C29 *)
Section Avg.
Variables (K : R) (c0 c1 : xsec RNum) (vmax dv : R).
Hypothesis Hdv : 0 < dv. Hypothesis Hvm : 0 < vmax.
Variables (s0 s1 : nat -> R).
Definition gtab (n : nat) : table RNum := map (fun k => (grid vmax dv k, mean_sigma (N:=RNum) (s0 k) (s1 k))) (rev (seq 0 n)).

Lemma gtab_S k : gtab (S k) = (grid vmax dv k, mean_sigma (N:=RNum) (s0 k) (s1 k)) :: gtab k.
Proof. unfold gtab. rewrite seq_S, rev_app_distr. reflexivity. Qed.
Lemma grid_decr j k : (j < k)%nat -> grid vmax dv k < grid vmax dv j.
Proof. intros H. apply lt_INR in H. unfold grid. nra. Qed.
Lemma gtab_in n x : In x (gtab n) <-> exists k, (k < n)%nat /\ x = (grid vmax dv k, mean_sigma (N:=RNum) (s0 k) (s1 k)).
Proof.
  unfold gtab. rewrite in_map_iff. split.
  - intros (k & <- & H). apply in_rev, in_seq in H. exists k. split; [lia|reflexivity].
  - intros (k & H & ->). exists k. split; [reflexivity|]. apply -> in_rev. apply in_seq. lia.
Qed.
Lemma gtab_incr n : increasing (gtab n).
Proof.
  induction n as [|n IH]; [exact I|]. rewrite gtab_S. destruct n as [|n]; [exact I|].
  rewrite gtab_S in *. split; [cbn [fst]; apply grid_decr; lia|exact IH].
Qed.
Lemma gtab_insert k : table_insert (N:=RNum) (grid vmax dv k, mean_sigma (N:=RNum) (s0 k) (s1 k)) (gtab k) = gtab (S k).
Proof.
  rewrite gtab_S. destruct k as [|k]; [reflexivity|]. rewrite gtab_S. cbn [table_insert]. unR. cbn [fst].
  destruct (Rltb_spec (grid vmax dv (S k)) (grid vmax dv k)) as [H|H]; [reflexivity|].
  exfalso; apply H, grid_decr; lia.
Qed.

Lemma avg_loop n : (forall k, (k < n)%nat <-> 0 < grid vmax dv k) ->
  (forall k, (k < n)%nat -> sigma_is K c0 (grid vmax dv k) (s0 k) /\ sigma_is K c1 (grid vmax dv k) (s1 k)) ->
  forall j k fuel, n = (k + j)%nat -> (j < fuel)%nat ->
  avg_table (N:=RNum) K fuel c0 c1 (grid vmax dv k) dv (gtab k) = Ok (gtab n).
Proof.
  intros Hn Hs. induction j as [|j IH]; intros k fuel Hk Hf; (destruct fuel as [|fuel]; [lia|]); cbn [avg_table]; unR.
  - destruct (Rltb_spec 0 (grid vmax dv k)) as [H|H]; [apply Hn in H; lia|]. do 2 f_equal. lia.
  - destruct (Rltb_spec 0 (grid vmax dv k)) as [H|H]; [|exfalso; apply H, Hn; lia].
    destruct (Hs k ltac:(lia)) as [A B]. unfold sigma_is in A, B. rewrite A, B. cbn [obind].
    rewrite gtab_insert.
    replace (grid vmax dv k - dv) with (grid vmax dv (S k)) by (unfold grid; rewrite S_INR; ring).
    apply IH; lia.
Qed.
End Avg.

Lemma grid_size vmax dv : 0 < vmax -> 0 < dv -> exists n, (0 < n)%nat /\ forall k, (k < n)%nat <-> 0 < grid vmax dv k.
Proof.
  intros Hv Hd. set (q := (vmax + dv / 2) / dv). assert (Hq : 0 < q) by (apply Rdiv_lt_0_compat; lra).
  exists (Z.to_nat (Flocq.Core.Raux.Zceil q)).
  assert (Hg : forall k, 0 < grid vmax dv k <-> INR k < q).
  { intros k. unfold grid, q. split; intros H.
    - apply Rmult_lt_reg_r with dv; [assumption|]. unfold Rdiv at 1. rewrite Rmult_assoc, Rinv_l by lra. lra.
    - apply (Rmult_lt_compat_r dv) in H; [|assumption]. unfold Rdiv at 1 in H. rewrite Rmult_assoc, Rinv_l in H by lra. lra. }
  assert (Hk : forall k, (k < Z.to_nat (Flocq.Core.Raux.Zceil q))%nat <-> INR k < q).
  { intros k. rewrite INR_IZR_INZ. split; intros H.
    - apply Rnot_le_lt. intros Hle. apply Flocq.Core.Raux.Zceil_glb in Hle. lia.
    - pose proof (Flocq.Core.Raux.Zceil_ub q). assert (IZR (Z.of_nat k) < IZR (Flocq.Core.Raux.Zceil q)) as Hl by lra. apply lt_IZR in Hl. lia. }
  split; [apply Hk; cbn; assumption|]. intros k. rewrite Hk. symmetry. apply Hg.
Qed.

Lemma mean_zero (a b : R) : 0 <= a -> 0 <= b -> (mean_sigma (N:=RNum) a b = 0 <-> a = 0 /\ b = 0).
Proof.
  intros Ha Hb. unfold mean_sigma, nquarter, sqr. unR.
  pose proof (sqrt_pos a). pose proof (sqrt_pos b). split.
  - intros E. assert (R_sqrt.sqrt a + R_sqrt.sqrt b = 0) by nra.
    split; apply sqrt_eq_0; lra.
  - intros [-> ->]. rewrite sqrt_0. lra.
Qed.

Lemma avg_diam_spec K allowed (c0 c1 : xsec RNum) (vmax dv : R) (mu : reducedMass RNum) : 0 < vmax -> 0 < dv ->
  exists n, (0 < n)%nat /\ (forall k, (k < n)%nat <-> 0 < grid vmax dv k) /\
  forall s0 s1 : nat -> R,
  (forall k, (k < n)%nat -> sigma_is K c0 (grid vmax dv k) (s0 k) /\ sigma_is K c1 (grid vmax dv k) (s1 k) /\ 0 <= s0 k /\ 0 <= s1 k) ->
  forall fuel, (9900 <= Z.of_nat fuel)%Z -> (n < fuel)%nat ->
  ((forall k, (k < n)%nat -> s0 k = 0 /\ s1 k = 0) -> avg_diameters (N:=RNum) K fuel allowed c0 c1 vmax dv mu = UB) /\
  ((exists k, (k < n)%nat /\ (0 < s0 k \/ 0 < s1 k)) -> exists zs d,
     avg_diameters (N:=RNum) K fuel allowed c0 c1 vmax dv mu = Ok (XAvgDiam d c0 c1) /\
     map fst (zs ++ d_table d) = map (grid vmax dv) (rev (seq 0 n)) /\ List.Forall (fun x => snd x = 0) zs /\
     (forall k, (k < n)%nat -> sigma_is K (XAvgDiam d c0 c1) (grid vmax dv k) (sphere ((diameter (s0 k) + diameter (s1 k)) / 2))) /\
     (forall v, v < grid vmax dv (n - 1) -> sigma_is K (XAvgDiam d c0 c1) v 0)).
Proof.
  intros Hv Hd. destruct (grid_size vmax dv Hv Hd) as (n & Hn0 & Hn). exists n. split; [assumption|]. split; [assumption|].
  intros s0 s1 Hs fuel Hf Hnf.
  assert (Hl : avg_table (N:=RNum) K fuel c0 c1 (grid vmax dv 0) dv (gtab vmax dv s0 s1 0) = Ok (gtab vmax dv s0 s1 n)).
  { apply (avg_loop K c0 c1 vmax dv Hd s0 s1 n) with (j := n); [assumption| |reflexivity|assumption].
    intros k Hk. destruct (Hs k Hk) as (A & B & _). auto. }
  change (gtab vmax dv s0 s1 0) with (@nil (RNum * RNum)) in Hl.
  replace (grid vmax dv 0) with (nadd (n:=RNum) vmax (nmul nhalf dv)) in Hl by (unfold grid; unR; cbn; lra).
  unfold avg_diameters. rewrite Hl. cbn [obind].
  destruct (init_spec fuel allowed (gtab vmax dv s0 s1 n) mu Hf) as (_ & HU & HO).
  split.
  - intros Hz. rewrite HU; [reflexivity| |].
    + destruct n; [lia|]. rewrite gtab_S. discriminate.
    + apply List.Forall_forall. intros x Hx. apply gtab_in in Hx as (k & Hk & ->). cbn [snd].
      destruct (Hz k Hk) as [-> ->]. apply mean_zero; auto; lra.
  - intros (k0 & Hk0 & Hp). destruct HO as (zs & d & E & _ & Ht & Hzs & _ & _ & Hi).
    + intros F. rewrite List.Forall_forall in F.
      specialize (F (grid vmax dv k0, mean_sigma (N:=RNum) (s0 k0) (s1 k0))). cbn [snd] in F.
      destruct (Hs k0 Hk0) as (_ & _ & P0 & P1).
      destruct (proj1 (mean_zero _ _ P0 P1) (F (proj2 (gtab_in _ _ _ _ _ _) (ex_intro _ k0 (conj Hk0 eq_refl))))). lra.
    + apply gtab_incr; assumption.
    + exists zs, d. rewrite E. cbn [obind]. split; [reflexivity|]. split; [rewrite <- Ht; unfold gtab; rewrite map_map; reflexivity|].
      split; [assumption|]. split.
      * intros k Hk. destruct (Hs k Hk) as (_ & _ & P0 & P1). unfold sigma_is. cbn [sigma].
        rewrite <- (proj1 (mean_facts (s0 k) (s1 k) P0 P1)).
        apply Hi. left. apply gtab_in. exists k. auto.
      * intros v Hlt. unfold sigma_is. cbn [sigma]. apply Hi. right; right.
        destruct n as [|m]; [lia|]. replace (S m - 1)%nat with m in Hlt by lia.
        rewrite gtab_S. eexists; eexists; split; [reflexivity|]. split; [assumption|reflexivity].
Qed.

(** ** Statements about loaded cross sections *)
Lemma first_row_ex mu rows : rows <> [] -> exists v s, first_row mu rows v s.
Proof.
  destruct rows as [|[q s] rows]; [contradiction|]. intros _. exists (row_speed mu q), s, [], q, rows. repeat split. constructor.
Qed.

Lemma data_load_spec : forall K fuel allowed inf ninf tol solve (mu : reducedMass RNum) (rows : list (quantity RNum * R)),
  0 < rm_value mu -> (9900 <= Z.of_nat fuel)%Z ->
  exists t, increasing t /\ (forall v s, In (v, s) t <-> first_row mu rows v s) /\
  let load := xs_load (N:=RNum) fuel allowed inf ninf tol solve mu (DData rows) in
  (rows = [] -> load = Throw ExnRuntime) /\
  (rows <> [] -> (forall v s, first_row mu rows v s -> s = 0) -> load = UB) /\
  ((exists v s, first_row mu rows v s /\ s <> 0) -> exists c, load = Ok c /\
     (forall v s, first_row mu rows v s -> sigma_is K c v s) /\
     (forall e f v, neighbours t e f -> fst e <= v <= fst f ->
        sigma_is K c v (line e f v) /\ Rmin (snd e) (snd f) <= line e f v <= Rmax (snd e) (snd f)) /\
     (forall v, (forall w s, first_row mu rows w s -> v < w) -> sigma_is K c v 0) /\
     (List.Forall (fun r => 0 <= snd r) rows -> forall v w s, first_row mu rows w s -> v <= w ->
        exists x, sigma_is K c v x /\ 0 <= x)).
Proof.
  intros K fuel allowed inf ninf tol solve mu rows Hmu Hf.
  destruct (load_spec mu rows Hmu) as [Hi Hin].
  set (t := loadCrossSectionData (N:=RNum) mu rows) in *. exists t. split; [assumption|]. split; [assumption|].
  intros load. unfold load, xs_load. fold t.
  destruct (init_spec fuel allowed t mu Hf) as (A & B & C).
  split; [|split].
  - intros H. rewrite A; [reflexivity|]. unfold t. rewrite H. reflexivity.
  - intros H Hz. rewrite B; [reflexivity| |].
    + destruct (first_row_ex mu rows H) as (v & s & Hs). apply Hin in Hs. intros Ht. rewrite Ht in Hs. contradiction.
    + apply List.Forall_forall. intros [v s] Hx. apply Hin in Hx. cbn. eapply Hz; eassumption.
  - intros (v0 & s0 & H0 & Hs0).
    destruct C as (zs & d & E & _ & _ & _ & _ & _ & Hg); [|assumption|].
    { intros F. rewrite List.Forall_forall in F. apply Hin in H0. apply F in H0. contradiction. }
    rewrite E. cbn [obind]. exists (XData d). split; [reflexivity|]. unfold sigma_is; cbn [sigma].
    split; [intros v s Hs; apply Hg; left; apply Hin; assumption|]. split; [|split].
    + intros e f v Hn Hv.
      assert (Hef : fst e < fst f).
      { destruct Hn as (l & r & Ht). rewrite Ht in Hi. destruct (incr_app _ _ Hi) as (_ & H & _). cbn in H. rl. }
      split; [|apply line_between; assumption]. apply Hg.
      destruct (Req_dec v (fst e)) as [->|N1]; [|destruct (Req_dec v (fst f)) as [->|N2]].
      * left. replace (line e f (fst e)) with (snd e) by (unfold line; field; lra).
        destruct Hn as (l & r & ->). apply in_app_iff. right; left. destruct e; reflexivity.
      * left. replace (line e f (fst f)) with (snd f) by (unfold line; field; lra).
        destruct Hn as (l & r & ->). apply in_app_iff. right; right; left. destruct f; reflexivity.
      * right; left. exists e, f. split; [assumption|split; [lra|reflexivity]].
    + intros v Hv. apply Hg. right; right. apply Hin in H0. destruct t as [|[w s] r]; [contradiction|].
      exists (w, s), r. split; [reflexivity|]. split; [|reflexivity]. apply (Hv w s). apply Hin. left; reflexivity.
    + intros Hnn v w s Hs Hle. apply Hin in Hs.
      assert (Hne : t <> []) by (intros Ht; rewrite Ht in Hs; contradiction).
      destruct (exists_last Hne) as (l & x & Hl).
      assert (Hvx : v <= fst x).
      { rewrite Hl in Hs, Hi. destruct (incr_app _ _ Hi) as (_ & _ & H). apply in_app_iff in Hs as [Hs|[->|[]]]; [|assumption].
        rewrite List.Forall_forall in H. specialize (H _ Hs). inversion H; subst. cbn in *. rl. }
      destruct (tab_gives_total t Hi l x v Hl Hvx) as (y & Hy). exists y. split; [apply Hg; assumption|].
      apply tab_gives_nonneg with t v; try assumption. apply List.Forall_forall. intros [a b] Hab. apply Hin in Hab as (l1 & q & r1 & Hr & _).
      rewrite List.Forall_forall in Hnn. apply (Hnn (q, b)). rewrite Hr. apply in_app_iff. right; left; reflexivity.
Qed.

Lemma data_max_spec : forall (K : R) (d : data RNum) (V : R) l x,
  increasing (d_table d) -> d_table d = l ++ [x] -> 0 < V <= fst x ->
  exists M vm, findMaxSigmaV (N:=RNum) K (XData d) V = Ok (M, vm) /\
    (forall v s, In (v, s) (d_table d) -> v <= V -> sigma_is K (XData d) v s /\ v * s <= M) /\
    (exists sV, sigma_is K (XData d) V sV /\ V * sV <= M) /\
    ((M = 0 /\ vm = 0) \/ (vm <= V /\ exists s, sigma_is K (XData d) vm s /\ vm * s = M)) /\
    ((forall e f, neighbours (d_table d) e f -> fst e < V -> sv_monotone_between e f V) -> sv_bound K (XData d) V M).
Proof.
  intros K d V l x Hi Hl HV. destruct (tab_gives_total _ Hi l x V Hl ltac:(rl)) as (sV & HsV).
  apply tab_gives_sigma in HsV; [|assumption].
  destruct (max_spec d Hi V sV HsV ltac:(rl)) as (M & vm & E & Hn & HM & _ & Ha).
  exists M, vm. unfold sigma_is, findMaxSigmaV; cbn [sigma]. split; [exact E|]. split; [|split; [|split]].
  - intros v s Hin Hle. split; [apply node_value; assumption|apply Hn; assumption].
  - exists sV. auto.
  - exact Ha.
  - intros Hm. destruct (max_bound d Hi V l x Hl HV Hm) as (M' & vm' & E' & Hb).
    rewrite E in E'. injection E' as <- <-. exact Hb.
Qed.
