(** Proofs about property lists, options, the example's cell and automatic elastic
    cross sections. *)
From Coq Require Import String List ZArith Bool Arith Lia Reals Lra Psatz.
From Verif Require Import Base Num ModelTerm ModelCollide ModelXsec ModelSet ModelEq ModelFilter ModelDB ModelMisc
  SpecTerm SpecEq SpecFilter SpecDB SpecMisc ProofInelastic ProofOrder ProofDB ProofDB2 ProofDB3.
From Coq Require Import List.
Import ListNotations.

(** ** Property lists *)
Lemma concat_plain l m : l <> [] -> m <> [] ->
  pconcat_list (plain_list l) (plain_list m) = plain_list (l ++ m).
Proof.
  intros Hl Hm. induction l as [|n l IH]; [congruence|].
  destruct l as [|n' l]; [reflexivity|].
  cbn [plain_list pconcat_list app] in *. f_equal. apply IH. discriminate.
Qed.
(** An argument: a property or a plain list. *)
Definition arg (t : ptype) (l : list string) : Prop :=
  (exists n, t = PLeaf n /\ l = [n]) \/ (t = plain_list l /\ l <> []).
Lemma arg_ne t l : arg t l -> l <> [].
Proof. intros [(n & -> & ->)|(_ & H)]; [discriminate|exact H]. Qed.
Lemma concat_null t l : arg t l -> pconcat t PNull = plain_list l.
Proof.
  intros [(n & -> & ->)|(-> & H)]; [reflexivity|]. destruct l; [congruence|reflexivity].
Qed.
Lemma concat_arg t l m : arg t l -> m <> [] -> pconcat t (plain_list m) = plain_list (l ++ m).
Proof.
  intros [(n & -> & ->)|(-> & H)] Hm.
  - destruct m; [congruence|reflexivity].
  - destruct m as [|a m]; [congruence|]. rewrite <- concat_plain by (discriminate || exact H).
    destruct l; [congruence|reflexivity].
Qed.
Lemma nulls_all k : forallb is_null (repeat PNull k) = true.
Proof. induction k; [reflexivity|exact IHk]. Qed.
Lemma arg_not_null t l : arg t l -> is_null t = false.
Proof. intros [(n & -> & ->)|(-> & H)]; [reflexivity|]. destruct l; [congruence|reflexivity]. Qed.
Lemma aggregate_args ts k : forall t0 l0 ls, arg t0 l0 -> Forall2 arg ts ls ->
  aggregate t0 (ts ++ repeat PNull k) = plain_list (l0 ++ List.concat ls).
Proof.
  induction ts as [|t ts IH]; intros t0 l0 ls H0 H.
  - inversion H; subst; cbn [app List.concat]. rewrite app_nil_r.
    destruct k; cbn [repeat aggregate]; [|change (PNull :: repeat PNull k) with (repeat PNull (S k)); rewrite (nulls_all (S k))]; apply concat_null, H0.
  - inversion H as [|? l ? ls' Ht Hts]; subst. cbn [app aggregate List.concat].
    cbn [forallb]. rewrite (arg_not_null _ _ Ht). cbn [andb].
    rewrite (IH _ _ _ Ht Hts). apply concat_arg; [exact H0|].
    apply arg_ne in Ht. destruct l; [congruence|discriminate].
Qed.
Fixpoint aexpr_ind' (P : aexpr -> Prop) (HP : forall n, P (AProp n))
  (HA : forall f r k, P f -> List.Forall P r -> P (AAgg f r k)) (e : aexpr) : P e :=
  match e with
  | AProp n => HP n
  | AAgg f r k => HA f r k (aexpr_ind' P HP HA f)
      ((fix go l : List.Forall P l :=
         match l with [] => List.Forall_nil P | x :: l => List.Forall_cons x (aexpr_ind' P HP HA x) (go l) end) r)
  end.
Lemma denote_arg e : arg (denote e) (written e).
Proof.
  induction e as [n|f r k Hf Hr] using aexpr_ind'; [left; exists n; auto|].
  right. assert (H : Forall2 arg (map denote r) (map written r)).
  { induction Hr; cbn [map]; constructor; auto. }
  cbn [denote written]. rewrite (aggregate_args _ k _ _ _ Hf H), flat_map_concat_map. split; [reflexivity|].
  apply arg_ne in Hf. destruct (written f); [congruence|discriminate].
Qed.
Lemma aggregate_flat f r k : denote (AAgg f r k) = plain_list (written (AAgg f r k)).
Proof.
  pose proof (denote_arg f) as Hf.
  assert (H : Forall2 arg (map denote r) (map written r)).
  { induction r; cbn [map]; constructor; auto. apply denote_arg. }
  cbn [denote written]. rewrite (aggregate_args _ k _ _ _ Hf H), flat_map_concat_map. reflexivity.
Qed.
Lemma str_app_nil_r (s : string) : (s ++ "")%string = s.
Proof. induction s; cbn; congruence. Qed.
Lemma print_plain pr n l : list_print pr (plain_list (n :: l)) =
  Some (fold_right (fun a s => (pr a ++ s)%string) ""%string (n :: l)).
Proof.
  revert n. induction l as [|m l IH]; intros n.
  - cbn. rewrite str_app_nil_r. reflexivity.
  - specialize (IH m). cbn [plain_list list_print] in IH |- *. rewrite IH. reflexivity.
Qed.
Lemma load_plain {V} (ld : string -> outcome V) n l :
  list_load ld (plain_list (n :: l)) = Some (omap (fun a => do v <- ld a; Ok (a, v)) (n :: l)).
Proof.
  revert n. induction l as [|m l IH]; intros n.
  - cbn. destruct (ld n); reflexivity.
  - specialize (IH m). cbn [plain_list list_load] in IH |- *. rewrite IH. f_equal.
    cbn [omap]. destruct (ld n); reflexivity.
Qed.
Lemma written_ne e : written e <> [].
Proof. eapply arg_ne, denote_arg. Qed.
Lemma print_order pr f r k : list_print pr (denote (AAgg f r k)) =
  Some (fold_right (fun a s => (pr a ++ s)%string) ""%string (written (AAgg f r k))).
Proof.
  rewrite aggregate_flat. pose proof (written_ne (AAgg f r k)) as H.
  destruct (written (AAgg f r k)); [congruence|]. apply print_plain.
Qed.
Lemma load_order {V} (ld : string -> outcome V) f r k : list_load ld (denote (AAgg f r k)) =
  Some (omap (fun a => do v <- ld a; Ok (a, v)) (written (AAgg f r k))).
Proof.
  rewrite aggregate_flat. pose proof (written_ne (AAgg f r k)) as H.
  destruct (written (AAgg f r k)); [congruence|]. apply load_plain.
Qed.
(** A Null in the middle stays. *)
Lemma middle_null n m : exists t,
  aggregate (PLeaf n) [PNull; PLeaf m] = t /\ (forall l, t <> plain_list l) /\ (forall pr, list_print pr t = None).
Proof.
  eexists. split; [reflexivity|]. split; [|reflexivity].
  intros [|a [|b l]]; cbn; discriminate.
Qed.

(** ** Options *)
Lemma fold_field {A B C V} (get : options A B C -> V) (pick : modifier A B C -> option V)
  (H : forall o m, get (modify o m) = match pick m with Some v => v | None => get o end) ms o :
  in_force pick ms (get o) (get (fold_left modify ms o)).
Proof.
  induction ms as [|m ms IH] using rev_ind.
  - right. split; [intros x []|reflexivity].
  - rewrite fold_left_app. cbn [fold_left]. rewrite H. destruct (pick m) as [v|] eqn:E.
    + left. exists ms, m, []. repeat split; auto. intros x [].
    + destruct IH as [(m1 & x & m2 & -> & P1 & P2)|[P1 P2]].
      * left. exists m1, x, (m2 ++ [m]). split; [rewrite <- app_assoc; reflexivity|]. split; [exact P1|].
        intros y Hy. apply in_app_or in Hy as [Hy|[<-|[]]]; auto.
      * right. split; [|exact P2]. intros y Hy. apply in_app_or in Hy as [Hy|[<-|[]]]; auto.
Qed.
Lemma options_chain {A B C} (p : A) (q : B) (r : C) ms :
  let o := fold_left modify ms (default_options p q r) in
  in_force pickParticle ms p (o_Particle o) /\ in_force pickProperties ms q (o_Properties o) /\
  in_force pickInplace ms true (o_inplace o) /\ in_force pickAuto ms false (o_auto_elastic o) /\
  in_force pickRNG ms r (o_RNG o) /\ in_force pickExtra ms true (o_extrapolation o).
Proof.
  cbn zeta. set (o := default_options p q r).
  repeat split.
  - apply (fold_field o_Particle pickParticle) with (o := o). intros ? []; reflexivity.
  - apply (fold_field o_Properties pickProperties) with (o := o). intros ? []; reflexivity.
  - apply (fold_field o_inplace pickInplace) with (o := o). intros ? []; reflexivity.
  - apply (fold_field o_auto_elastic pickAuto) with (o := o). intros ? []; reflexivity.
  - apply (fold_field o_RNG pickRNG) with (o := o). intros ? []; reflexivity.
  - apply (fold_field o_extrapolation pickExtra) with (o := o). intros ? []; reflexivity.
Qed.

(** ** The example's cell *)
Section Cell.
Local Open Scope R_scope.
Notation V := (vec RNum).
Definition within (d : V * V) (v : V) : Prop :=
  vx (fst d) <= vx v <= vx (snd d) /\ vy (fst d) <= vy v <= vy (snd d) /\ vz (fst d) <= vz v <= vz (snd d).
Lemma nmin_le (a b : RNum) : @nmin RNum a b <= a /\ @nmin RNum a b <= b.
Proof. unfold nmin, nltb, RNum, Rltb. cbn. destruct (Rlt_dec b a); lra. Qed.
Lemma nmax_ge (a b : RNum) : a <= @nmax RNum a b /\ b <= @nmax RNum a b.
Proof. unfold nmax, nltb, RNum, Rltb. cbn. destruct (Rlt_dec a b); lra. Qed.
Lemma extrema_mono vs : forall d v, within d v ->
  within (fold_left (fun d v => (vmin2 (fst d) v, vmax2 (snd d) v)) vs d) v.
Proof.
  induction vs as [|w vs IH]; intros d v H; [exact H|]. cbn [fold_left]. apply IH.
  destruct H as (H1 & H2 & H3). unfold within. cbn [fst snd vmin2 vmax2 vx vy vz].
  pose proof (nmin_le (vx (fst d)) (vx w)). pose proof (nmin_le (vy (fst d)) (vy w)). pose proof (nmin_le (vz (fst d)) (vz w)).
  pose proof (nmax_ge (vx (snd d)) (vx w)). pose proof (nmax_ge (vy (snd d)) (vy w)). pose proof (nmax_ge (vz (snd d)) (vz w)).
  lra.
Qed.
Lemma extrema_in vs v : In v vs -> within (cell_extrema vs) v.
Proof.
  unfold cell_extrema. generalize (@vzero RNum, @vzero RNum) as d.
  induction vs as [|w vs IH]; intros d H; [destruct H|]. cbn [fold_left]. destruct H as [->|H]; [|apply IH, H].
  apply extrema_mono. unfold within. cbn [fst snd vmin2 vmax2 vx vy vz].
  pose proof (nmin_le (vx (fst d)) (vx v)). pose proof (nmin_le (vy (fst d)) (vy v)). pose proof (nmin_le (vz (fst d)) (vz v)).
  pose proof (nmax_ge (vx (snd d)) (vx v)). pose proof (nmax_ge (vy (snd d)) (vy v)). pose proof (nmax_ge (vz (snd d)) (vz v)).
  lra.
Qed.
Lemma sq_between x lo hi : lo <= x <= hi -> x * x <= lo * lo + hi * hi.
Proof. intros H. destruct (Rle_dec 0 x); nra. Qed.
Lemma cell_same vs u v : In u vs -> In v vs ->
  rel_speed u v <= maxRelativeVelocity (cell_extrema vs) (cell_extrema vs).
Proof.
  intros Hu Hv. apply extrema_in in Hu, Hv. destruct (cell_extrema vs) as [lo hi].
  destruct Hu as (U1 & U2 & U3), Hv as (V1 & V2 & V3). cbn [fst snd] in *.
  eapply Rle_trans; [|apply nmax_ge]. unfold rel_speed, vabs, vsub, vsqr, sqr. cbn [vx vy vz nsqrt nadd nsub nmul RNum fst snd].
  apply sqrt_le_1_alt. apply Rplus_le_compat; [apply Rplus_le_compat|]; nra.
Qed.
Lemma cell_other as_ bs a b : In a as_ -> In b bs ->
  rel_speed a b <= sqrt 2 * maxRelativeVelocity (cell_extrema as_) (cell_extrema bs).
Proof.
  intros Ha Hb. apply extrema_in in Ha, Hb.
  destruct (cell_extrema as_) as [la ha], (cell_extrema bs) as [lb hb].
  destruct Ha as (A1 & A2 & A3), Hb as (B1 & B2 & B3). cbn [fst snd] in *.
  unfold maxRelativeVelocity. cbn [fst snd].
  set (p := vabs (vsub ha lb)). set (q := vabs (vsub hb la)).
  pose proof (nmax_ge p q) as [M1 M2]. set (m := @nmax RNum p q) in *.
  assert (P0 : 0 <= p) by apply sqrt_pos. assert (Q0 : 0 <= q) by apply sqrt_pos.
  set (dx := fun (f : V -> R) => (f ha - f lb) * (f ha - f lb)).
  set (dy := fun (f : V -> R) => (f hb - f la) * (f hb - f la)).
  assert (P2 : p * p = dx vx + dx vy + dx vz).
  { unfold p, vabs. cbn [nsqrt RNum]. rewrite sqrt_sqrt; [reflexivity|].
    unfold vsqr, sqr, vsub. cbn [vx vy vz nadd nmul nsub RNum].
    apply Rplus_le_le_0_compat; [apply Rplus_le_le_0_compat|]; apply Rle_0_sqr. }
  assert (Q2 : q * q = dy vx + dy vy + dy vz).
  { unfold q, vabs. cbn [nsqrt RNum]. rewrite sqrt_sqrt; [reflexivity|].
    unfold vsqr, sqr, vsub. cbn [vx vy vz nadd nmul nsub RNum].
    apply Rplus_le_le_0_compat; [apply Rplus_le_le_0_compat|]; apply Rle_0_sqr. }
  assert (S : forall f : V -> R, f la <= f a <= f ha -> f lb <= f b <= f hb -> (f a - f b) * (f a - f b) <= dx f + dy f).
  { intros f F1 F2. pose proof (sq_between (f a - f b) (- (f hb - f la)) (f ha - f lb) ltac:(lra)) as H.
    unfold dx, dy. nra. }
  pose proof (S vx A1 B1). pose proof (S vy A2 B2). pose proof (S vz A3 B3).
  replace (sqrt 2 * m) with (sqrt (2 * (m * m))).
  - unfold rel_speed. apply sqrt_le_1_alt. assert (p * p <= m * m) by nra. assert (q * q <= m * m) by nra. lra.
  - rewrite sqrt_mult by nra. rewrite sqrt_square by lra. reflexivity.
Qed.
(** The factor is attained. *)
Definition va : V := V3 (N:=RNum) 1 (-1) 0.
Definition vb : V := V3 (N:=RNum) (-1) 1 0.
Lemma mm (a b : RNum) : @nmin RNum a b = Rmin a b /\ @nmax RNum a b = Rmax a b.
Proof.
  unfold nmin, nmax, nltb, RNum, Rltb. cbn. split; destruct (Rlt_dec _ _);
    [rewrite Rmin_right|rewrite Rmin_left|rewrite Rmax_right|rewrite Rmax_left]; lra.
Qed.
Ltac mmx := repeat match goal with
  | |- context[@nmin RNum ?a ?b] => rewrite (proj1 (mm a b)); first [rewrite (Rmin_left a b) by lra|rewrite (Rmin_right a b) by lra]
  | |- context[@nmax RNum ?a ?b] => rewrite (proj2 (mm a b)); first [rewrite (Rmax_left a b) by lra|rewrite (Rmax_right a b) by lra]
  end.
Lemma extrema_va : cell_extrema [va] = (V3 (N:=RNum) 0 (-1) 0, V3 (N:=RNum) 1 0 0).
Proof. unfold cell_extrema, vmin2, vmax2, va, vzero, n0. cbn [fold_left fst snd vx vy vz ofZ RNum]. mmx. reflexivity. Qed.
Lemma extrema_vb : cell_extrema [vb] = (V3 (N:=RNum) (-1) 0 0, V3 (N:=RNum) 0 1 0).
Proof. unfold cell_extrema, vmin2, vmax2, vb, vzero, n0. cbn [fold_left fst snd vx vy vz ofZ RNum]. mmx. reflexivity. Qed.
Lemma cell_refuted : exists as_ bs (a b : V), In a as_ /\ In b bs /\
  rel_speed a b = sqrt 2 * maxRelativeVelocity (cell_extrema as_) (cell_extrema bs) /\
  maxRelativeVelocity (cell_extrema as_) (cell_extrema bs) < rel_speed a b.
Proof.
  exists [va], [vb], va, vb. split; [left; reflexivity|]. split; [left; reflexivity|].
  rewrite extrema_va, extrema_vb. unfold maxRelativeVelocity. cbn [fst snd].
  assert (E1 : vabs (vsub (V3 (N:=RNum) 1 0 0) (V3 (N:=RNum) (-1) 0 0)) = 2).
  { unfold vabs, vsqr, sqr, vsub. cbn [vx vy vz nsqrt nadd nmul nsub RNum].
    replace (_ + _ + _) with (2 * 2) by ring. apply sqrt_square; lra. }
  assert (E2 : vabs (vsub (V3 (N:=RNum) 0 1 0) (V3 (N:=RNum) 0 (-1) 0)) = 2).
  { unfold vabs, vsqr, sqr, vsub. cbn [vx vy vz nsqrt nadd nmul nsub RNum].
    replace (_ + _ + _) with (2 * 2) by ring. apply sqrt_square; lra. }
  rewrite E1, E2. mmx.
  assert (E : rel_speed va vb = sqrt 2 * 2).
  { unfold rel_speed, va, vb. cbn [vx vy vz]. replace (_ + _ + _) with (2 * (2 * 2)) by ring.
    rewrite sqrt_mult by lra. rewrite sqrt_square by lra. reflexivity. }
  rewrite E. split; [reflexivity|].
  assert (1 < sqrt 2). { rewrite <- sqrt_1 at 1. apply sqrt_lt_1_alt. lra. } lra.
Qed.
End Cell.

(** ** Automatic elastic cross sections *)
Lemma auto_off {N : Num} (K_B : N) fuel allowed dvmax ddv reg d f (props : list (prop N)) :
  initBinaryOpt K_B fuel allowed false dvmax ddv reg d f props = initBinary reg d f props.
Proof. unfold initBinaryOpt. destruct (initBinary reg d f props); reflexivity. Qed.
Lemma auto_on {N : Num} (ok : N -> Prop) (K_B : N) fuel allowed dvmax ddv v dd reg d f (props r : list (prop N)) s' :
  mass_order ok -> masses_ok ok props -> unique_names props ->
  set_ok (x_inter d) -> plain_names props (x_inter d) -> speeds dvmax ddv n0 n0 v dd ->
  initBinaryOpt K_B fuel allowed true dvmax ddv reg d f props = Ok (r, s') ->
  exists s, initBinary reg d f props = Ok (r, s) /\
    (forall a b, a < length r -> b < length r ->
      (missing v dd s a b -> exists l q, cell_get s a b = Ok l /\ cell_get s' a b = Ok (l ++ [q]) /\
         made K_B fuel allowed v dd r s a b q /\ eq_isElastic q = true) /\
      (~ missing v dd s a b -> cell_get s' a b = cell_get s a b)).
Proof.
  intros Ho Hm Hu Hs Hp Hv H. unfold initBinaryOpt in H.
  apply obind_ok in H as ((r0 & s) & E & H). apply obind_ok in H as ((t & k) & E2 & H).
  cbn [fst snd] in *. injection H as -> ->. exists s. split; [exact E|].
  destruct (init_wf _ _ _ _ _ _ _ Ho Hm Hu Hs Hp E) as [C1 C2].
  destruct (create_spec _ _ _ _ _ _ _ _ _ _ _ _ _ _ _ C1 C2 Hv E2) as (P & _ & _).
  assert (Ha : forall a b, asked (-1) (-1) a b) by (intros a b; left; split; left; lia).
  intros a b La Lb. destruct (P a b La Lb) as [P1 P2]. split.
  - intros Mi. destruct (P1 (conj Mi (Ha a b))) as (l & q & Q1 & Q2 & Q3). exists l, q.
    split; [exact Q1|]. split; [exact Q2|]. split; [exact Q3|]. eapply made_elastic; [|exact Q3].
    intros ->. destruct Mi as (l0 & la & lb & qa & qb & M1 & M2 & M3 & M4 & M5 & _).
    rewrite M1 in M2. injection M2 as ->. destruct M5 as (x1 & x2 & -> & T1 & _).
    rewrite (M4 qa) in T1; [discriminate|]. apply in_or_app. right. left. reflexivity.
  - intros Mi. apply P2. tauto.
Qed.
