(** The collision tests of a run as a function of the draws, and their averages. *)
From Coq Require Import Reals List ZArith Lra Lia Psatz Bool.
From Flocq Require Import Core.
From Coquelicot Require Import Coquelicot.
From Verif Require Import Base Num ModelTerm ModelCollide ModelXsec ModelSet SpecPhys SpecXsec SpecSet SpecRate ProofCollide ProofInelastic ProofSet ProofSelect ProofDriver2 ProofRate.
From Coq Require Import List.
Import ListNotations.
Local Open Scope R_scope.

(** ** Averages for every sufficient number of draws *)
Definition ev (B k : nat) (F : (nat -> R) -> R) (u : nat -> R) (a : R) : Prop := forall M, (B <= M)%nat -> later M k F u a.
Lemma ev_mono B B' k F u a : (B <= B')%nat -> ev B k F u a -> ev B' k F u a.
Proof. intros H1 H2 M HM. apply H2. lia. Qed.
Lemma ev_agree B k F u v a : agree k v u -> ev B k F u a -> ev B k F v a.
Proof. intros H1 H2 M HM. eapply later_agree; [exact H1|]. apply H2. assumption. Qed.
Lemma ev_const k F u a : (forall v, inner v -> agree k v u -> F v = a) -> ev 0 k F u a.
Proof. intros H M _. apply avg_const. assumption. Qed.
Lemma ev_skip d B k F u a : (forall v, inner v -> agree k v u -> ev B (k + d) F v a) -> ev (d + B) k F u a.
Proof. intros H M HM. replace M with (d + (M - d))%nat by lia. apply avg_skip. intros v Hv Ha. apply (H v Hv Ha). lia. Qed.
Lemma ev_two B k F u p a b (f : R -> R) : 0 <= p <= 1 -> (forall x, 0 < x < 1 -> ev B (S k) F (redraw u k x) (f x)) ->
  (forall x, 0 < x < 1 -> x < p -> f x = a) -> (forall x, 0 < x < 1 -> p < x -> f x = b) -> ev (S B) k F u (p * a + (1 - p) * b).
Proof. intros Hp H Ha Hb [|M] HM; [lia|]. apply avg_two with f; try assumption. intros x Hx. apply H; [assumption|lia]. Qed.
Lemma ev_pieces B k F u n (t c : nat -> R) : (forall i, (i < n)%nat -> t i <= t (S i)) -> t 0%nat = 0 -> t n = 1 ->
  (forall x i, 0 < x < 1 -> (i < n)%nat -> t i <= x < t (S i) -> ev B (S k) F (redraw u k x) (c i)) ->
  ev (S B) k F u (Rsum (map (fun i => (t (S i) - t i) * c i) (seq 0 n))).
Proof. intros H1 H2 H3 H [|M] HM; [lia|]. apply avg_pieces; try assumption. intros x i Hx Hi Hxi. apply (H x i Hx Hi Hxi). lia. Qed.
Lemma ev_uniform B k F u n (c : nat -> R) : (0 < n)%nat ->
  (forall x i, 0 < x < 1 -> (i < n)%nat -> INR i <= INR n * x < INR i + 1 -> ev B (S k) F (redraw u k x) (c i)) ->
  ev (S B) k F u (Rsum (map c (seq 0 n)) / INR n).
Proof. intros Hn H [|M] HM; [lia|]. apply avg_uniform; [assumption|]. intros x i Hx Hi Hxi. apply (H x i Hx Hi Hxi). lia. Qed.

(** ** Sums *)
Lemma Rsum_lin {T} (f g : T -> R) a b l : Rsum (map (fun x => a * f x + b * g x) l) = a * Rsum (map f l) + b * Rsum (map g l).
Proof. induction l as [|x l IH]; cbn [map Rsum]; [ring|]. rewrite IH. ring. Qed.
Lemma Rsum_const {T} a (l : list T) : Rsum (map (fun _ => a) l) = INR (length l) * a.
Proof. induction l as [|x l IH]; [cbn; ring|]. cbn [map Rsum length]. rewrite IH, S_INR. ring. Qed.
Lemma Rsum_scal {T} (f : T -> R) a l : Rsum (map (fun x => a * f x) l) = a * Rsum (map f l).
Proof. induction l as [|x l IH]; cbn [map Rsum]; [ring|]. rewrite IH. ring. Qed.
Lemma Rsum_ext {T} (f g : T -> R) l : (forall x, In x l -> f x = g x) -> Rsum (map f l) = Rsum (map g l).
Proof. intros H. f_equal. apply map_ext_in. assumption. Qed.
Lemma Rsum_le0 {T} (f : T -> R) l : (forall x, In x l -> 0 <= f x) -> 0 <= Rsum (map f l).
Proof. intros H. induction l as [|x l IH]; cbn [map Rsum]; [lra|]. pose proof (H x (or_introl eq_refl)). assert (0 <= Rsum (map f l)) by (apply IH; intros; apply H; right; assumption). lra. Qed.

(** ** One random position *)
Lemma rand_pos_at (r : range) u k i : (0 < Z.of_nat (rsize r) < 2 ^ 31)%Z -> 0 < u k < 1 -> (i < rsize r)%nat ->
  INR i <= INR (rsize r) * u k < INR i + 1 -> rand_pos r (drawn u) k = Ok (fst r + i)%nat.
Proof.
  intros Hs Hu Hi Hx. unfold rand_pos, to_int. rewrite u32_id by lia. unR. change (@ntrunc RNum) with Ztrunc. cbn [g_exc drawn].
  rewrite !INR_IZR_INZ in Hx. set (n := IZR (Z.of_nat (rsize r))) in *.
  assert (Hn : 0 < n) by (apply IZR_lt; lia). assert (Hn2 : n <= 2147483647) by (apply IZR_le; lia).
  assert (H0 : 0 <= n * u k) by (apply Rmult_le_pos; lra). assert (H1 : n * u k < n) by nra.
  destruct (Rltb_spec (-2147483649) (n * u k)); [|exfalso; lra]. destruct (Rltb_spec (n * u k) 2147483648); [|exfalso; lra].
  cbn [andb obind]. rewrite Ztrunc_floor by assumption. rewrite (Zfloor_imp (Z.of_nat i)); [f_equal; lia|]. rewrite plus_IZR. exact Hx.
Qed.
Lemma rand_pos_local (r : range) u v k : u k = v k -> rand_pos r (drawn u) k = rand_pos r (drawn v) k.
Proof. intros H. unfold rand_pos. cbn [g_exc drawn]. rewrite H. reflexivity. Qed.
Lemma pick_other_local f i (r : range) u v : forall k j k', pick_other f i r (drawn u) k = Ok (j, k') ->
  (k < k')%nat /\ (agree k' v u -> pick_other f i r (drawn v) k = Ok (j, k')).
Proof.
  induction f as [|f IH]; intros k j k' H; cbn [pick_other] in *; [discriminate|]. apply obind_ok in H as (b & Eb & H).
  destruct (Nat.eqb i b) eqn:E1.
  - apply IH in H as [L H]. split; [lia|]. intros Ha. rewrite (rand_pos_local r v u) by (apply Ha; lia). rewrite Eb. cbn [obind]. rewrite E1. auto.
  - injection H as <- <-. split; [lia|]. intros Ha. rewrite (rand_pos_local r v u) by (apply Ha; lia). rewrite Eb. cbn [obind]. rewrite E1. reflexivity.
Qed.

(** ** The outcome channel *)
Lemma pair_fst {T U V} (f : T -> V) (p : T * U) : (let (a, _) := p in Some (a, f a)) = Some (fst p, f (fst p)).
Proof. destruct p. reflexivity. Qed.
Section Path.
Context (K : R) (rhs : list (equation RNum)) (msv v : R) (cs : list R) (dd : nat -> nat) (D : nat).
Hypothesis Hc : channels K rhs v cs.
Hypothesis Hnn : List.Forall (fun x => 0 <= x) cs.
Hypothesis Hm : 0 <= msv.
Hypothesis Hv : 0 <= v.
Hypothesis HD : forall c, (c < length cs)%nat -> (dd c <= D)%nat.

Definition psim (u : nat -> R) (k : nat) : option (Z * nat) :=
  match calculateOutPath (N:=RNum) K rhs msv v (drawn u) k with
  | Ok (path, _, k2) => Some (path, (k2 + if (0 <=? path)%Z then dd (Z.to_nat path) else 0)%nat)
  | _ => None
  end.
Definition accept : R := if Rlt_dec 0 msv then Rmin 1 (Rsum cs * v / msv) else 1.
Definition pmean (val : Z -> R) : R :=
  if Rlt_dec 0 (Rsum cs) then accept * Rsum (map (fun c => (frac cs (S c) - frac cs c) * val (Z.of_nat c)) (seq 0 (length cs))) + (1 - accept) * val (-1)%Z
  else val (-1)%Z.

Lemma psim_eq u k : psim u k = if Rltb (Rsum cs * v) (u k * msv) then Some ((-1)%Z, (k + 1)%nat)
  else let path := fst (pick (N:=RNum) cs (u (k + 1)%nat * Rsum cs) 0 0%Z) in
       Some (path, (k + 2 + if (0 <=? path)%Z then dd (Z.to_nat path) else 0)%nat).
Proof.
  unfold psim. rewrite (outpath_ok _ _ _ _ _ _ _ Hc). cbn [g_rand g_exc drawn].
  destruct (Rltb (Rsum cs * v) (u k * msv)); [rewrite Nat.add_0_r; reflexivity|].
  exact (pair_fst (fun path => (k + 2 + if (0 <=? path)%Z then dd (Z.to_nat path) else 0)%nat) (pick (N:=RNum) cs (u (k + 1)%nat * Rsum cs) 0 0%Z)).
Qed.
Lemma psim_local u w k p k' : psim u k = Some (p, k') -> (k < k')%nat /\ (agree k' w u -> psim w k = Some (p, k')).
Proof.
  rewrite !psim_eq. destruct (Rltb (Rsum cs * v) (u k * msv)) eqn:E.
  - intros H. injection H as <- <-. split; [lia|]. intros Ha. rewrite (Ha k) by lia. rewrite E. reflexivity.
  - cbv zeta. intros H. injection H as <- <-. split; [lia|]. intros Ha. rewrite (Ha k), (Ha (k + 1)%nat) by lia. rewrite E. reflexivity.
Qed.
Lemma pick_none u : Rsum cs = 0 -> 0 < u -> fst (pick (N:=RNum) cs (u * Rsum cs) 0 0%Z) = (-1)%Z.
Proof. intros H Hu. destruct (pick_spec cs (u * Rsum cs) 0 0 Hnn) as [_ B]; [rewrite H; lra|]. assert (Q : 0 + Rsum cs <= u * Rsum cs) by (rewrite H; lra). exact (f_equal fst (B Q)). Qed.
Lemma pick_some u c : 0 < Rsum cs -> 0 < u < 1 -> (c < length cs)%nat -> frac cs c <= u < frac cs (S c) ->
  fst (pick (N:=RNum) cs (u * Rsum cs) 0 0%Z) = Z.of_nat c.
Proof.
  intros HS Hu Hcl Hf. pose proof (outpath_spec K rhs 0 v (mkRng (N:=RNum) (fun _ => u) (fun _ => u)) 0 cs Hc Hnn) as G.
  destruct G as (j & s & k' & E & _ & _ & _ & H2); [intros k; cbn; lra|]. cbn [g_rand g_exc] in H2.
  destruct H2 as [_ H2]; [assumption|rewrite Rmult_0_r; apply Rmult_le_pos; lra|]. rewrite (outpath_ok _ _ _ _ _ _ _ Hc) in E. cbn [g_rand g_exc] in E.
  rewrite Rmult_0_r in E. destruct (Rltb_spec (Rsum cs * v) 0) as [L|L]; [exfalso; assert (0 <= Rsum cs * v) by (apply Rmult_le_pos; lra); lra|].
  injection E as E _. exact (eq_trans (f_equal fst E) (proj2 (H2 c Hcl) Hf)).
Qed.

Lemma accept_01 : 0 <= accept <= 1.
Proof.
  unfold accept. pose proof (Rsum_nonneg _ Hnn). destruct (Rlt_dec 0 msv) as [L|L]; [|lra]. split; [|apply Rmin_l].
  apply Rmin_glb; [lra|]. apply Rmult_le_pos; [apply Rmult_le_pos; assumption|]. left. apply Rinv_0_lt_compat. assumption.
Qed.
Lemma accept_lo x : 0 < x < 1 -> x < accept -> Rltb (Rsum cs * v) (x * msv) = false.
Proof.
  intros Hx H. unfold accept in H. pose proof (Rsum_nonneg _ Hnn). assert (0 <= Rsum cs * v) by (apply Rmult_le_pos; assumption).
  destruct (Rltb_spec (Rsum cs * v) (x * msv)) as [L|L]; [|reflexivity]. exfalso.
  destruct (Rlt_dec 0 msv) as [P|P].
  - assert (x < Rsum cs * v / msv) by (eapply Rlt_le_trans; [exact H|apply Rmin_r]).
    apply Rmult_lt_compat_r with (r := msv) in H2; [|assumption]. unfold Rdiv in H2. rewrite Rmult_assoc, Rinv_l in H2 by lra. lra.
  - replace msv with 0 in L by lra. lra.
Qed.
Lemma accept_hi x : 0 < x < 1 -> accept < x -> Rltb (Rsum cs * v) (x * msv) = true.
Proof.
  intros Hx H. unfold accept in H. destruct (Rltb_spec (Rsum cs * v) (x * msv)) as [L|L]; [reflexivity|]. exfalso.
  destruct (Rlt_dec 0 msv) as [P|P]; [|lra]. unfold Rmin in H. destruct (Rle_dec 1 (Rsum cs * v / msv)) as [Q|Q]; [lra|].
  apply Rmult_lt_compat_r with (r := msv) in H; [|assumption]. unfold Rdiv in H. rewrite Rmult_assoc, Rinv_l in H by lra. lra.
Qed.

Lemma path_ev B F k u val : inner u ->
  (forall w p k', inner w -> agree k w u -> psim w k = Some (p, k') -> ev B k' F w (val p)) ->
  ev (2 + D + B) k F u (pmean val).
Proof.
  intros Hu H. unfold pmean.
  assert (Hno : forall x, 0 < x < 1 -> Rltb (Rsum cs * v) (x * msv) = true -> ev (1 + D + B) (S k) F (redraw u k x) (val (-1)%Z)).
  { intros x Hx E. apply (ev_mono B); [lia|]. apply (H (redraw u k x) (-1)%Z (S k)); [apply redraw_inner; assumption|apply redraw_agree|].
    rewrite psim_eq, redraw_at, E. f_equal. f_equal. lia. }
  destruct (Rlt_dec 0 (Rsum cs)) as [HS|HS].
  - destruct (frac_facts cs Hnn HS) as (F0 & F1 & F2 & F3).
    set (mean := Rsum _).
    apply ev_two with (f := fun x => if Rltb (Rsum cs * v) (x * msv) then val (-1)%Z else mean).
    + exact accept_01.
    + intros x Hx. destruct (Rltb (Rsum cs * v) (x * msv)) eqn:E; [apply Hno; assumption|].
      unfold mean. apply ev_pieces with (t := frac cs) (c := fun c => val (Z.of_nat c)).
      * intros i Hi. destruct (nth_error cs i) as [c|] eqn:En; [|apply nth_error_None in En; lia]. pose proof (F2 i c En) as Q.
        assert (0 <= c) by (rewrite List.Forall_forall in Hnn; apply Hnn; eapply nth_error_In; eassumption).
        assert (0 <= c / Rsum cs) by (apply Rmult_le_pos; [assumption|left; apply Rinv_0_lt_compat; assumption]). lra.
      * assumption.
      * assumption.
      * intros y c Hy Hcl Hf. apply (ev_mono (dd c + B)); [pose proof (HD c Hcl); change (dd c + B <= D + B)%nat; lia|]. apply ev_skip. intros w Hw Ha.
        apply agree_S in Ha as [Ha Hwy]. pose proof (agree_S _ _ _ _ Ha) as [Ha2 Hwx].
        apply H; [assumption|assumption|]. rewrite psim_eq, Hwx, E. replace (k + 1)%nat with (S k) by lia. rewrite Hwy. cbv zeta.
        rewrite (pick_some y c) by assumption. destruct (Z.leb_spec 0 (Z.of_nat c)); [|lia]. rewrite Nat2Z.id. f_equal. f_equal. lia.
    + intros x Hx L. rewrite accept_lo by assumption. reflexivity.
    + intros x Hx L. rewrite accept_hi by assumption. reflexivity.
  - pose proof (Rsum_nonneg _ Hnn). assert (S0 : Rsum cs = 0) by lra.
    replace (val (-1)%Z) with (1 * val (-1)%Z + (1 - 1) * 0) by ring. apply ev_two with (f := fun _ => val (-1)%Z).
    + lra.
    + intros x Hx. destruct (Rltb (Rsum cs * v) (x * msv)) eqn:E; [apply Hno; assumption|].
      apply (ev_mono (1 + B)); [change (1 + B <= 1 + D + B)%nat; lia|]. apply ev_skip. intros w Hw Ha. pose proof (agree_S _ _ _ _ Ha) as [Ha2 Hwx].
      apply H; [assumption|assumption|]. rewrite psim_eq, Hwx, E. cbv zeta. rewrite pick_none by (assumption || apply Hw). change (0 <=? -1)%Z with false. cbv iota.
      f_equal. f_equal. lia.
    + reflexivity.
    + intros x Hx L. lra.
Qed.

Lemma frac_total : 0 < Rsum cs -> Rsum (map (fun c => frac cs (S c) - frac cs c) (seq 0 (length cs))) = 1.
Proof.
  intros HS. destruct (frac_facts cs Hnn HS) as (F0 & F1 & _).
  assert (G : forall n, Rsum (map (fun c => frac cs (S c) - frac cs c) (seq 0 n)) = frac cs n - frac cs 0).
  { induction n as [|n IH]; [cbn; ring|]. rewrite seq_S, map_app, Rsum_app, IH. cbn [map Rsum]. rewrite Nat.add_0_l. ring. }
  rewrite G. lra.
Qed.
Lemma pmean_lin a b val : pmean (fun c => a * val c + b) = a * pmean val + b.
Proof.
  unfold pmean. destruct (Rlt_dec 0 (Rsum cs)) as [HS|HS]; [|ring].
  replace (Rsum (map (fun c => (frac cs (S c) - frac cs c) * (a * val (Z.of_nat c) + b)) (seq 0 (length cs))))
    with (a * Rsum (map (fun c => (frac cs (S c) - frac cs c) * val (Z.of_nat c)) (seq 0 (length cs))) + b * 1); [ring|].
  rewrite <- (frac_total HS). rewrite <- Rsum_lin. apply Rsum_ext. intros c _. ring.
Qed.
Lemma pmean_nonneg val : (forall c, 0 <= val c) -> 0 <= pmean val.
Proof.
  intros H. unfold pmean. destruct (Rlt_dec 0 (Rsum cs)) as [HS|HS]; [|apply H]. pose proof accept_01.
  destruct (frac_facts cs Hnn HS) as (F0 & F1 & F2 & F3).
  assert (0 <= Rsum (map (fun c => (frac cs (S c) - frac cs c) * val (Z.of_nat c)) (seq 0 (length cs)))).
  { apply Rsum_le0. intros i Hi. apply in_seq in Hi. apply Rmult_le_pos; [|apply H].
    destruct (nth_error cs i) as [c|] eqn:En; [|apply nth_error_None in En; lia]. rewrite (F2 i c En).
    assert (0 <= c) by (rewrite List.Forall_forall in Hnn; apply Hnn; eapply nth_error_In; eassumption).
    apply Rmult_le_pos; [assumption|left; apply Rinv_0_lt_compat; assumption]. }
  apply Rplus_le_le_0_compat; apply Rmult_le_pos; try lra; try assumption. apply H.
Qed.
(** One channel only. *)
Lemma Rsum_single n c (f : nat -> R) : (c < n)%nat -> Rsum (map (fun i => f i * if Z.eqb (Z.of_nat i) (Z.of_nat c) then 1 else 0) (seq 0 n)) = f c.
Proof.
  induction n as [|n IH]; intros L; [lia|]. rewrite seq_S, map_app, Rsum_app. cbn [map Rsum]. rewrite Nat.add_0_l.
  destruct (Nat.eq_dec c n) as [->|Hne].
  - rewrite Z.eqb_refl. replace (Rsum _) with 0; [ring|]. symmetry. erewrite (Rsum_ext _ (fun _ => 0)); [rewrite Rsum_const; ring|].
    intros i Hi. apply in_seq in Hi. destruct (Z.eqb_spec (Z.of_nat i) (Z.of_nat n)); [lia|ring].
  - rewrite IH by lia. destruct (Z.eqb_spec (Z.of_nat n) (Z.of_nat c)); [lia|ring].
Qed.
Lemma pmean_channel c s : nth_error cs c = Some s -> 0 < msv -> Rsum cs * v <= msv ->
  pmean (fun p => if Z.eqb p (Z.of_nat c) then 1 else 0) = s * v / msv.
Proof.
  intros En P Hle. unfold pmean. destruct (Z.eqb_spec (-1) (Z.of_nat c)); [lia|].
  assert (Hcl : (c < length cs)%nat) by (apply nth_error_Some; rewrite En; discriminate).
  destruct (Rlt_dec 0 (Rsum cs)) as [HS|HS].
  - rewrite (Rsum_single _ _ (fun c => frac cs (S c) - frac cs c) Hcl). destruct (frac_facts cs Hnn HS) as (F0 & F1 & F2 & F3). rewrite (F2 c s En).
    unfold accept. destruct (Rlt_dec 0 msv) as [_|Q]; [|lra]. rewrite Rmin_right; [field; lra|].
    apply Rmult_le_reg_r with msv; [assumption|]. unfold Rdiv. rewrite Rmult_assoc, Rinv_l by lra. lra.
  - assert (s = 0) as ->; [|unfold Rdiv; ring]. clear -En Hnn HS. revert c En. induction cs as [|a l IH]; intros [|c] En; cbn in En; try discriminate.
    + injection En as ->. inversion Hnn; subst. cbn [Rsum] in HS. pose proof (Rsum_nonneg _ H2). lra.
    + inversion Hnn; subst. apply (IH H2) with c; [|assumption]. cbn [Rsum] in HS. lra.
Qed.
End Path.
