(** Averages over draws: step functions of one draw, and draws that do not matter. *)
From Coq Require Import Reals List ZArith Lra Lia Psatz.
From Flocq Require Import Core.
From Coquelicot Require Import Coquelicot.
From Verif Require Import Base Num ModelTerm ModelCollide ModelXsec ModelSet SpecPhys SpecXsec SpecSet SpecRate ProofSet.
From Coq Require Import List.
Import ListNotations.
Local Open Scope R_scope.

(** ** Piecewise constant functions *)
Lemma RInt_pieces (f : R -> R) (t c : nat -> R) n : (forall i, (i < n)%nat -> t i <= t (S i)) ->
  (forall i x, (i < n)%nat -> t i < x < t (S i) -> f x = c i) ->
  is_RInt f (t 0%nat) (t n) (Rsum (map (fun i => (t (S i) - t i) * c i) (seq 0 n))).
Proof.
  induction n as [|n IH]; intros Ht Hf.
  - cbn. apply (is_RInt_point f (t 0%nat)).
  - rewrite seq_S, map_app, Rsum_app. cbn [map Rsum]; rewrite ?Nat.add_0_l.
    rewrite Rplus_0_r.
    apply (is_RInt_Chasles (V:=R_NormedModule) f (t 0%nat) (t n) (t (S n)) (Rsum (map (fun i => (t (S i) - t i) * c i) (seq 0 n))) ((t (S n) - t n) * c n)).
    + apply IH; intros; [apply Ht|apply Hf]; auto with arith.
    + apply (is_RInt_ext (V:=R_NormedModule) (fun _ => c n)); [|apply (is_RInt_const (V:=R_NormedModule) (t n) (t (S n)) (c n))].
      intros x. rewrite Rmin_left, Rmax_right by (apply Ht; lia). intros Hx. symmetry. apply Hf; [lia|assumption].
Qed.

(** ** Streams *)
Definition agree (k : nat) (u v : nat -> R) : Prop := forall i, (i < k)%nat -> u i = v i.
Lemma agree_refl k u : agree k u u. Proof. intros i _. reflexivity. Qed.
Lemma agree_trans k u v w : agree k u v -> agree k v w -> agree k u w.
Proof. intros H1 H2 i Hi. rewrite H1, H2 by assumption. reflexivity. Qed.
Lemma agree_sym k u v : agree k u v -> agree k v u. Proof. intros H i Hi. symmetry. apply H; assumption. Qed.
Lemma agree_le k k' u v : (k <= k')%nat -> agree k' u v -> agree k u v. Proof. intros H1 H2 i Hi. apply H2. lia. Qed.
Lemma redraw_agree k u x : agree k (redraw u k x) u.
Proof. intros i Hi. unfold redraw. destruct (Nat.eqb_spec i k); [lia|reflexivity]. Qed.
Lemma redraw_at k u x : redraw u k x k = x. Proof. unfold redraw. rewrite Nat.eqb_refl. reflexivity. Qed.
Lemma redraw_inner k u x : inner u -> 0 < x < 1 -> inner (redraw u k x).
Proof. intros H Hx i. unfold redraw. destruct (Nat.eqb i k); [assumption|apply H]. Qed.
Lemma agree_S k u v x : agree (S k) v (redraw u k x) -> agree k v u /\ v k = x.
Proof.
  intros H. split; [eapply agree_trans; [eapply agree_le; [|exact H]; lia|apply redraw_agree]|].
  rewrite H by lia. apply redraw_at.
Qed.
Lemma inner_ok u : inner u -> rng_ok (drawn u).
Proof. intros H k. cbn. specialize (H k). lra. Qed.

(** ** Averages *)
(** Averages whose value may depend on the draws already made, for all further streams. *)
Definition later (m k : nat) (F : (nat -> R) -> R) (u : nat -> R) (a : R) : Prop :=
  forall u', inner u' -> agree k u' u -> average_is m k F u' a.
Lemma later_here m k F u a : inner u -> later m k F u a -> average_is m k F u a.
Proof. intros Hu H. apply H; [assumption|apply agree_refl]. Qed.
Lemma later_agree m k F u v a : agree k v u -> later m k F u a -> later m k F v a.
Proof. intros H1 H2 w Hw Hv. apply H2; [assumption|]. eapply agree_trans; eassumption. Qed.

Lemma avg_step m k F u a (f : R -> R) : (forall x, 0 < x < 1 -> later m (S k) F (redraw u k x) (f x)) -> is_RInt f 0 1 a ->
  later (S m) k F u a.
Proof.
  intros H1 H2 u' Hu Ha. exists f. split; [|assumption]. intros x Hx.
  assert (later m (S k) F (redraw u k x) (f x)) as L by auto. apply L; [apply redraw_inner; assumption|].
  intros i Hi. unfold redraw. destruct (Nat.eqb_spec i k); [reflexivity|]. apply Ha. lia.
Qed.
Lemma avg_skip d : forall m k F u a, (forall v, inner v -> agree k v u -> later m (k + d) F v a) -> later (d + m) k F u a.
Proof.
  induction d as [|d IH]; intros m k F u a H.
  - cbn. intros u' Hu Ha. specialize (H u' Hu Ha). rewrite Nat.add_0_r in H. apply later_here; assumption.
  - cbn [Nat.add]. apply avg_step with (fun _ => a).
    + intros x Hx.
      assert (G : forall v, inner v -> agree (S k) v (redraw u k x) -> later m (S k + d) F v a).
      { intros v Hv Ha. apply agree_S in Ha as [Ha _]. replace (S k + d)%nat with (k + S d)%nat by lia. apply H; assumption. }
      apply IH. exact G.
    + pose proof (is_RInt_const (V:=R_NormedModule) 0 1 a) as Q. refine (eq_ind _ (fun z : R => is_RInt (fun _ => a) 0 1 z) Q _ _).
      unfold scal; cbn; unfold mult; cbn; ring.
Qed.
Lemma avg_const m k F u a : (forall v, inner v -> agree k v u -> F v = a) -> later m k F u a.
Proof.
  intros H. replace m with (m + 0)%nat by lia. apply avg_skip. intros v Hv Ha w Hw Hwa. cbn. apply H; [assumption|].
  eapply agree_trans; [eapply agree_le; [|exact Hwa]; lia|assumption].
Qed.

(** One draw against one threshold. *)
Lemma avg_two m k F u p a b (f : R -> R) : 0 <= p <= 1 -> (forall x, 0 < x < 1 -> later m (S k) F (redraw u k x) (f x)) ->
  (forall x, 0 < x < 1 -> x < p -> f x = a) -> (forall x, 0 < x < 1 -> p < x -> f x = b) -> later (S m) k F u (p * a + (1 - p) * b).
Proof.
  intros Hp H Ha Hb. apply avg_step with f; [assumption|].
  pose proof (RInt_pieces f (fun i => match i with 0%nat => 0 | 1%nat => p | _ => 1 end) (fun i => match i with 0%nat => a | _ => b end) 2) as G.
  cbn [seq map Rsum] in G. replace (p * a + (1 - p) * b) with ((p - 0) * a + ((1 - p) * b + 0)) by ring. apply G.
  - intros [|[|i]] Hi; [lra|lra|lia].
  - intros [|[|i]] x Hi Hx; [apply Ha; lra|apply Hb; lra|lia].
Qed.

(** One draw into consecutive intervals. *)
Lemma avg_pieces m k F u n (t c : nat -> R) : (forall i, (i < n)%nat -> t i <= t (S i)) -> t 0%nat = 0 -> t n = 1 ->
  (forall x i, 0 < x < 1 -> (i < n)%nat -> t i <= x < t (S i) -> later m (S k) F (redraw u k x) (c i)) ->
  later (S m) k F u (Rsum (map (fun i => (t (S i) - t i) * c i) (seq 0 n))).
Proof.
  intros Ht T0 T1 H.
  assert (Hex : forall x j, (j <= n)%nat -> 0 <= x < t j -> {i | (i < j)%nat /\ t i <= x < t (S i)}).
  { intros x j. induction j as [|j IH]; intros Hj Hx; [exfalso; rewrite T0 in Hx; lra|].
    destruct (Rlt_dec x (t j)) as [L|L].
    - destruct (IH ltac:(lia) ltac:(lra)) as (i & Hi & Hix). exists i. split; [lia|assumption].
    - exists j. split; [lia|lra]. }
  assert (Hm : forall i j, (i <= j)%nat -> (j <= n)%nat -> t i <= t j).
  { intros i j Hij. induction Hij as [|j Hij IH]; intros; [lra|]. specialize (Ht j ltac:(lia)). specialize (IH ltac:(lia)). lra. }
  set (f := fun x => match Rle_dec 0 x with left p => match Rlt_dec x (t n) with left q => c (proj1_sig (Hex x n (le_n n) (conj p q))) | _ => 0 end | _ => 0 end).
  assert (Hf : forall x i, (i < n)%nat -> 0 <= x -> t i <= x < t (S i) -> f x = c i).
  { intros x i Hi Hx Hxi. pose proof (Hm (S i) n ltac:(lia) ltac:(lia)). unfold f.
    destruct (Rle_dec 0 x) as [p|]; [|exfalso; lra]. destruct (Rlt_dec x (t n)) as [q|]; [|exfalso; lra].
    destruct (Hex x n (le_n n) (conj p q)) as (j & Hj & Hxj). cbn [proj1_sig]. f_equal.
    destruct (Nat.lt_trichotomy i j) as [L|[L|L]]; [|auto|].
    - pose proof (Hm (S i) j ltac:(lia) ltac:(lia)). lra.
    - pose proof (Hm (S j) i ltac:(lia) ltac:(lia)). lra. }
  apply avg_step with f.
  - intros x Hx. destruct (Hex x n (le_n n)) as (i & Hi & Hxi); [rewrite T1; lra|]. rewrite (Hf x i) by (assumption || lra). apply H; assumption.
  - rewrite <- T0 at 1. rewrite <- T1. apply RInt_pieces; [assumption|]. intros i x Hi Hx. apply Hf; [assumption| |lra].
    pose proof (Hm 0%nat i ltac:(lia) ltac:(lia)). lra.
Qed.

(** A uniform choice among n. *)
Lemma avg_uniform m k F u n (c : nat -> R) : (0 < n)%nat ->
  (forall x i, 0 < x < 1 -> (i < n)%nat -> INR i <= INR n * x < INR i + 1 -> later m (S k) F (redraw u k x) (c i)) ->
  later (S m) k F u (Rsum (map c (seq 0 n)) / INR n).
Proof.
  intros Hn H. assert (Hp : 0 < INR n) by (apply lt_0_INR; assumption).
  replace (Rsum (map c (seq 0 n)) / INR n) with (Rsum (map (fun i => (INR (S i) / INR n - INR i / INR n) * c i) (seq 0 n))).
  - apply avg_pieces with (t := fun i => INR i / INR n).
    + intros i _. rewrite S_INR. apply Rmult_le_compat_r; [left; apply Rinv_0_lt_compat; assumption|lra].
    + cbn. unfold Rdiv. ring.
    + field. lra.
    + intros x i Hx Hi [H1 H2]. apply H; [assumption|assumption|]. rewrite S_INR in H2.
      apply Rmult_le_compat_r with (r := INR n) in H1; [|lra]. apply Rmult_lt_compat_r with (r := INR n) in H2; [|lra].
      unfold Rdiv in H1, H2. rewrite Rmult_assoc, Rinv_l in H1, H2 by lra. lra.
  - generalize (seq 0 n). intros l. induction l as [|i l IH]; cbn [map Rsum]; [unfold Rdiv; ring|]. rewrite IH, S_INR. field. lra.
Qed.
