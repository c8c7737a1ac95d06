(** Lemmas on interaction sets over the real numbers (C30, C32, C33, C64, C12) and for
    any arithmetic (C35). *)
From Coq Require Import Reals Lra Lia List ZArith Bool.
From Verif Require Import Base Num ModelTerm ModelCollide ModelXsec ModelSet
  SpecTerm SpecPhys SpecXsec SpecSet ProofCollide ProofXsec ProofData ProofInelastic ProofReact.
From Coq Require Import List.
Import ListNotations.
Local Open Scope R_scope.

Lemma Rsum_app a b : Rsum (a ++ b) = Rsum a + Rsum b.
Proof. induction a as [|x a IH]; cbn; [lra|rewrite IH; lra]. Qed.
Lemma Rsum_nonneg l : Forall (fun x => 0 <= x) l -> 0 <= Rsum l.
Proof. induction 1; cbn; lra. Qed.
Lemma cs_total_R (cs : list R) : cs_total (N:=RNum) cs = Rsum cs.
Proof.
  unfold cs_total. unR. assert (H : forall s, fold_left (fun s c => s + c) cs s = s + Rsum cs).
  { induction cs as [|c cs IH]; intros s; cbn; [lra|rewrite IH; lra]. }
  rewrite H. lra.
Qed.

Lemma channel_ok K rhs v (cs : list R) : channel_cs (N:=RNum) K rhs v = Ok cs <-> channels K rhs v cs.
Proof. unfold channel_cs, channels, sigma_is. apply omap_ok_iff. Qed.

(** ** C30 *)
Lemma set_max K rhs (V : R) :
  (forall e, In e rhs -> exists M vm, findMaxSigmaV (N:=RNum) K (q_cs e) V = Ok (M, vm) /\ sv_bound K (q_cs e) V M) ->
  exists MM, findMaxSigmaVProduct (N:=RNum) K rhs V = Ok MM /\
    forall v, 0 < v <= V -> exists cs, channels K rhs v cs /\ v * Rsum cs <= MM.
Proof.
  unfold findMaxSigmaVProduct. unR.
  assert (G : forall s : R, (forall e, In e rhs -> exists M vm, findMaxSigmaV (N:=RNum) K (q_cs e) V = Ok (M, vm) /\ sv_bound K (q_cs e) V M) ->
    exists MM, ofold (fun (sum : R) i => do m <- findMaxSigmaV (N:=RNum) K (q_cs i) V; Ok (sum + fst m)) s rhs = Ok (s + MM) /\
      forall v, 0 < v <= V -> exists cs, channels K rhs v cs /\ v * Rsum cs <= MM).
  { induction rhs as [|e rhs IH]; intros s H.
    - exists 0. cbn. split; [f_equal; lra|]. intros v Hv. exists []. split; [constructor|cbn; lra].
    - destruct (H e (or_introl eq_refl)) as (M & vm & E & B).
      destruct (IH (s + M)) as (MM & E' & B'); [intros e' He; apply H; right; assumption|].
      exists (M + MM). cbn [ofold]. rewrite E. cbn [obind fst]. unR. rewrite E'. split; [f_equal; lra|].
      intros v Hv. destruct (B v Hv) as (x & Hx & Lx). destruct (B' v Hv) as (cs & Hc & Lc).
      exists (x :: cs). split; [constructor; assumption|]. cbn. lra. }
  intros H. destruct (G 0 H) as (MM & E & B). exists MM. split; [|assumption].
  etransitivity; [exact E|f_equal; lra].
Qed.

(** ** C32, C33 *)
Lemma pick_spec (cs : list R) (r : R) : forall tot j,
  Forall (fun x => 0 <= x) cs -> tot <= r ->
  (r < tot + Rsum cs -> exists i c, nth_error cs i = Some c /\ pick (N:=RNum) cs r tot j = ((j + Z.of_nat i)%Z, c) /\
     tot + Rsum (firstn i cs) <= r < tot + Rsum (firstn (S i) cs) /\ 0 < c) /\
  (tot + Rsum cs <= r -> pick (N:=RNum) cs r tot j = ((-1)%Z, 0)).
Proof.
  induction cs as [|c cs IH]; intros tot j Hnn Htot.
  - cbn. split; [lra|reflexivity].
  - inversion Hnn as [|? ? Hc Hcs]; subst. cbn [pick]. unR. pose proof (Rsum_nonneg _ Hcs).
    destruct (Rltb_spec r (tot + c)) as [L|L].
    + split; [|cbn; lra]. intros _. exists 0%nat, c. split; [reflexivity|]. split; [f_equal; lia|]. cbn. lra.
    + destruct (IH (tot + c) (j + 1)%Z Hcs ltac:(lra)) as [A B]. split.
      * intros H1. cbn in H1. destruct (A ltac:(lra)) as (i & d & Hi & E & Hr & Hd).
        exists (S i), d. split; [assumption|]. split; [rewrite E; f_equal; lia|]. split; [|assumption].
        cbn [firstn Rsum] in *. lra.
      * intros H1. cbn in H1. apply B. lra.
Qed.

Lemma outpath_ok K rhs max v g k (cs : list R) : channels K rhs v cs ->
  calculateOutPath (N:=RNum) K rhs max v g k =
  if Rltb (Rsum cs * v) (g_rand g k * max) then Ok ((-1)%Z, 0, (k + 1)%nat)
  else Ok (pick (N:=RNum) cs (g_exc g (k + 1) * Rsum cs)%R 0 0%Z, (k + 2)%nat).
Proof.
  intros H. unfold calculateOutPath. apply channel_ok in H. rewrite H. cbn [obind]. rewrite cs_total_R. reflexivity.
Qed.

Lemma outpath_spec K rhs (max v : R) g k (cs : list R) : channels K rhs v cs -> Forall (fun x => 0 <= x) cs -> rng_ok g ->
  exists j c k', calculateOutPath (N:=RNum) K rhs max v g k = Ok (j, c, k') /\
    (Rsum cs = 0 -> j = (-1)%Z) /\
    (0 < Rsum cs -> ((0 <= j)%Z <-> g_rand g k * max <= Rsum cs * v)) /\
    (j = (-1)%Z \/ exists i, j = Z.of_nat i /\ nth_error cs i = Some c /\ 0 < c) /\
    (0 < Rsum cs -> g_rand g k * max <= Rsum cs * v -> k' = (k + 2)%nat /\
       forall i, (i < length cs)%nat -> (j = Z.of_nat i <-> frac cs i <= g_exc g (k + 1) < frac cs (S i))).
Proof.
  intros Hc Hnn Hg. rewrite (outpath_ok _ _ _ _ _ _ _ Hc). pose proof (Rsum_nonneg _ Hnn) as Hs.
  destruct (Hg (k + 1)%nat) as [_ Hx]. set (x := g_exc g (k + 1)) in *.
  destruct (Rltb_spec (Rsum cs * v) (g_rand g k * max)) as [L|L].
  - exists (-1)%Z, 0, (k + 1)%nat. split; [reflexivity|]. split; [reflexivity|]. split; [intros; split; [lia|lra]|]. split; [left; reflexivity|].
    intros; lra.
  - destruct (pick_spec cs (x * Rsum cs) 0 0 Hnn) as [A B]; [apply Rmult_le_pos; lra|].
    destruct (Rtotal_order 0 (Rsum cs)) as [Hp|[Hz|Hn]]; [| |lra].
    + destruct A as (i & c & Hi & E & Hr & Hcp); [nra|]. exists (0 + Z.of_nat i)%Z, c, (k + 2)%nat. rewrite E.
      split; [reflexivity|]. split; [lra|]. split; [intros _; split; [lra|lia]|].
      split; [right; exists i; split; [lia|auto]|]. intros _ _. split; [reflexivity|].
      assert (Hf : forall n, frac cs n * Rsum cs = Rsum (firstn n cs)) by (intros; unfold frac; field; lra).
      assert (Hmono : forall a b, (a <= b)%nat -> Rsum (firstn a cs) <= Rsum (firstn b cs)).
      { intros a b Hab. replace (firstn b cs) with (firstn a cs ++ firstn (b - a) (skipn a cs)).
        - rewrite Rsum_app. assert (0 <= Rsum (firstn (b - a) (skipn a cs))); [|lra].
          apply Rsum_nonneg. apply Forall_forall. intros y Hy. rewrite Forall_forall in Hnn. apply Hnn.
          rewrite <- (firstn_skipn a cs). apply in_app_iff. right.
          rewrite <- (firstn_skipn (b - a) (skipn a cs)). apply in_app_iff. left; assumption.
        - rewrite <- (firstn_skipn a (firstn b cs)). rewrite firstn_firstn, skipn_firstn_comm. replace (Nat.min a b) with a by lia. reflexivity. }
      intros i' Hi'. split.
      * intros Heq. assert (i' = i) as -> by lia.
        split; [apply Rmult_le_reg_r with (Rsum cs)|apply Rmult_lt_reg_r with (Rsum cs)]; rewrite ?Hf; lra.
      * intros [H1 H2].
        assert (H1' : Rsum (firstn i' cs) <= x * Rsum cs) by (rewrite <- Hf; apply Rmult_le_compat_r; lra).
        assert (H2' : x * Rsum cs < Rsum (firstn (S i') cs)) by (rewrite <- Hf; apply Rmult_lt_compat_r; lra).
        assert (~ (i < i')%nat) by (intros Hlt; specialize (Hmono (S i) i' ltac:(lia)); lra).
        assert (~ (i' < i)%nat) by (intros Hlt; specialize (Hmono (S i') i ltac:(lia)); lra). lia.
    + exists (-1)%Z, 0, (k + 2)%nat. rewrite B by (rewrite <- Hz; lra). split; [reflexivity|]. split; [reflexivity|].
      split; [lra|]. split; [left; reflexivity|lra].
Qed.

Lemma frac_facts (cs : list R) : Forall (fun x => 0 <= x) cs -> 0 < Rsum cs ->
  frac cs 0 = 0 /\ frac cs (length cs) = 1 /\
  (forall i c, nth_error cs i = Some c -> frac cs (S i) - frac cs i = c / Rsum cs) /\
  (forall x, 0 <= x < 1 -> exists i, (i < length cs)%nat /\ frac cs i <= x < frac cs (S i)).
Proof.
  intros Hnn Hp. unfold frac. split; [cbn; unfold Rdiv; ring|]. split; [rewrite firstn_all; field; lra|]. split.
  - intros i c Hi. assert (E : firstn (S i) cs = firstn i cs ++ [c]).
    { clear -Hi. revert i Hi. induction cs as [|d cs IH]; intros [|i] Hi; cbn in Hi; try discriminate.
      - injection Hi as ->. reflexivity.
      - cbn [firstn app]. f_equal. apply IH. assumption. }
    rewrite E, Rsum_app. cbn. field. lra.
  - intros x Hx. destruct (pick_spec cs (x * Rsum cs) 0 0 Hnn) as [A _]; [apply Rmult_le_pos; lra|].
    destruct A as (i & c & Hi & _ & Hr & _); [nra|]. exists i. split; [apply nth_error_Some; rewrite Hi; discriminate|].
    split; [apply Rmult_le_reg_r with (Rsum cs)|apply Rmult_lt_reg_r with (Rsum cs)]; try lra;
      unfold Rdiv; rewrite Rmult_assoc, Rinv_l by lra; lra.
Qed.

(** ** C35 *)
Section Any.
Context {N : Num}.
Lemma set_interact_order (K : N) inplace rhs max pA pB l g k path a b l' k' :
  set_interact K inplace rhs max pA pB l g k = Ok (path, a, b, l', k') ->
  exists k1, calculateOutPath K rhs max (vabs (vsub (p_vel pA) (p_vel pB))) g k = Ok (path, k1) /\
  (((fst path < 0)%Z /\ a = pA /\ b = pB /\ l' = l /\ k' = k1) \/
   (exists e, (0 <= fst path)%Z /\ nth_error rhs (Z.to_nat (fst path)) = Some e /\
      (((p_species pA <= p_species pB)%Z /\ model_interact inplace (q_model e) pA pB l g k1 = Ok (a, b, l', k')) \/
       ((p_species pB < p_species pA)%Z /\ model_interact inplace (q_model e) pB pA l g k1 = Ok (b, a, l', k'))))).
Proof.
  unfold set_interact. intros H. apply obind_ok in H as ([[j c] k1] & E & H). cbn [fst] in H. exists k1.
  destruct (Z.leb_spec 0 j) as [L|L].
  - apply obind_ok in H as (e & Ee & H). unfold oget in Ee.
    destruct (nth_error rhs (Z.to_nat j)) as [e'|] eqn:En; [|discriminate]. injection Ee as <-.
    destruct (Z.ltb_spec (p_species pB) (p_species pA)) as [L'|L'];
      apply obind_ok in H as ([[[b' a'] l''] k''] & Em & H); injection H as <- <- <- <- <-;
      (split; [assumption|]; right; exists e'; cbn [fst]; auto 6).
  - injection H as <- <- <- <- <-. split; [assumption|]. left. cbn [fst]. auto.
Qed.
End Any.
