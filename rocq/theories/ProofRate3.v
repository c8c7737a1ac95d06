(** Averages over the tests of one pair of species, and over the whole second pass. *)
From Coq Require Import Reals List ZArith Lra Lia Psatz Bool.
From Flocq Require Import Core.
From Coquelicot Require Import Coquelicot.
From Verif Require Import Base Num ModelTerm ModelCollide ModelXsec ModelSet SpecPhys SpecXsec SpecSet SpecRate ProofCollide ProofInelastic ProofSet ProofSelect ProofDriver ProofDriver2 ProofRate ProofRate2.
From Coq Require Import List.
Import ListNotations.
Local Open Scope R_scope.

Definition entry := (nat * nat * (nat * nat) * Z)%type.

Lemma F2_length {T U} (P : T -> U -> Prop) l l' : List.Forall2 P l l' -> length l = length l'.
Proof. induction 1; cbn; congruence. Qed.

Lemma seq_shift_map a n : seq a n = map (fun b => (a + b)%nat) (seq 0 n).
Proof.
  revert a. induction n as [|n IH]; intros a; [reflexivity|]. rewrite !seq_S, map_app, <- IH. cbn [map]. rewrite Nat.add_0_l. reflexivity.
Qed.
Lemma split_sum i (c : R) (val : nat -> R) l : Rsum (map (fun j => if Nat.eqb i j then c else val j) l) =
  Rsum (map val (filter (fun j => negb (Nat.eqb i j)) l)) + INR (length (filter (Nat.eqb i) l)) * c.
Proof.
  induction l as [|j l IH]; [cbn; ring|]. cbn [map Rsum filter]. rewrite IH. destruct (Nat.eqb i j); cbn [negb map Rsum length]; [rewrite S_INR|]; ring.
Qed.
Lemma count_seq_in i a n : in_range i (a, (a + n)%nat) -> length (filter (Nat.eqb i) (seq a n)) = 1%nat.
Proof.
  unfold in_range. cbn. revert a. induction n as [|n IH]; intros a H; [lia|]. cbn [seq filter]. destruct (Nat.eqb_spec i a) as [->|Hne].
  - cbn [length]. f_equal. clear. assert (G : forall b, (a < b)%nat -> length (filter (Nat.eqb a) (seq b n)) = 0%nat).
    { induction n as [|n IH]; intros b Hb; [reflexivity|]. cbn [seq filter]. destruct (Nat.eqb_spec a b); [lia|]. apply IH. lia. }
    apply G. lia.
  - apply IH. lia.
Qed.
Lemma count_seq_out i a n : ~ in_range i (a, (a + n)%nat) -> length (filter (Nat.eqb i) (seq a n)) = 0%nat.
Proof.
  unfold in_range. cbn. revert a. induction n as [|n IH]; intros a H; [reflexivity|]. cbn [seq filter]. destruct (Nat.eqb_spec i a) as [->|Hne]; [lia|]. apply IH. lia.
Qed.
Lemma filter_split {T} (p : T -> bool) l : (length (filter (fun x => negb (p x)) l) + length (filter p l) = length l)%nat.
Proof. induction l as [|x l IH]; [reflexivity|]. cbn [filter]. destruct (p x); cbn [negb length]; lia. Qed.

(** ** Choosing the second particle *)
Section Pick.
Context (rb : range) (i : nat).
Hypothesis Hsz : (0 < Z.of_nat (rsize rb) < 2 ^ 31)%Z.
Fixpoint pick_mean (f : nat) (val : nat -> R) : R :=
  match f with
  | O => 0
  | S f => Rsum (map (fun b => if Nat.eqb i (fst rb + b) then pick_mean f val else val (fst rb + b)%nat) (seq 0 (rsize rb))) / INR (rsize rb)
  end.
Lemma pick_ev val B F : forall f k u, inner u ->
  (forall w j k', inner w -> agree k w u -> pick_other f i rb (drawn w) k = Ok (j, k') -> in_range j rb -> i <> j -> ev B k' F w (val j)) ->
  (forall w, inner w -> agree k w u -> (forall x, pick_other f i rb (drawn w) k <> Ok x) -> F w = 0) ->
  ev (f + B) k F u (pick_mean f val).
Proof.
  induction f as [|f IH]; intros k u Hu H H0.
  - cbn [pick_mean]. apply (ev_mono 0); [lia|]. apply ev_const. intros w Hw Ha. apply H0; [assumption|assumption|]. cbn. discriminate.
  - cbn [pick_mean Nat.add]. apply ev_uniform with (c := fun b => if Nat.eqb i (fst rb + b) then pick_mean f val else val (fst rb + b)%nat); [lia|].
    intros x b Hx Hb Hxb.
    assert (Hp : forall w, agree (S k) w (redraw u k x) -> pick_other (S f) i rb (drawn w) k =
              if Nat.eqb i (fst rb + b) then pick_other f i rb (drawn w) (S k) else Ok ((fst rb + b)%nat, S k)).
    { intros w Ha. apply agree_S in Ha as [_ Hw]. cbn [pick_other]. rewrite (rand_pos_at rb w k b) by (rewrite ?Hw; assumption). cbn [obind].
      replace (k + 1)%nat with (S k) by lia. reflexivity. }
    destruct (Nat.eqb_spec i (fst rb + b)) as [Heq|Hne].
    + apply IH; [apply redraw_inner; assumption| |].
      * intros w j k' Hw Ha E Hj Hij. apply H; try assumption; [apply agree_S in Ha; tauto|]. rewrite Hp by assumption. exact E.
      * intros w Hw Ha E. apply H0; [assumption|apply agree_S in Ha; tauto|]. intros y. rewrite Hp by assumption. apply E.
    + apply (ev_mono B); [lia|]. apply H; [apply redraw_inner; assumption|apply redraw_agree|apply Hp, agree_refl| |assumption].
      unfold in_range, rsize in *. lia.
Qed.

Definition others : list nat := filter (fun j => negb (Nat.eqb i j)) (seq (fst rb) (rsize rb)).
Definition umean (val : nat -> R) : R := Rsum (map val others) / INR (length others).
Definition psucc (same : bool) (f : nat) : R := if same then 1 - (/ INR (rsize rb)) ^ f else match f with O => 0 | _ => 1 end.

Lemma pick_mean_out f val : ~ in_range i rb -> pick_mean f val = psucc false f * umean val.
Proof.
  intros H. destruct f as [|f]; [cbn; ring|]. cbn [pick_mean psucc]. unfold umean, others.
  rewrite <- (map_map (fun b => (fst rb + b)%nat) (fun j => if Nat.eqb i j then pick_mean f val else val j)), <- seq_shift_map, split_sum.
  assert (E : length (filter (Nat.eqb i) (seq (fst rb) (rsize rb))) = 0%nat).
  { apply count_seq_out. intros G. apply H. unfold in_range, rsize in *. cbn in *. lia. }
  pose proof (filter_split (Nat.eqb i) (seq (fst rb) (rsize rb))) as G. rewrite seq_length in G. rewrite E in *.
  replace (length (filter (fun j => negb (Nat.eqb i j)) (seq (fst rb) (rsize rb)))) with (rsize rb) by lia. cbn [INR].
  assert (0 < INR (rsize rb)) by (apply lt_0_INR; lia). field. lra.
Qed.
Lemma pick_mean_in f val : in_range i rb -> (2 <= rsize rb)%nat -> pick_mean f val = psucc true f * umean val.
Proof.
  intros H Hn. unfold umean, others.
  assert (E : length (filter (Nat.eqb i) (seq (fst rb) (rsize rb))) = 1%nat).
  { apply count_seq_in. unfold in_range, rsize in *. cbn in *. lia. }
  pose proof (filter_split (Nat.eqb i) (seq (fst rb) (rsize rb))) as G. rewrite seq_length in G.
  replace (length (filter (fun j => negb (Nat.eqb i j)) (seq (fst rb) (rsize rb)))) with (rsize rb - 1)%nat by lia. rewrite minus_INR by lia.
  assert (2 <= INR (rsize rb)) by (replace 2 with (INR 2) by (cbn; ring); apply le_INR; assumption).
  induction f as [|f IH]; [cbn; ring|]. cbn [pick_mean].
  rewrite <- (map_map (fun b => (fst rb + b)%nat) (fun j => if Nat.eqb i j then pick_mean f val else val j)), <- seq_shift_map, split_sum, E, IH.
  unfold psucc. cbn [pow INR]. field. lra.
Qed.
End Pick.
Lemma psucc_01 rb same f : (1 <= rsize rb)%nat -> 0 <= psucc rb same f <= 1.
Proof.
  intros Hn. unfold psucc. destruct same; [|destruct f; lra].
  assert (1 <= INR (rsize rb)) by (replace 1 with (INR 1) by reflexivity; apply le_INR; assumption).
  assert (0 < / INR (rsize rb) <= 1). { split; [apply Rinv_0_lt_compat; lra|]. rewrite <- Rinv_1. apply Rinv_le_contravar; lra. }
  assert (0 < (/ INR (rsize rb)) ^ f <= 1). { split; [apply pow_lt; lra|]. rewrite <- (pow1 f). apply pow_incr. lra. } lra.
Qed.

Section Run.
Context (K : R) (mem : list (particle RNum)) (rs : list range) (db : nat -> nat -> list (equation RNum)).
Context (msv : nat -> nat -> R) (dd : nat -> nat -> nat -> nat) (D : nat) (sfuel : nat).

Definition rg (A : nat) : range := nth A rs (0, 0)%nat.
Definition vel (i j : nat) : R := match nth_error mem i, nth_error mem j with Some p, Some q => relspeed (p_vel p) (p_vel q) | _, _ => 0 end.
Definition css (A B i j : nat) : list R := match channel_cs (N:=RNum) K (db A B) (vel i j) with Ok cs => cs | _ => [] end.

Record good (A B : nat) : Prop := {
  g_A : nth_error rs A = Some (rg A);
  g_B : nth_error rs B = Some (rg B);
  g_szA : (0 < Z.of_nat (rsize (rg A)) < 2 ^ 31)%Z;
  g_szB : (0 < Z.of_nat (rsize (rg B)) < 2 ^ 31)%Z;
  g_memA : (snd (rg A) <= length mem)%nat;
  g_memB : (snd (rg B) <= length mem)%nat;
  g_msv : 0 <= msv A B;
  g_cs : forall i j, in_range i (rg A) -> in_range j (rg B) ->
    channels K (db A B) (vel i j) (css A B i j) /\ List.Forall (fun s => 0 <= s) (css A B i j);
  g_dd : forall c e, nth_error (db A B) c = Some e -> uses (dd A B c) (q_model e) /\ (dd A B c <= D)%nat;
  g_rel : (A = B /\ (2 <= rsize (rg A))%nat) \/ (A <> B /\ forall i, in_range i (rg A) -> ~ in_range i (rg B)) }.

Lemma vel_nonneg i j : 0 <= vel i j.
Proof. unfold vel. destruct (nth_error mem i); [|lra]. destruct (nth_error mem j); [apply relspeed_nonneg|lra]. Qed.
Lemma in_mem i r : (snd r <= length mem)%nat -> in_range i r -> exists p, nth_error mem i = Some p.
Proof. intros H1 H2. destruct (nth_error mem i) eqn:E; [eauto|]. apply nth_error_None in E. unfold in_range in H2. lia. Qed.

Definition sim_test (A B : nat) (u : nat -> R) (k : nat) : option (entry * nat) :=
  match selectRandomPair (N:=RNum) sfuel (rg A) (rg B) (drawn u) k with
  | Ok (i, j, k1) => match psim K (db A B) (msv A B) (vel i j) (dd A B) u k1 with Some (p, k2) => Some ((A, B, (i, j), p), k2) | None => None end
  | _ => None
  end.

Definition qmean (A B : nat) (phi : entry -> R) : R :=
  Rsum (map (fun i => umean (rg B) i (fun j => pmean (msv A B) (vel i j) (css A B i j) (fun p => phi (A, B, (i, j), p)))) (seq (fst (rg A)) (rsize (rg A)))) / INR (rsize (rg A)).
Definition rr (A B : nat) : R := psucc (rg B) (Nat.eqb A B) sfuel.

Lemma css_len A B i j : good A B -> in_range i (rg A) -> in_range j (rg B) -> forall c, (c < length (css A B i j))%nat -> (dd A B c <= D)%nat.
Proof.
  intros G Hi Hj c Hc. destruct (g_cs _ _ G i j Hi Hj) as [H _]. apply F2_length in H.
  destruct (nth_error (db A B) c) as [e|] eqn:E; [|apply nth_error_None in E; lia]. apply (g_dd _ _ G c e E).
Qed.
Lemma select_at f (ra rb : range) u k : selectRandomPair (N:=RNum) f ra rb (drawn u) k =
  match rand_pos ra (drawn u) k with
  | Ok i => match pick_other f i rb (drawn u) (S k) with Ok (j, k1) => Ok (i, j, k1) | Throw e => Throw e | UB => UB | Diverge => Diverge end
  | Throw e => Throw e | UB => UB | Diverge => Diverge end.
Proof.
  unfold selectRandomPair. destruct (rand_pos ra (drawn u) k); cbn [obind]; try reflexivity. replace (k + 1)%nat with (S k) by lia.
  destruct (pick_other f _ rb (drawn u) (S k)) as [[j k1]| | |]; reflexivity.
Qed.

Lemma test_ev A B Bu F k u (val : entry -> R) : good A B -> inner u ->
  (forall w e k', inner w -> agree k w u -> sim_test A B w k = Some (e, k') -> ev Bu k' F w (val e)) ->
  (forall w, inner w -> agree k w u -> sim_test A B w k = None -> F w = 0) ->
  ev (1 + sfuel + (2 + D) + Bu) k F u (rr A B * qmean A B val).
Proof.
  intros G Hu H H0. pose proof (g_szA _ _ G) as SA. pose proof (g_szB _ _ G) as SB.
  set (Val := fun i j => pmean (msv A B) (vel i j) (css A B i j) (fun p => val (A, B, (i, j), p))).
  assert (E : rr A B * qmean A B val = Rsum (map (fun a => pick_mean (rg B) (fst (rg A) + a) sfuel (Val (fst (rg A) + a)%nat)) (seq 0 (rsize (rg A)))) / INR (rsize (rg A))).
  { unfold qmean, rr. rewrite (seq_shift_map (fst (rg A))), map_map. unfold Rdiv. rewrite <- Rmult_assoc. f_equal. rewrite <- Rsum_scal. apply Rsum_ext. intros a Ha. apply in_seq in Ha.
    assert (Hia : in_range (fst (rg A) + a) (rg A)) by (unfold in_range, rsize in *; lia).
    destruct (g_rel _ _ G) as [[-> Hn]|[Hne Hd]].
    - rewrite Nat.eqb_refl. symmetry. apply pick_mean_in; [exact SB|assumption|assumption].
    - destruct (Nat.eqb_spec A B); [contradiction|]. symmetry. apply pick_mean_out; [exact SB|apply Hd; assumption]. }
  rewrite E. replace (1 + sfuel + (2 + D) + Bu)%nat with (S (sfuel + (2 + D + Bu))) by lia.
  apply ev_uniform with (c := fun a => pick_mean (rg B) (fst (rg A) + a) sfuel (Val (fst (rg A) + a)%nat)); [lia|].
  intros x a Hx Ha Hxa. set (i := (fst (rg A) + a)%nat).
  assert (Hi : in_range i (rg A)) by (unfold i, in_range, rsize in *; lia).
  assert (Hr : forall w, agree (S k) w (redraw u k x) -> rand_pos (rg A) (drawn w) k = Ok i).
  { intros w Ha'. apply agree_S in Ha' as [_ Hw]. apply rand_pos_at; rewrite ?Hw; assumption. }
  apply pick_ev; [exact SB|apply redraw_inner; assumption| |].
  - intros w j k1 Hw Haw Ep Hj _. pose proof (pick_other_local _ _ _ w w _ _ _ Ep) as [Lk _].
    destruct (g_cs _ _ G i j Hi Hj) as [Hc Hnn]. unfold Val.
    apply (path_ev K (db A B) (msv A B) (vel i j) (css A B i j) (dd A B) D Hc Hnn (g_msv _ _ G) (vel_nonneg i j) (css_len A B i j G Hi Hj)); [assumption|].
    intros z p k' Hz Haz Ez.
    assert (Haz2 : agree (S k) z (redraw u k x)) by (eapply agree_trans; [eapply agree_le; [|exact Haz]; lia|assumption]).
    apply H; [assumption|apply agree_S in Haz2; tauto|]. unfold sim_test. rewrite select_at, (Hr z Haz2).
    rewrite (proj2 (pick_other_local _ _ _ _ z _ _ _ Ep) Haz), Ez. reflexivity.
  - intros w Hw Haw Ep. apply H0; [assumption|apply agree_S in Haw; tauto|]. unfold sim_test. rewrite select_at, (Hr w Haw).
    destruct (pick_other sfuel i (rg B) (drawn w) (S k)) as [[j k1]| | |] eqn:Eo; try reflexivity. exfalso. apply (Ep (j, k1)). reflexivity.
Qed.

Lemma select_in A B u k i j k1 : good A B -> inner u -> selectRandomPair (N:=RNum) sfuel (rg A) (rg B) (drawn u) k = Ok (i, j, k1) ->
  in_range i (rg A) /\ in_range j (rg B) /\ (S k < k1)%nat /\ (forall w, agree k1 w u -> selectRandomPair (N:=RNum) sfuel (rg A) (rg B) (drawn w) k = Ok (i, j, k1)).
Proof.
  intros G Hu H. rewrite select_at in H. pose proof (inner_ok u Hu) as Hok.
  destruct (rrand_pos (drawn u) (rg A) Hok (g_szA _ _ G) k) as (i' & Ei & Hi). rewrite Ei in H.
  destruct (pick_other sfuel i' (rg B) (drawn u) (S k)) as [[j' k']| | |] eqn:Ep; try discriminate. injection H as <- <- <-.
  split; [assumption|]. pose proof (pick_other_local _ _ _ u u _ _ _ Ep) as [L _]. repeat split.
  - clear -Ep G Hok. revert Ep. generalize (S k). generalize sfuel at 1. intros f. induction f as [|f IH]; intros k0 H; cbn [pick_other] in H; [discriminate|].
    destruct (rrand_pos (drawn u) (rg B) Hok (g_szB _ _ G) k0) as (b & Eb & Hb). rewrite Eb in H. cbn [obind] in H.
    destruct (Nat.eqb i' b); [eapply IH; eassumption|]. injection H as <- _. apply Hb.
  - clear -Ep G Hok. revert Ep. generalize (S k). generalize sfuel at 1. intros f. induction f as [|f IH]; intros k0 H; cbn [pick_other] in H; [discriminate|].
    destruct (rrand_pos (drawn u) (rg B) Hok (g_szB _ _ G) k0) as (b & Eb & Hb). rewrite Eb in H. cbn [obind] in H.
    destruct (Nat.eqb i' b); [eapply IH; eassumption|]. injection H as <- _. apply Hb.
  - exact L.
  - intros w Ha. rewrite select_at. rewrite (rand_pos_local _ w u) by (apply Ha; lia). rewrite Ei.
    rewrite (proj2 (pick_other_local _ _ _ _ w _ _ _ Ep) Ha). reflexivity.
Qed.

Lemma sim_test_local A B u k e k' : good A B -> inner u -> sim_test A B u k = Some (e, k') ->
  (k < k')%nat /\ forall w, agree k' w u -> sim_test A B w k = Some (e, k').
Proof.
  intros G Hu H. unfold sim_test in *. destruct (selectRandomPair (N:=RNum) sfuel (rg A) (rg B) (drawn u) k) as [[[i j] k1]| | |] eqn:Es; try discriminate.
  apply select_in in Es as (Hi & Hj & L & Hs); [|assumption|assumption].
  destruct (psim K (db A B) (msv A B) (vel i j) (dd A B) u k1) as [[p k2]|] eqn:Ep; [|discriminate]. injection H as <- <-.
  destruct (g_cs _ _ G i j Hi Hj) as [Hc Hnn].
  pose proof (fun w => psim_local K (db A B) (msv A B) (vel i j) (css A B i j) (dd A B) Hc u w k1 p k2 Ep) as Q. destruct (Q u) as [Lk _].
  split; [lia|]. intros w Ha. rewrite Hs by (eapply agree_le; [|exact Ha]; lia). rewrite (proj2 (Q w) Ha). reflexivity.
Qed.

(** *** What the test of the model does *)
Lemma one_test_sim A B u (s : dstate RNum) : good A B -> inner u -> s_mem s = mem -> s_ranges s = rs ->
  match sim_test A B u (s_pos s) with
  | Some (e, k') => exists s', one_test (N:=RNum) K false sfuel (db A B) (msv A B) A B (drawn u) s = Ok s' /\
      s_mem s' = mem /\ s_ranges s' = rs /\ s_pos s' = k' /\ s_log s' = s_log s ++ [e]
  | None => forall s', one_test (N:=RNum) K false sfuel (db A B) (msv A B) A B (drawn u) s <> Ok s'
  end.
Proof.
  intros G Hu Em Er. unfold sim_test, one_test, oget. rewrite Er, (g_A _ _ G), (g_B _ _ G). cbn [obind].
  destruct (selectRandomPair (N:=RNum) sfuel (rg A) (rg B) (drawn u) (s_pos s)) as [[[i j] k1]| | |] eqn:Es; cbn [obind]; try discriminate.
  apply select_in in Es as (Hi & Hj & L & Hs); [|assumption|assumption].
  destruct (in_mem i _ (g_memA _ _ G) Hi) as (p & Ep). destruct (in_mem j _ (g_memB _ _ G) Hj) as (q & Eq).
  rewrite Em, Ep, Eq. cbn [obind]. destruct (g_cs _ _ G i j Hi Hj) as [Hc Hnn].
  unfold psim, set_interact. cbv zeta. rewrite vabs_relspeed. assert (Ev : vel i j = relspeed (p_vel p) (p_vel q)) by (unfold vel; rewrite Ep, Eq; reflexivity). rewrite <- Ev.
  destruct (calculateOutPath (N:=RNum) K (db A B) (msv A B) (vel i j) (drawn u) k1) as [[[pa sg] k2]| | |] eqn:Eo; cbn [obind fst]; try discriminate.
  assert (Hu1 : forall (a b : particle RNum), a = p -> b = q -> upd j b (upd i a mem) = mem).
  { intros a b -> ->. rewrite (upd_same i p mem Ep). apply upd_same. assumption. }
  destruct (Z.leb_spec 0 pa) as [Lp|Lp].
  - destruct (outpath_spec K (db A B) (msv A B) (vel i j) (drawn u) k1 (css A B i j) Hc Hnn (inner_ok u Hu)) as (pa' & sg' & k2' & Eo' & _ & _ & Hidx & _).
    rewrite Eo in Eo'. injection Eo' as <- <- <-. destruct Hidx as [->|(c & -> & Hcs & _)]; [lia|]. rewrite Nat2Z.id.
    assert (Hcl : (c < length (css A B i j))%nat) by (apply nth_error_Some; rewrite Hcs; discriminate).
    pose proof (F2_length _ _ _ Hc) as Hlen. destruct (nth_error (db A B) c) as [e|] eqn:Ee; [|apply nth_error_None in Ee; lia].
    unfold oget. rewrite ?Ee. cbn [obind]. destruct (g_dd _ _ G c e Ee) as [Hd _].
    assert (Gm : forall (m : imodel RNum) p q l g k a b l' k', model_interact false m p q l g k = Ok (a, b, l', k') -> a = p /\ b = q).
    { clear. intros m p q l g k a b l' k' H. destruct m as [mu|mu al|m|m| |f]; cbn [model_interact] in H; try discriminate;
        apply obind_ok in H as (x & _ & H); repeat (destruct x as [x ?]); injection H as <- <- _ _; auto. }
    destruct (p_species q <? p_species p)%Z.
    + destruct (Hd q p (s_res s) (drawn u) k2) as (b & a & l' & Ei). rewrite Ei. cbn [obind]. apply Gm in Ei as [-> ->]. rewrite Hu1 by reflexivity.
      cbn [negb orb]. eexists. split; [reflexivity|]. cbn [s_mem s_ranges s_pos s_log]. auto.
    + destruct (Hd p q (s_res s) (drawn u) k2) as (a & b & l' & Ei). rewrite Ei. cbn [obind]. apply Gm in Ei as [-> ->]. rewrite Hu1 by reflexivity.
      cbn [negb orb]. eexists. split; [reflexivity|]. cbn [s_mem s_ranges s_pos s_log]. auto.
  - cbn [obind]. rewrite Hu1 by reflexivity. cbn [negb orb]. eexists. split; [reflexivity|]. cbn [s_mem s_ranges s_pos s_log]. rewrite Nat.add_0_r. auto.
Qed.

(** ** The loop over the tests of one pair *)
Fixpoint sim_loop (A B n : nat) (u : nat -> R) (k : nat) : option (list entry * nat) :=
  match n with
  | O => Some ([], k)
  | S n => match sim_test A B u k with
           | Some (e, k1) => match sim_loop A B n u k1 with Some (es, k2) => Some (e :: es, k2) | None => None end
           | None => None
           end
  end.
Lemma sim_loop_local A B u : good A B -> inner u -> forall n k es k', sim_loop A B n u k = Some (es, k') ->
  (k <= k')%nat /\ forall w, inner w -> agree k' w u -> sim_loop A B n w k = Some (es, k').
Proof.
  intros G Hu. induction n as [|n IH]; intros k es k' H; cbn [sim_loop] in *.
  - injection H as <- <-. split; [lia|reflexivity].
  - destruct (sim_test A B u k) as [[e k1]|] eqn:Et; [|discriminate]. apply sim_test_local in Et as [L1 Ht]; [|assumption|assumption].
    destruct (sim_loop A B n u k1) as [[es2 k2]|] eqn:El; [|discriminate]. injection H as <- <-. apply IH in El as [L2 Hl]. split; [lia|].
    intros w Hw Ha. rewrite Ht by (eapply agree_le; [|exact Ha]; lia). rewrite Hl by assumption. reflexivity.
Qed.
Lemma loop_sim A B u : good A B -> inner u -> forall n fuel x (s : dstate RNum), s_mem s = mem -> s_ranges s = rs ->
  (forall i, (i < n)%nat -> (n1 <? dec (N:=RNum) x i)%num = true) -> (n1 <? dec (N:=RNum) x n)%num = false -> (n < fuel)%nat ->
  match sim_loop A B n u (s_pos s) with
  | Some (es, k') => exists s', test_loop (N:=RNum) K fuel false sfuel (db A B) (msv A B) A B x (drawn u) s = Ok s' /\
      s_mem s' = mem /\ s_ranges s' = rs /\ s_pos s' = k' /\ s_log s' = s_log s ++ es
  | None => forall s', test_loop (N:=RNum) K fuel false sfuel (db A B) (msv A B) A B x (drawn u) s <> Ok s'
  end.
Proof.
  intros G Hu. induction n as [|n IH]; intros [|fuel] x s Em Er Hlt Hge Hf; try lia.
  - cbn [sim_loop test_loop]. cbn [dec] in Hge. rewrite Hge. exists s. rewrite app_nil_r. auto.
  - cbn [sim_loop test_loop]. pose proof (Hlt 0%nat ltac:(lia)) as E0. cbn [dec] in E0. rewrite E0.
    unfold oget. rewrite Er, (g_A _ _ G), (g_B _ _ G). cbn [obind].
    assert (En : ((Nat.eqb A B && Nat.ltb (rsize (rg A)) 2) || (Nat.eqb (rsize (rg A)) 0 || Nat.eqb (rsize (rg B)) 0))%bool = false).
    { apply (enough_cond A B rs (rg A) (rg B) (g_A _ _ G) (g_B _ _ G)). exists (rg A), (rg B). split; [apply (g_A _ _ G)|]. split; [apply (g_B _ _ G)|].
      pose proof (g_szA _ _ G). pose proof (g_szB _ _ G). destruct (g_rel _ _ G) as [[-> Hn]|[Hne _]]; [rewrite Nat.eqb_refl; assumption|].
      destruct (Nat.eqb_spec A B); [contradiction|]. lia. }
    rewrite En. pose proof (one_test_sim A B u s G Hu Em Er) as Q. destruct (sim_test A B u (s_pos s)) as [[e k1]|].
    + destruct Q as (s1 & E1 & Em1 & Er1 & Ek1 & El1). rewrite E1. cbn [obind].
      specialize (IH fuel (x - n1)%num s1 Em1 Er1). rewrite Ek1 in IH.
      assert (P1 : forall i, (i < n)%nat -> (n1 <? dec (N:=RNum) (x - n1)%num i)%num = true) by (intros i Hi; rewrite dec_S; apply Hlt; lia).
      assert (P2 : (n1 <? dec (N:=RNum) (x - n1)%num n)%num = false) by (rewrite dec_S; assumption).
      specialize (IH P1 P2 ltac:(lia)). destruct (sim_loop A B n u k1) as [[es k2]|].
      * destruct IH as (s2 & E2 & Em2 & Er2 & Ek2 & El2). exists s2. split; [assumption|]. repeat split; try assumption. rewrite El2, El1, <- app_assoc. reflexivity.
      * exact IH.
    + intros s' H. apply obind_ok in H as (s1 & H1 & _). apply (Q s1). exact H1.
Qed.

Context (phi : entry -> R).
Definition Phi (es : list entry) : R := Rsum (map phi es).
Definition T : nat := (1 + sfuel + (2 + D))%nat.

Lemma qmean_lin A B a b val : good A B -> qmean A B (fun e => a * val e + b) = a * qmean A B val + b.
Proof.
  intros G. unfold qmean. pose proof (g_szA _ _ G) as SA. pose proof (g_szB _ _ G) as SB. assert (0 < INR (rsize (rg A))) by (apply lt_0_INR; lia).
  erewrite (Rsum_ext _ (fun i => a * umean (rg B) i (fun j => pmean (msv A B) (vel i j) (css A B i j) (fun p => val (A, B, (i, j), p))) + b * 1)).
  - rewrite Rsum_lin, Rsum_const, seq_length. field. lra.
  - intros i Hi. apply in_seq in Hi. assert (Hia : in_range i (rg A)) by (unfold in_range, rsize in *; lia).
    unfold umean. assert (Hlen : (0 < length (others (rg B) i))%nat).
    { unfold others. pose proof (filter_split (Nat.eqb i) (seq (fst (rg B)) (rsize (rg B)))) as Q. rewrite seq_length in Q.
      destruct (g_rel _ _ G) as [[-> Hn]|[Hne Hd]].
      - rewrite count_seq_in in Q; [lia|]. unfold in_range, rsize in *. cbn. lia.
      - rewrite count_seq_out in Q; [lia|]. intros H1. apply (Hd i Hia). unfold in_range, rsize in *. cbn in *. lia. }
    assert (0 < INR (length (others (rg B) i))) by (apply lt_0_INR; assumption).
    erewrite (Rsum_ext _ (fun j => a * pmean (msv A B) (vel i j) (css A B i j) (fun p => val (A, B, (i, j), p)) + b * 1)).
    + rewrite Rsum_lin, Rsum_const. field. lra.
    + intros j Hj. unfold others in Hj. apply filter_In in Hj as [Hj _]. apply in_seq in Hj. rewrite Rmult_1_r.
      destruct (g_cs _ _ G i j) as [Hc Hnn]; [assumption|unfold in_range, rsize in *; lia|]. apply pmean_lin. assumption.
Qed.

Lemma loop_ev A B : good A B -> forall n Bu F k u a b, inner u ->
  (forall w es k', inner w -> agree k w u -> sim_loop A B n w k = Some (es, k') -> ev Bu k' F w (a * Phi es + b)) ->
  (forall w, inner w -> agree k w u -> sim_loop A B n w k = None -> F w = 0) ->
  ev (n * T + Bu) k F u (rr A B ^ n * (a * (INR n * qmean A B phi) + b)).
Proof.
  intros G. induction n as [|n IH]; intros Bu F k u a b Hu H H0.
  - cbn [Nat.mul Nat.add pow INR]. replace (1 * (a * (0 * qmean A B phi) + b)) with (a * Phi [] + b) by (unfold Phi; cbn [map Rsum]; ring).
    apply (H u [] k); [assumption|apply agree_refl|reflexivity].
  - replace (rr A B ^ S n * (a * (INR (S n) * qmean A B phi) + b))
      with (rr A B * qmean A B (fun e => rr A B ^ n * a * phi e + rr A B ^ n * (a * (INR n * qmean A B phi) + b)))
      by (rewrite qmean_lin by assumption; rewrite S_INR; cbn [pow]; ring).
    replace (S n * T + Bu)%nat with (1 + sfuel + (2 + D) + (n * T + Bu))%nat by (unfold T; lia).
    apply test_ev; [assumption|assumption| |].
    + intros w e k1 Hw Ha Et. pose proof (sim_test_local _ _ _ _ _ _ G Hw Et) as [L1 Ht].
      replace (rr A B ^ n * a * phi e + rr A B ^ n * (a * (INR n * qmean A B phi) + b))
        with (rr A B ^ n * (a * (INR n * qmean A B phi) + (a * phi e + b))) by ring.
      apply IH; [assumption| |].
      * intros z es k' Hz Haz El. replace (a * Phi es + (a * phi e + b)) with (a * Phi (e :: es) + b) by (unfold Phi; cbn [map Rsum]; ring).
        apply H; [assumption| |].
        -- eapply agree_trans; [eapply agree_le; [|exact Haz]; lia|assumption].
        -- cbn [sim_loop]. rewrite (Ht z Haz), El. reflexivity.
      * intros z Hz Haz El. apply H0; [assumption| |].
        -- eapply agree_trans; [eapply agree_le; [|exact Haz]; lia|assumption].
        -- cbn [sim_loop]. rewrite (Ht z Haz), El. reflexivity.
    + intros w Hw Ha Et. apply H0; [assumption|assumption|]. cbn [sim_loop]. rewrite Et. reflexivity.
Qed.

(** ** The second pass *)
Definition item := (nat * nat * nat)%type.
Definition good_item (o : item) : Prop := snd o = 0%nat \/ good (fst (fst o)) (snd (fst o)).
Fixpoint sim_second (l : list item) (u : nat -> R) (k : nat) : option (list entry * nat) :=
  match l with
  | [] => Some ([], k)
  | (A, B, n) :: l => match sim_loop A B n u k with
      | Some (es, k1) => match sim_second l u k1 with Some (es2, k2) => Some (es ++ es2, k2) | None => None end
      | None => None end
  end.
Fixpoint Rl (l : list item) : R := match l with [] => 1 | (A, B, n) :: l => rr A B ^ n * Rl l end.
Fixpoint Ql (l : list item) : R := match l with [] => 0 | (A, B, n) :: l => INR n * qmean A B phi + Ql l end.
Fixpoint Nl (l : list item) : nat := match l with [] => 0 | (A, B, n) :: l => n + Nl l end.

Lemma sim_second_local u : inner u -> forall l, List.Forall good_item l -> forall k es k', sim_second l u k = Some (es, k') ->
  (k <= k')%nat /\ forall w, inner w -> agree k' w u -> sim_second l w k = Some (es, k').
Proof.
  intros Hu. induction l as [|[[A B] n] l IH]; intros Hg k es k' H; cbn [sim_second] in *.
  - injection H as <- <-. split; [lia|reflexivity].
  - inversion Hg as [|? ? G Hl]; subst. destruct (sim_loop A B n u k) as [[es1 k1]|] eqn:El; [|discriminate].
    destruct (sim_second l u k1) as [[es2 k2]|] eqn:E2; [|discriminate]. injection H as <- <-. apply IH in E2 as [L2 H2]; [|assumption].
    assert (Lc : (k <= k1)%nat /\ forall z, inner z -> agree k1 z u -> sim_loop A B n z k = Some (es1, k1)).
    { destruct G as [E0|G]; cbn [fst snd] in *; [subst n; cbn [sim_loop] in *; injection El as <- <-; split; [lia|reflexivity]|].
      apply sim_loop_local; assumption. }
    destruct Lc as [L1 H1]. split; [lia|]. intros w Hw Ha. rewrite H1 by (assumption || (eapply agree_le; [|exact Ha]; lia)).
    rewrite H2 by assumption. reflexivity.
Qed.
Lemma second_ev : forall l Bu F k u b, List.Forall good_item l -> inner u ->
  (forall w es k', inner w -> agree k w u -> sim_second l w k = Some (es, k') -> ev Bu k' F w (Phi es + b)) ->
  (forall w, inner w -> agree k w u -> sim_second l w k = None -> F w = 0) ->
  ev (Nl l * T + Bu) k F u (Rl l * (Ql l + b)).
Proof.
  induction l as [|[[A B] n] l IH]; intros Bu F k u b Hg Hu H H0.
  - cbn [Nl Nat.mul Nat.add Rl Ql]. replace (1 * (0 + b)) with (Phi [] + b) by (unfold Phi; cbn [map Rsum]; ring).
    apply (H u [] k); [assumption|apply agree_refl|reflexivity].
  - inversion Hg as [|? ? G Hl]; subst. cbn [Nl Rl Ql].
    replace (rr A B ^ n * Rl l * (INR n * qmean A B phi + Ql l + b)) with (rr A B ^ n * (Rl l * (INR n * qmean A B phi) + Rl l * (Ql l + b))) by ring.
    replace ((n + Nl l) * T + Bu)%nat with (n * T + (Nl l * T + Bu))%nat by lia.
    assert (Step : (forall w es k', inner w -> agree k w u -> sim_loop A B n w k = Some (es, k') -> ev (Nl l * T + Bu) k' F w (Rl l * Phi es + Rl l * (Ql l + b)))).
    { intros w es k1 Hw Ha El.
      assert (Lc : (k <= k1)%nat /\ forall z, inner z -> agree k1 z w -> sim_loop A B n z k = Some (es, k1)).
      { destruct G as [E0|G]; cbn [fst snd] in *; [subst n; cbn [sim_loop] in *; injection El as <- <-; split; [lia|reflexivity]|].
        apply sim_loop_local; assumption. }
      destruct Lc as [Lk Hloc]. replace (Rl l * Phi es + Rl l * (Ql l + b)) with (Rl l * (Ql l + (Phi es + b))) by ring.
      apply IH; [assumption|assumption| |].
      - intros z es2 k2 Hz Haz E2. replace (Phi es2 + (Phi es + b)) with (Phi (es ++ es2) + b) by (unfold Phi; rewrite map_app, Rsum_app; ring).
        apply H; [assumption| |].
        + eapply agree_trans; [eapply agree_le; [|exact Haz]; lia|assumption].
        + cbn [sim_second]. rewrite (Hloc z Hz Haz), E2. reflexivity.
      - intros z Hz Haz E2. apply H0; [assumption| |].
        + eapply agree_trans; [eapply agree_le; [|exact Haz]; lia|assumption].
        + cbn [sim_second]. rewrite (Hloc z Hz Haz), E2. reflexivity. }
    destruct G as [E0|G]; cbn [fst snd] in *.
    + subst n. cbn [Nat.mul Nat.add pow INR]. replace (1 * (Rl l * (0 * qmean A B phi) + Rl l * (Ql l + b))) with (Rl l * Phi [] + Rl l * (Ql l + b)) by (unfold Phi; cbn [map Rsum]; ring).
      apply (Step u [] k); [assumption|apply agree_refl|reflexivity].
    + apply loop_ev; [assumption|assumption|exact Step|]. intros w Hw Ha El. apply H0; [assumption|assumption|]. cbn [sim_second]. rewrite El. reflexivity.
Qed.
End Run.
