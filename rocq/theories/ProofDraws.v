(** Proofs about the draws of a run. *)
From Coq Require Import List ZArith Arith Lia Bool Permutation.
From Verif Require Import Base Num ModelTerm ModelCollide ModelSet SpecSet SpecFrame SpecDraws ProofCollide ProofInelastic ProofSet ProofDriver ProofDriver2 ProofDriver3 ProofFrame.
From Coq Require Import List.
Import ListNotations.

Lemma nodup_prod {A B} (l : list A) (m : list B) : NoDup l -> NoDup m -> NoDup (list_prod l m).
Proof.
  intros Hl Hm. induction Hl as [|x l Hx Hl IH]; cbn [list_prod]; [constructor|].
  assert (G : forall m', NoDup m' -> NoDup (map (fun y => (x, y)) m' ++ list_prod l m)).
  { intros m' H'. induction H' as [|y m' Hy H' IH']; cbn [map app]; [exact IH|]. constructor; [|exact IH'].
    rewrite in_app_iff, in_map_iff, in_prod_iff. intros [(z & E & Hz)|[Hl' _]]; [injection E as ->; contradiction|contradiction]. }
  apply G, Hm.
Qed.

Section Draws.
Context {N : Num}.
Variable K : N.
Implicit Types (g : rng N) (k n : nat).

Lemma draws_le g k g' k' n m : same_draws g k g' k' n -> (m <= n)%nat -> same_draws g k g' k' m.
Proof. intros H L i Hi. apply H. lia. Qed.
Lemma draws_from g k g' k' n a : same_draws g k g' k' n -> (a <= n)%nat -> same_draws g (k + a) g' (k' + a) (n - a).
Proof. intros H L i Hi. rewrite <- !Nat.add_assoc. apply H. lia. Qed.
Lemma draw_rand g k g' k' n i : same_draws g k g' k' n -> (i < n)%nat -> g_rand g' (k' + i) = g_rand g (k + i).
Proof. intros H L. symmetry. apply H, L. Qed.
Lemma draw_0 g k g' k' n : same_draws g k g' k' n -> (0 < n)%nat -> g_rand g' k' = g_rand g k /\ g_exc g' k' = g_exc g k.
Proof. intros H L. destruct (H 0%nat L) as [A B]. rewrite !Nat.add_0_r in A, B. split; symmetry; assumption. Qed.

Lemma pick_other_draws fuel pA r g : forall k pB k1, pick_other fuel pA r g k = Ok (pB, k1) ->
  (k < k1)%nat /\ forall g' k', same_draws g k g' k' (k1 - k) -> pick_other fuel pA r g' k' = Ok (pB, (k' + (k1 - k))%nat).
Proof.
  induction fuel as [|fuel IH]; intros k pB k1 E; [discriminate|]. cbn [pick_other] in *. apply obind_ok in E as (x & Ex & E).
  assert (R : forall g' k', g_exc g' k' = g_exc g k -> rand_pos r g' k' = Ok x) by (intros g' k' H; unfold rand_pos in *; now rewrite H).
  destruct (Nat.eqb pA x) eqn:Eq.
  - apply IH in E as [L E]. split; [lia|]. intros g' k' S. destruct (draw_0 _ _ _ _ _ S) as [_ D]; [lia|]. rewrite (R g' k' D). cbn [obind]. rewrite Eq.
    rewrite E; [do 2 f_equal; lia|]. apply draws_le with (n := (k1 - k - 1)%nat); [|lia]. apply draws_from; [exact S|lia].
  - injection E as <- <-. split; [lia|]. intros g' k' S. destruct (draw_0 _ _ _ _ _ S) as [_ D]; [lia|]. rewrite (R g' k' D). cbn [obind]. rewrite Eq. do 2 f_equal. lia.
Qed.
Lemma select_draws fuel ra rb g k i j k1 : selectRandomPair fuel ra rb g k = Ok (i, j, k1) ->
  (k + 2 <= k1)%nat /\ forall g' k', same_draws g k g' k' (k1 - k) -> selectRandomPair fuel ra rb g' k' = Ok (i, j, (k' + (k1 - k))%nat).
Proof.
  unfold selectRandomPair. intros E. apply obind_ok in E as (x & Ex & E). apply obind_ok in E as ([pB k2] & E2 & E). injection E as <- <- <-.
  apply pick_other_draws in E2 as [L E2]. split; [lia|]. intros g' k' S. destruct (draw_0 _ _ _ _ _ S) as [_ D]; [lia|].
  assert (R : rand_pos ra g' k' = Ok x) by (unfold rand_pos in *; now rewrite D). rewrite R. cbn [obind].
  rewrite E2; [cbn [obind]; do 2 f_equal; lia|]. apply draws_le with (n := (k2 - k - 1)%nat); [|lia]. apply draws_from; [exact S|lia].
Qed.
Lemma outpath_draws rhs mx v g k j c k1 : calculateOutPath K rhs mx v g k = Ok (j, c, k1) ->
  (k1 = (k + 1)%nat /\ j = (-1)%Z \/ k1 = (k + 2)%nat) /\ forall g' k', same_draws g k g' k' (k1 - k) -> calculateOutPath K rhs mx v g' k' = Ok (j, c, (k' + (k1 - k))%nat).
Proof.
  unfold calculateOutPath. intros E. apply obind_ok in E as (cs & Ec & E). cbv zeta in E. rewrite Ec. cbn [obind]. cbv zeta.
  destruct (_ <? _)%num eqn:Ea.
  - injection E as <- <- <-. split; [left; auto|]. intros g' k' S. destruct (draw_0 _ _ _ _ _ S) as [D _]; [lia|]. rewrite D, Ea. do 2 f_equal. lia.
  - injection E as E <-. split; [right; reflexivity|]. intros g' k' S. destruct (draw_0 _ _ _ _ _ S) as [D _]; [lia|]. rewrite D, Ea.
    destruct (S 1%nat ltac:(lia)) as [_ D1]. rewrite <- D1, E. do 2 f_equal. lia.
Qed.
Lemma model_draws i (q : equation N) a b l g k a' b' l' k1 : library_model q -> model_interact i (q_model q) a b l g k = Ok (a', b', l', k1) ->
  k1 = (k + draws_of q)%nat /\ forall g' k', same_draws g k g' k' (draws_of q) -> model_interact i (q_model q) a b l g' k' = Ok (a', b', l', (k' + draws_of q)%nat).
Proof.
  unfold library_model, draws_of. intros HL E. destruct (q_model q) as [mu|mu al|m|m| |f]; try contradiction.
  - unfold model_interact in *. split.
    + destruct i; [destruct (elastic_collide _ _ _ _ _); now injection E as <- <- <- <-|]. apply obind_ok in E as (x & _ & E). now injection E as <- <- <- <-.
    + intros g' k' S. destruct (draw_0 _ _ _ _ _ S) as [D _]; [lia|]. pose proof (draw_rand _ _ _ _ _ 1 S ltac:(lia)) as D1. rewrite D, D1.
      destruct i; [destruct (elastic_collide _ _ _ _ _); now injection E as <- <- <- <-|]. apply obind_ok in E as (x & Ex & E). rewrite Ex. now injection E as <- <- <- <-.
  - unfold model_interact in *. split.
    + destruct i; [destruct (vss_collide _ _ _ _ _ _); now injection E as <- <- <- <-|]. apply obind_ok in E as (x & _ & E). now injection E as <- <- <- <-.
    + intros g' k' S. destruct (draw_0 _ _ _ _ _ S) as [D _]; [lia|]. pose proof (draw_rand _ _ _ _ _ 1 S ltac:(lia)) as D1. rewrite D, D1.
      destruct i; [destruct (vss_collide _ _ _ _ _ _); now injection E as <- <- <- <-|]. apply obind_ok in E as (x & Ex & E). rewrite Ex. now injection E as <- <- <- <-.
  - cbn [model_interact] in *. apply obind_ok in E as ([x k2] & E & E2). injection E2 as <- <- <- <-. unfold interact22 in *. cbv zeta in *.
    split.
    + do 4 apply obind_ok in E as (? & _ & E). destruct (vel22 _ _ _ _ _). repeat (apply obind_ok in E as (? & _ & E)). now injection E as _ <-.
    + intros g' k' S. destruct (draw_0 _ _ _ _ _ S) as [D _]; [lia|]. pose proof (draw_rand _ _ _ _ _ 1 S ltac:(lia)) as D1. rewrite D, D1.
      do 4 (let y := fresh "y" in let Ey := fresh "Ey" in apply obind_ok in E as (y & Ey & E); rewrite Ey; cbn [obind]).
      destruct (vel22 _ _ _ _ _). repeat (let y := fresh "y" in let Ey := fresh "Ey" in apply obind_ok in E as (y & Ey & E); rewrite Ey; cbn [obind]).
      now injection E as <- <-.
  - cbn [model_interact] in *. apply obind_ok in E as ([x k2] & E & E2). injection E2 as <- <- <- <-. unfold interact23 in *. cbv zeta in *.
    split.
    + do 6 apply obind_ok in E as (? & _ & E). destruct (vel23 _ _ _ _ _ _ _ _) as [[? ?] ?]. repeat (apply obind_ok in E as (? & _ & E)). now injection E as _ <-.
    + intros g' k' S. destruct (draw_0 _ _ _ _ _ S) as [D _]; [lia|].
      pose proof (draw_rand _ _ _ _ _ 1 S ltac:(lia)) as D1. pose proof (draw_rand _ _ _ _ _ 2 S ltac:(lia)) as D2.
      pose proof (draw_rand _ _ _ _ _ 3 S ltac:(lia)) as D3. pose proof (draw_rand _ _ _ _ _ 4 S ltac:(lia)) as D4. rewrite D, D1, D2, D3, D4.
      do 6 (let y := fresh "y" in let Ey := fresh "Ey" in apply obind_ok in E as (y & Ey & E); rewrite Ey; cbn [obind]).
      destruct (vel23 _ _ _ _ _ _ _ _) as [[? ?] ?]. repeat (let y := fresh "y" in let Ey := fresh "Ey" in apply obind_ok in E as (y & Ey & E); rewrite Ey; cbn [obind]).
      now injection E as <- <-.
  - discriminate.
Qed.
(** Draws of a test after the choice of the pair. *)
Definition after_pair (rhs : list (equation N)) (j : Z) : nat :=
  if (j <? 0)%Z then 1 else 2 + match nth_error rhs (Z.to_nat j) with Some q => draws_of q | None => 0 end.
Lemma set_draws i rhs mx a b l g k path a' b' l' k1 : List.Forall library_model rhs -> set_interact K i rhs mx a b l g k = Ok (path, a', b', l', k1) ->
  (k + after_pair rhs (fst path) <= k1)%nat /\
  forall g' k', same_draws g k g' k' (k1 - k) -> set_interact K i rhs mx a b l g' k' = Ok (path, a', b', l', (k' + (k1 - k))%nat).
Proof.
  intros HL E. unfold set_interact in *. apply obind_ok in E as ([[j c] k2] & Ep & E). apply outpath_draws in Ep as [Hk Ep].
  cbn [fst] in E. destruct (Z.leb_spec 0 j) as [Hj|Hj].
  - apply obind_ok in E as (e & Ee & E).
    assert (He : nth_error rhs (Z.to_nat j) = Some e) by (unfold oget in Ee; destruct (nth_error _ _); [now injection Ee as ->|discriminate]).
    assert (Le : library_model e) by (rewrite List.Forall_forall in HL; apply HL; eapply nth_error_In; exact He).
    destruct Hk as [[_ ->]|Hk]; [lia|].
    assert (A : k1 = (k2 + draws_of e)%nat /\ path = (j, c) /\ forall g' k', same_draws g k2 g' k' (draws_of e) ->
       (if (p_species b <? p_species a)%Z then do (b, a, l, k) <- model_interact i (q_model e) b a l g' k'; Ok ((j, c), a, b, l, k)
        else do (a, b, l, k) <- model_interact i (q_model e) a b l g' k'; Ok ((j, c), a, b, l, k)) = Ok (path, a', b', l', (k' + draws_of e)%nat)).
    { destruct (p_species b <? p_species a)%Z; apply obind_ok in E as ([[[x y] l2] k3] & Em & E); injection E as <- <- <- <- <-;
        apply model_draws in Em as [-> Em]; try exact Le; (split; [reflexivity|]; split; [reflexivity|]; intros g' k' S; now rewrite (Em g' k' S)). }
    destruct A as (-> & -> & A). cbn [fst]. unfold after_pair. replace (j <? 0)%Z with false by (symmetry; apply Z.ltb_ge; exact Hj). rewrite He. split; [lia|].
    intros g' k' S. rewrite (Ep g' k'); [|apply draws_le with (1 := S); lia]. cbn [obind fst]. replace (0 <=? j)%Z with true by (symmetry; apply Z.leb_le; exact Hj).
    rewrite Ee. cbn [obind]. rewrite (A g' (k' + (k2 - k))%nat); [do 2 f_equal; lia|].
    replace k2 with (k + (k2 - k))%nat at 1 by lia. apply draws_le with (n := (k2 + draws_of e - k - (k2 - k))%nat); [|lia]. apply draws_from; [exact S|lia].
  - injection E as <- <- <- <- <-. cbn [fst]. unfold after_pair. replace (j <? 0)%Z with true by (symmetry; apply Z.ltb_lt; exact Hj). split; [lia|].
    intros g' k' S. rewrite (Ep g' k' S). cbn [obind fst]. replace (0 <=? j)%Z with false by (symmetry; apply Z.leb_gt; exact Hj). reflexivity.
Qed.
Lemma retval_at A B pr s k : retval_inplace A B pr (at_pos s k) = result_of (fun s => at_pos s k) (retval_inplace (N:=N) A B pr s).
Proof.
  unfold retval_inplace. cbn [at_pos s_ranges s_mem s_erase s_res s_log s_pos]. rewrite bind_result. apply bind_ext. intros ra _. cbv zeta.
  destruct (Nat.eqb (snd pr) _).
  - destruct (Nat.eqb A B); [|reflexivity]. rewrite bind_result. apply bind_ext. intros p _. rewrite bind_result. apply bind_ext. intros rb _. reflexivity.
  - rewrite bind_result. apply bind_ext. intros p _. rewrite bind_result. apply bind_ext. intros rb _. rewrite bind_result. apply bind_ext. intros p2 _. reflexivity.
Qed.
Lemma retval_pos A B pr (s s1 : dstate N) : retval_inplace A B pr s = Ok s1 -> s_pos s1 = s_pos s /\ s_log s1 = s_log s.
Proof.
  unfold retval_inplace. intros E. apply obind_ok in E as (ra & _ & E). cbv zeta in E. destruct (Nat.eqb (snd pr) _).
  - destruct (Nat.eqb A B); [|discriminate]. do 2 apply obind_ok in E as (? & _ & E). now injection E as <-.
  - do 3 apply obind_ok in E as (? & _ & E). now injection E as <-.
Qed.
Lemma test_draws_ok i sf rhs mx A B g s s1 : List.Forall library_model rhs -> one_test K i sf rhs mx A B g s = Ok s1 ->
  (exists pr j, s_log s1 = s_log s ++ [(A, B, pr, j)] /\ (s_pos s + 2 + after_pair rhs j <= s_pos s1)%nat) /\
  forall g' k', same_draws g (s_pos s) g' k' (s_pos s1 - s_pos s) -> one_test K i sf rhs mx A B g' (at_pos s k') = Ok (at_pos s1 (k' + (s_pos s1 - s_pos s))).
Proof.
  intros HL E. unfold one_test in *. apply obind_ok in E as (ra & Ea & E). apply obind_ok in E as (rb & Eb & E).
  apply obind_ok in E as ([[x y] k1] & Es & E). apply select_draws in Es as [L1 Es].
  apply obind_ok in E as (pA & EA & E). apply obind_ok in E as (pB & EB & E). apply obind_ok in E as ([[[[path a] b] l] k2] & Ei & E).
  apply set_draws in Ei as [L2 Ei]; [|exact HL]. cbv zeta in E.
  assert (P : s_pos s1 = k2 /\ s_log s1 = s_log s ++ [(A, B, (x, y), fst path)]).
  { destruct (_ || _)%bool in E; [now injection E as <-|]. apply retval_pos in E. exact E. }
  destruct P as [P Lg]. split; [exists (x, y), (fst path); split; [exact Lg|lia]|].
  intros g' k' S. cbn [at_pos s_ranges s_mem s_res s_pos s_erase s_log]. rewrite Ea, Eb. cbn [obind].
  rewrite (Es g' k'); [|apply draws_le with (1 := S); lia]. cbn [obind]. rewrite EA, EB. cbn [obind].
  rewrite (Ei g' (k' + (k1 - s_pos s))%nat).
  2: { replace k1 with (s_pos s + (k1 - s_pos s))%nat at 1 by lia. apply draws_le with (n := (s_pos s1 - s_pos s - (k1 - s_pos s))%nat); [|lia]. apply draws_from; [exact S|lia]. }
  cbn [obind]. replace (k' + (k1 - s_pos s) + (k2 - k1))%nat with (k' + (s_pos s1 - s_pos s))%nat by lia.
  set (s2 := mkState (upd y b (upd x a (s_mem s))) (s_ranges s) l (s_erase s) k2 (s_log s ++ [(A, B, (x, y), fst path)])) in *.
  change (mkState (upd y b (upd x a (s_mem s))) (s_ranges s) l (s_erase s) (k' + (s_pos s1 - s_pos s))%nat (s_log s ++ [(A, B, (x, y), fst path)])) with (at_pos s2 (k' + (s_pos s1 - s_pos s))%nat).
  destruct (_ || _)%bool; [injection E as E; rewrite E; reflexivity|]. rewrite retval_at, E. reflexivity.
Qed.
Definition least (db : nat -> nat -> list (equation N)) (l : list (nat * nat * (nat * nat) * Z)) : nat := list_sum (map (test_draws db) l).
Lemma loop_draws i sf db mx A B g : List.Forall library_model (db A B) -> forall fuel x s s1, test_loop K fuel i sf (db A B) mx A B x g s = Ok s1 ->
  (exists new, s_log s1 = s_log s ++ new /\ (s_pos s + least db new <= s_pos s1)%nat) /\
  forall g' k', same_draws g (s_pos s) g' k' (s_pos s1 - s_pos s) -> test_loop K fuel i sf (db A B) mx A B x g' (at_pos s k') = Ok (at_pos s1 (k' + (s_pos s1 - s_pos s))).
Proof.
  intros HL. assert (Q : forall (s : dstate N) k', at_pos s k' = at_pos s (k' + (s_pos s - s_pos s))) by (intros; f_equal; lia).
  assert (Q0 : forall s : dstate N, exists new, s_log s = s_log s ++ new /\ (s_pos s + least db new <= s_pos s)%nat) by (intros s; exists []; rewrite app_nil_r; split; [reflexivity|cbn; lia]).
  induction fuel as [|fuel IH]; intros x s s1 E; [discriminate|]. cbn [test_loop] in *. destruct (n1 <? x)%num; [|injection E as <-; split; [apply Q0|intros; now rewrite <- Q]].
  apply obind_ok in E as (ra & Ea & E). apply obind_ok in E as (rb & Eb & E). cbn [at_pos s_ranges]. rewrite Ea, Eb. cbn [obind].
  destruct (_ || _)%bool; [injection E as <-; split; [apply Q0|intros; now rewrite <- Q]|].
  apply obind_ok in E as (s2 & E2 & E). apply test_draws_ok in E2 as [(pr & j & Lg & L2) E2]; [|exact HL]. apply IH in E as [(new & Ln & L) E].
  split.
  { exists ((A, B, pr, j) :: new). split; [rewrite Ln, Lg, <- app_assoc; reflexivity|]. unfold least in *. cbn [map list_sum fold_right test_draws].
    unfold after_pair in L2. fold (list_sum (map (test_draws db) new)). destruct (j <? 0)%Z; lia. }
  intros g' k' S. rewrite (E2 g' k'); [|apply draws_le with (1 := S); lia]. cbn [obind]. rewrite (E g' (k' + (s_pos s2 - s_pos s))%nat); [do 2 f_equal; lia|].
  replace (s_pos s2) with (s_pos s + (s_pos s2 - s_pos s))%nat at 1 by lia. apply draws_le with (n := (s_pos s1 - s_pos s - (s_pos s2 - s_pos s))%nat); [|lia]. apply draws_from; [exact S|lia].
Qed.
Lemma least_app db a b : least db (a ++ b) = (least db a + least db b)%nat.
Proof. unfold least. now rewrite map_app, list_sum_app. Qed.
Lemma second_draws i db g fuel : forall l, (forall ct, In ct l -> List.Forall library_model (db (ct_A ct) (ct_B ct))) -> forall s s1, second_pass K fuel i db g l s = Ok s1 ->
  (exists new, s_log s1 = s_log s ++ new /\ (s_pos s + least db new <= s_pos s1)%nat) /\
  forall g' k', same_draws g (s_pos s) g' k' (s_pos s1 - s_pos s) -> second_pass K fuel i db g' l (at_pos s k') = Ok (at_pos s1 (k' + (s_pos s1 - s_pos s))).
Proof.
  unfold second_pass. induction l as [|ct l IH]; intros H s s1 E.
  - injection E as <-. split; [exists []; rewrite app_nil_r; split; [reflexivity|cbn; lia]|]. intros g' k' _. cbn [ofold]. do 2 f_equal. lia.
  - cbn [ofold] in *. apply obind_ok in E as (s2 & E2 & E). apply loop_draws in E2 as [(n1 & Lg & L2) E2]; [|apply H; left; reflexivity].
    apply IH in E as [(n2 & Ln & L) E]; [|intros; apply H; right; assumption]. split.
    { exists (n1 ++ n2). split; [rewrite Ln, Lg, <- app_assoc; reflexivity|]. rewrite least_app. lia. }
    intros g' k' S. rewrite (E2 g' k'); [|apply draws_le with (1 := S); lia]. cbn [obind]. rewrite (E g' (k' + (s_pos s2 - s_pos s))%nat); [do 2 f_equal; lia|].
    replace (s_pos s2) with (s_pos s + (s_pos s2 - s_pos s))%nat at 1 by lia. apply draws_le with (n := (s_pos s1 - s_pos s - (s_pos s2 - s_pos s))%nat); [|lia]. apply draws_from; [exact S|lia].
Qed.
Lemma first_draws db dt (c : cell N) g : forall ps k l k1, first_pass K db dt c g k ps = Ok (l, k1) ->
  k1 = (k + length (filter (has_eqs db) ps))%nat /\ forall g' k', same_draws g k g' k' (k1 - k) -> first_pass K db dt c g' k' ps = Ok (l, (k' + (k1 - k))%nat).
Proof.
  induction ps as [|[A B] ps IH]; intros k l k1 E; cbn [first_pass] in E |- *.
  - injection E as <- <-. split; [cbn; lia|]. intros. do 2 f_equal. lia.
  - apply obind_ok in E as (ra & Ea & E). apply obind_ok in E as (rb & Eb & E). rewrite Ea, Eb. cbn [obind filter]. unfold has_eqs at 1. cbn [fst snd]. destruct (db A B) as [|q rhs] eqn:Ed.
    + apply IH in E. exact E.
    + apply obind_ok in E as (msv & Em & E). apply obind_ok in E as (wA & EA & E). apply obind_ok in E as (wB & EB & E). cbv zeta in E. apply obind_ok in E as ([l2 k2] & E & E2). injection E2 as <- <-.
      apply IH in E as [-> E]. cbn [length]. split; [lia|]. intros g' k' S. rewrite Em. cbn [obind]. rewrite EA, EB. cbn [obind]. cbv zeta.
      rewrite (E g' (k' + 1)%nat); [|apply draws_le with (n := (k + 1 + length (filter (has_eqs db) ps) - k - 1)%nat); [|lia]; apply draws_from; [exact S|lia]].
      destruct (draw_0 _ _ _ _ _ S) as [D _]; [lia|]. rewrite D. cbn [obind]. do 2 f_equal. lia.
Qed.
Lemma driver_draws fuel i dt (c : cell N) nprops db res er g k s :
  (forall A B, (A <= B)%nat -> List.Forall library_model (db A B)) -> driver K fuel i dt c nprops db res er g k = Ok s ->
  (k + length (filter (has_eqs db) (species_pairs (Nat.min (length (c_ranges c)) nprops))) + least db (s_log s) <= s_pos s)%nat /\
  forall g' k', same_draws g k g' k' (s_pos s - k) -> driver K fuel i dt c nprops db res er g' k' = Ok (at_pos s (k' + (s_pos s - k))).
Proof.
  intros H E. unfold driver in *. cbv zeta in *. apply obind_ok in E as ([l k1] & E1 & E).
  destruct (first_pass_ok K db dt c g _ _ _ _ E1) as [Hm _].
  assert (Hl : forall ct, In ct l -> List.Forall library_model (db (ct_A ct) (ct_B ct))).
  { intros ct Hc. apply H. assert (Hp : In (ct_A ct, ct_B ct) (filter (has_eqs db) (species_pairs (Nat.min (length (c_ranges c)) nprops)))) by (rewrite <- Hm; apply in_map_iff; exists ct; auto).
    apply filter_In in Hp as [Hp _]. apply species_pairs_in in Hp. lia. }
  apply first_draws in E1 as [Ek E1]. apply second_draws in E as [(new & Lg & L) E]; [|exact Hl]. cbn [s_pos s_log app] in *. subst new.
  split; [lia|]. intros g' k' S. rewrite (E1 g' k'); [|apply draws_le with (1 := S); lia]. cbn [obind].
  change (mkState (c_mem c) (c_ranges c) res er (k' + (k1 - k))%nat []) with (at_pos (mkState (c_mem c) (c_ranges c) res er k1 []) (k' + (k1 - k))%nat).
  rewrite (E g' (k' + (k1 - k))%nat); [do 2 f_equal; lia|].
  replace k1 with (k + (k1 - k))%nat at 1 by lia. apply draws_le with (n := (s_pos s - k - (k1 - k))%nat); [|lia]. apply draws_from; [exact S|lia].
Qed.
Lemma pairs_count n (db : nat -> nat -> list (equation N)) : length (filter (has_eqs db) (species_pairs n)) = channel_pairs n db.
Proof.
  unfold channel_pairs. apply Permutation_length.
  assert (P : Permutation (species_pairs n) (filter (fun p => Nat.leb (fst p) (snd p)) (list_prod (seq 0 n) (seq 0 n)))).
  { apply NoDup_Permutation.
    - apply species_pairs_nodup.
    - apply NoDup_filter. apply nodup_prod; apply seq_NoDup.
    - intros [A B]. rewrite species_pairs_in, filter_In, in_prod_iff, !in_seq. cbn [fst snd]. rewrite Nat.leb_le. lia. }
  transitivity (filter (has_eqs db) (filter (fun p => Nat.leb (fst p) (snd p)) (list_prod (seq 0 n) (seq 0 n)))).
  - revert P. generalize (species_pairs n). generalize (filter (fun p => Nat.leb (fst p) (snd p)) (list_prod (seq 0 n) (seq 0 n))).
    intros l l' P. induction P as [|x a b P IH|x y a|a b c P IH P2 IH2]; cbn [filter].
    + constructor.
    + destruct (has_eqs db x); [constructor; exact IH|exact IH].
    + destruct (has_eqs db x), (has_eqs db y); try reflexivity. apply perm_swap.
    + eapply Permutation_trans; eassumption.
  - apply Permutation_refl'. apply filter_ext. intros [A B]. reflexivity.
Qed.
End Draws.
