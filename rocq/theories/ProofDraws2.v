(** At most how many draws a run makes when only particles of different species collide. *)
From Coq Require Import List ZArith Arith Lia Bool Permutation.
From Verif Require Import Base Num ModelTerm ModelCollide ModelSet SpecSet SpecFrame SpecDraws ProofCollide ProofInelastic ProofSet ProofDriver ProofDriver2 ProofDriver3 ProofFrame ProofDraws.
From Coq Require Import List.
Import ListNotations.

Section Most.
Context {N : Num}.
Variables (K : N) (i : bool) (g : rng N) (bnd : Z) (rs0 : list range) (db : nat -> nat -> list (equation N)).
Hypothesis Hpos : pos_ok g bnd.
Hypothesis Hb : bounded bnd rs0.
Hypothesis Hd : disjoint rs0.
Hypothesis HL : forall A B, List.Forall library_model (db A B).

Lemma library_appends (q : equation N) : library_model q -> appends (q_model q).
Proof. unfold library_model, appends. destruct (q_model q); try contradiction; auto. Qed.
Lemma db_appends A B : List.Forall (fun e => appends (q_model e)) (db A B).
Proof. eapply Forall_impl; [|apply HL]. intros q. apply library_appends. Qed.

Lemma set_most rhs mx a b l k path a' b' l' k1 : List.Forall library_model rhs -> set_interact K i rhs mx a b l g k = Ok (path, a', b', l', k1) ->
  (k1 <= k + after_pair rhs (fst path) + (if (fst path <? 0)%Z then 1 else 0))%nat.
Proof.
  intros H E. unfold set_interact in E. apply obind_ok in E as ([[j c] k2] & Ep & E). apply outpath_draws in Ep as [Hk _]. cbn [fst] in E. unfold after_pair.
  destruct (Z.leb_spec 0 j) as [Hj|Hj].
  - apply obind_ok in E as (e & Ee & E).
    assert (He : nth_error rhs (Z.to_nat j) = Some e) by (unfold oget in Ee; destruct (nth_error _ _); [now injection Ee as ->|discriminate]).
    assert (Le : library_model e) by (rewrite List.Forall_forall in H; apply H; eapply nth_error_In; exact He).
    destruct (p_species b <? p_species a)%Z; apply obind_ok in E as ([[[x y] l2] k3] & Em & E); injection E as <- <- <- <- <-;
      apply model_draws in Em as [-> _]; try exact Le; cbn [fst]; rewrite He; destruct (Z.ltb_spec j 0); lia.
  - injection E as <- <- <- <- <-. cbn [fst]. destruct (Z.ltb_spec j 0); lia.
Qed.
Lemma select_most sf ra rb k x y k1 : (forall p, in_range p ra -> ~ in_range p rb) -> (0 < Z.of_nat (rsize ra) < bnd)%Z -> (0 < Z.of_nat (rsize rb) < bnd)%Z ->
  selectRandomPair sf ra rb g k = Ok (x, y, k1) -> k1 = (k + 2)%nat.
Proof.
  intros D SA SB E. unfold selectRandomPair in E. apply obind_ok in E as (p & Ep & E). apply obind_ok in E as ([q k2] & E2 & E). injection E as <- <- <-.
  destruct sf as [|sf]; [discriminate|]. cbn [pick_other] in E2. apply obind_ok in E2 as (z & Ez & E2). destruct (Nat.eqb_spec p z) as [->|_].
  - exfalso. apply (D z); [exact (Hpos ra k z SA Ep)|exact (Hpos rb _ z SB Ez)].
  - injection E2 as <- <-. lia.
Qed.
Definition most (l : list (nat * nat * (nat * nat) * Z)) : nat := (least db l + misses l)%nat.
Lemma test_most sf mx A B s s1 : A <> B -> shrinks rs0 (s_ranges s) -> enough A B (s_ranges s) -> one_test K i sf (db A B) mx A B g s = Ok s1 ->
  exists t, s_log s1 = s_log s ++ [t] /\ (s_pos s1 <= s_pos s + most [t])%nat.
Proof.
  intros Hne Hs Hen E. destruct (enough_nth _ _ _ Hen) as (ra & rb & EA & EB).
  destruct (enough_sizes _ _ _ _ _ _ Hen EA EB (bounded_shrinks _ _ _ Hs Hb)) as [SA SB].
  unfold one_test in E. unfold oget in E at 1 2. rewrite EA, EB in E. cbn [obind] in E.
  apply obind_ok in E as ([[x y] k1] & Es & E). apply select_most in Es as ->; [|intros p; apply (disjoint_shrinks _ _ Hs Hd A B ra rb p Hne EA EB)|exact SA|exact SB].
  apply obind_ok in E as (pA & _ & E). apply obind_ok in E as (pB & _ & E). apply obind_ok in E as ([[[[path a] b] l] k2] & Ei & E). apply set_most in Ei; [|apply HL]. cbv zeta in E.
  assert (P : s_pos s1 = k2 /\ s_log s1 = s_log s ++ [(A, B, (x, y), fst path)]).
  { destruct (_ || _)%bool in E; [now injection E as <-|]. apply retval_pos in E. exact E. }
  destruct P as [-> Lg]. eexists. split; [exact Lg|]. unfold most, least, misses. cbn [map list_sum fold_right test_draws filter snd]. unfold after_pair in Ei.
  destruct (fst path <? 0)%Z; cbn [length]; lia.
Qed.
Lemma most_app a b : most (a ++ b) = (most a + most b)%nat.
Proof. unfold most, misses. rewrite least_app, filter_app, app_length. lia. Qed.
Lemma tests_most sf mx A B er0 res0 n s s1 : A <> B -> reach rs0 er0 res0 s -> tests K i sf g (db A B) mx A B n s s1 ->
  exists new, s_log s1 = s_log s ++ new /\ (s_pos s1 <= s_pos s + most new)%nat.
Proof.
  intros Hne Hr Ht. induction Ht as [s|n s s1 s2 Hen E Ht IH].
  - exists []. rewrite app_nil_r. split; [reflexivity|lia].
  - destruct (one_test_reach K i sf g bnd Hpos _ _ _ _ _ _ _ _ _ Hb (fun _ => Hd) (db_appends A B) Hr Hen E) as (Hr1 & _).
    destruct (test_most _ _ _ _ _ _ Hne (r_shrinks _ _ _ _ Hr) Hen E) as (t & L1 & M1). destruct (IH Hr1) as (new & L2 & M2).
    exists (t :: new). split; [rewrite L2, L1, <- app_assoc; reflexivity|]. change (t :: new) with ([t] ++ new). rewrite most_app. lia.
Qed.
Lemma second_most fuel er0 res0 : forall l, (forall ct, In ct l -> ct_A ct <> ct_B ct) -> forall s s1, second_pass K fuel i db g l s = Ok s1 -> reach rs0 er0 res0 s ->
  exists new, s_log s1 = s_log s ++ new /\ (s_pos s1 <= s_pos s + most new)%nat.
Proof.
  unfold second_pass. induction l as [|ct l IH]; intros H s s1 E Hr; cbn [ofold] in E.
  - injection E as <-. exists []. rewrite app_nil_r. split; [reflexivity|lia].
  - apply obind_ok in E as (s2 & E2 & E). apply loop_tests in E2 as (n & Ht & _).
    destruct (tests_reach K i fuel g bnd Hpos _ _ _ _ _ _ _ _ _ _ Hb (fun _ => Hd) (db_appends _ _) Ht Hr) as (Hr1 & _).
    destruct (tests_most _ _ _ _ _ _ _ _ _ (H ct (or_introl eq_refl)) Hr Ht) as (n1 & L1 & M1).
    destruct (IH (fun c Hc => H c (or_intror Hc)) _ _ E Hr1) as (n2 & L2 & M2).
    exists (n1 ++ n2). split; [rewrite L2, L1, <- app_assoc; reflexivity|]. rewrite most_app. lia.
Qed.
End Most.

Lemma driver_most {N : Num} (K : N) fuel i dt (c : cell N) nprops db res er g k s bnd :
  pos_ok g bnd -> bounded bnd (c_ranges c) -> disjoint (c_ranges c) -> (forall A B, List.Forall library_model (db A B)) -> (forall A, db A A = []) ->
  driver K fuel i dt c nprops db res er g k = Ok s ->
  (s_pos s <= k + channel_pairs (Nat.min (length (c_ranges c)) nprops) db + least db (s_log s) + misses (s_log s))%nat.
Proof.
  intros Hp Hb Hd HL HA E. rewrite <- pairs_count. unfold driver in E. cbv zeta in E. apply obind_ok in E as ([l k1] & E1 & E).
  destruct (first_pass_ok K db dt c g _ _ _ _ E1) as [Hm _]. apply first_draws in E1 as [-> _].
  assert (Hne : forall ct, In ct l -> ct_A ct <> ct_B ct).
  { intros ct Hc Q. assert (Hf : In (ct_A ct, ct_B ct) (filter (has_eqs db) (species_pairs (Nat.min (length (c_ranges c)) nprops)))) by (rewrite <- Hm; apply in_map_iff; exists ct; auto).
    apply filter_In in Hf as [_ Hf]. unfold has_eqs in Hf. cbn [fst snd] in Hf. rewrite Q, HA in Hf. discriminate. }
  destruct (second_most K i g bnd (c_ranges c) db Hp Hb Hd HL fuel er res l Hne _ _ E (reach_init _ _ _ _ _ _)) as (new & Lg & M).
  cbn [s_log s_pos app] in *. subst new. unfold most in M. lia.
Qed.
