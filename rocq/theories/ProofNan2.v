(** Runs that remove particles keep the ones with NaN velocities. *)
From Coq Require Import List ZArith Bool Arith Lia Reals Permutation.
From Flocq Require Import Core.Core IEEE754.BinarySingleNaN.
From Verif Require Import Base Num ModelTerm ModelCollide ModelXsec ModelSet SpecSet SpecNan SpecNan2
  ProofInelastic ProofSelect ProofDB ProofDriver ProofDriver2 ProofDriver3 ProofRun ProofNan.
From Coq Require Import List.
Import ListNotations.

Lemma drop_one {T} (q : T) X L rest : Permutation (q :: X) (L ++ rest) -> ~ In q L -> exists rest', Permutation X (L ++ rest').
Proof.
  intros P H. assert (I : In q (L ++ rest)) by (eapply Permutation_in; [exact P|left; reflexivity]).
  apply in_app_or in I as [I|I]; [contradiction|]. apply in_split in I as (r1 & r2 & ->). exists (r1 ++ r2).
  apply (Permutation_cons_inv (a := q)). rewrite P, !app_assoc. symmetry. apply Permutation_middle.
Qed.

Section Run.
Context {lm : libm} (K : F64 lm) (g : rng (F64 lm)) (bnd : Z) (db : nat -> nat -> list (equation (F64 lm))).
Notation N := (F64 lm).
Notation nan3 := (some_component (lm:=lm) nan).
Hypothesis Hpos : pos_ok g bnd.
Hypothesis HQ : forall A B, List.Forall (fun e => quiet (lm:=lm) (q_cs e)) (db A B).
Hypothesis Happ : forall A B, List.Forall (fun e => appends (q_model e)) (db A B).
Variable L : nat -> list (option (particle N)).
Hypothesis HL : forall C o, In o (L C) -> exists p, o = Some p /\ nan3 (p_vel p).

Definition held_at (C : nat) (l : list (option (particle N))) : Prop := exists rest, Permutation l (L C ++ rest).
Definition carries (s : dstate N) : Prop := forall C r, nth_error (s_ranges s) C = Some r -> held_at C (live (s_mem s) r).

Lemma held_drop C q X : held_at C (Some q :: X) -> ~ nan3 (p_vel q) -> held_at C X.
Proof.
  intros [rest P] H. apply (drop_one (Some q) X (L C) rest P). intros I. destruct (HL C _ I) as (p & E & Hp). apply H. congruence.
Qed.
Lemma held_perm C X Y : Permutation X Y -> held_at C Y -> held_at C X.
Proof. intros P [rest Q]. exists rest. rewrite P. exact Q. Qed.
Lemma held_cons C q X : held_at C X -> held_at C (q :: X).
Proof. intros [rest Q]. exists (q :: rest). rewrite Q. apply Permutation_middle. Qed.
Lemma held_upd C mem r i q a : held_at C (live mem r) -> nth_error mem i = Some q -> ~ nan3 (p_vel q) -> held_at C (live (upd i a mem) r).
Proof.
  intros H E Hn. destruct (le_lt_dec (fst r) i) as [H1|H1]; [destruct (le_lt_dec (snd r) i) as [H2|H2]|].
  - unfold live. rewrite others_upd; [exact H|]. right. unfold in_range. lia.
  - assert (Hi : in_range i r) by (unfold in_range; lia).
    eapply held_perm; [apply (others_split (upd i a mem) r [] i Hi); auto|].
    rewrite upd_hit by (apply nth_error_Some; congruence). apply held_cons. rewrite others_upd by (left; left; reflexivity).
    apply (held_drop C q); [|exact Hn]. eapply held_perm; [|exact H]. rewrite <- E. symmetry. apply (others_split mem r [] i Hi). auto.
  - unfold live. rewrite others_upd; [exact H|]. right. unfold in_range. lia.
Qed.

Lemma nan3_dec (v : vec N) : nan3 v \/ ~ nan3 v.
Proof.
  destruct (is_nan (vx v : binary64)) eqn:E1; [left; left; exact E1|]. destruct (is_nan (vy v : binary64)) eqn:E2; [left; right; left; exact E2|].
  destruct (is_nan (vz v : binary64)) eqn:E3; [left; right; right; exact E3|]. right. unfold some_component, nan. intros [H|[H|H]]; congruence.
Qed.

Lemma test_carries sfuel msv A B s s' : bounded bnd (s_ranges s) -> disjoint (s_ranges s) -> enough A B (s_ranges s) ->
  one_test K true sfuel (db A B) msv A B g s = Ok s' -> carries s -> carries s'.
Proof.
  intros Hb Hd Hen H Hc.
  destruct (enough_nth _ _ _ Hen) as (ra & rb & EA & EB).
  destruct (enough_sizes _ _ _ _ _ _ Hen EA EB Hb) as [SA SB].
  destruct (one_test_ok K true sfuel (db A B) msv A B g s s' bnd ra rb Hpos H EA EB SA SB) as (i & j & path & pA & pB & a & b & k & k' & Hi & Hj & Hij & EpA & EpB & Hpath & Hset & Hlog & Hcase).
  assert (D : (nan3 (p_vel pA) \/ nan3 (p_vel pB)) \/ (~ nan3 (p_vel pA) /\ ~ nan3 (p_vel pB))) by (destruct (nan3_dec (p_vel pA)), (nan3_dec (p_vel pB)); auto).
  destruct D as [D|[DA DB]].
  - destruct (inert K true (db A B) msv pA pB (s_res s) g k path a b (s_res s') k' (HQ A B) D Hset) as (P & -> & -> & _).
    destruct Hcase as [(_ & Em & Er & _)|(_ & Hc1 & _)]; [|lia].
    rewrite (upd_same i pA) in Em by exact EpA. rewrite (upd_same j pB) in Em by exact EpB.
    intros C r. rewrite Er, Em. apply Hc.
  - destruct Hcase as [(_ & Em & Er & _)|(_ & Hc1 & Hc2 & _)].
    + intros C r EC. rewrite Er in EC. rewrite Em. apply (held_upd C _ r j pB); [|rewrite upd_nth; destruct (Nat.eqb_spec i j); [contradiction|exact EpB]|exact DB].
      apply (held_upd C _ r i pA); [apply Hc; exact EC|exact EpA|exact DA].
    + destruct (test_removes K sfuel (db A B) msv A B g bnd s s' ra rb Hpos Hb Hd Hen EA EB H) as (i' & j' & path' & Hlog' & _ & _ & _ & _ & Hrem).
      rewrite Hlog in Hlog'. apply app_inv_head in Hlog'. injection Hlog' as <- <- <-.
      destruct (Hrem Hc1 Hc2) as (ra' & rb' & EA' & EB' & Fa & Fb & Hoth & Hmem & Hfin).
      assert (One : forall C mem r x q, nth_error mem x = Some q -> ~ nan3 (p_vel q) -> in_range x r -> forall xs, ~ In x xs -> held_at C (others mem r xs) -> held_at C (others mem r (x :: xs))).
      { intros C mem r x q Ex Hq Hx xs Hin Hh. apply (held_drop C q); [|exact Hq]. eapply held_perm; [|exact Hh]. rewrite <- Ex. symmetry. apply others_split; assumption. }
      intros C r' EC'. destruct (Nat.eq_dec C A) as [QA|QA]; [|destruct (Nat.eq_dec C B) as [QB|QB]].
      * subst C. rewrite EA' in EC'. injection EC' as <-. destruct (Nat.eqb_spec A B) as [Q|Q].
        -- subst B. rewrite EA in EB. injection EB as <-. destruct Hfin as (_ & _ & HP). eapply held_perm; [exact HP|].
           apply (One A (s_mem s) ra i pA EpA DA Hi); [cbn; intuition congruence|]. apply (One A (s_mem s) ra j pB EpB DB Hj); [auto|]. exact (Hc A ra EA).
        -- destruct Hfin as (_ & _ & _ & HP & _). eapply held_perm; [exact HP|]. apply (One A (s_mem s) ra i pA EpA DA Hi); [auto|]. exact (Hc A ra EA).
      * subst C. rewrite EB' in EC'. injection EC' as <-. destruct (Nat.eqb_spec A B) as [Q|Q]; [exfalso; apply QA; auto|].
        destruct Hfin as (_ & _ & _ & _ & HP). eapply held_perm; [exact HP|]. apply (One B (s_mem s) rb j pB EpB DB Hj); [auto|]. exact (Hc B rb EB).
      * rewrite Hoth in EC' by assumption. unfold live. rewrite (others_ext (s_mem s) (s_mem s') r'); [exact (Hc C r' EC')|].
        intros p Hp _. apply Hmem; intros Hc'; [exact (Hd C A r' ra p QA EC' EA Hp Hc')|exact (Hd C B r' rb p QB EC' EB Hp Hc')].
Qed.

Variables (rs0 : list range) (er0 : list nat) (res0 : list (particle N)).
Hypothesis Hb0 : bounded bnd rs0.
Hypothesis Hd0 : disjoint rs0.
Lemma tests_carries sfuel msv A B n s s' : tests K true sfuel g (db A B) msv A B n s s' ->
  reach rs0 er0 res0 s -> carries s -> reach rs0 er0 res0 s' /\ carries s'.
Proof.
  intros Ht. induction Ht as [s|n s s1 s2 Hen H1 Ht IH]; intros Hr Hc; [auto|].
  destruct (one_test_reach K true sfuel g bnd Hpos (db A B) msv A B rs0 er0 res0 s s1 Hb0 (fun _ => Hd0) (Happ A B) Hr Hen H1) as (Hr1 & _).
  pose proof (r_shrinks _ _ _ _ Hr) as Hsh. apply IH; [exact Hr1|].
  exact (test_carries sfuel msv A B s s1 (bounded_shrinks _ _ _ Hsh Hb0) (disjoint_shrinks _ _ Hsh Hd0) Hen H1 Hc).
Qed.
Lemma pass_carries fuel (l : list (ctdata N)) : forall s s', second_pass K fuel true db g l s = Ok s' ->
  reach rs0 er0 res0 s -> carries s -> reach rs0 er0 res0 s' /\ carries s'.
Proof.
  unfold second_pass. induction l as [|ct l IH]; intros s s' H Hr Hc; cbn [ofold] in H; [injection H as <-; auto|].
  apply obind_ok in H as (s1 & H1 & H). apply loop_tests in H1 as (n & Ht & _).
  destruct (tests_carries _ _ _ _ _ _ _ Ht Hr Hc) as [Hr1 Hc1]. exact (IH s1 s' H Hr1 Hc1).
Qed.
End Run.

Lemma filter_part {T} (P : T -> bool) l : Permutation l (filter P l ++ filter (fun x => negb (P x)) l).
Proof.
  induction l as [|x l IH]; [reflexivity|]. cbn [filter]. destruct (P x); cbn [negb app]; [rewrite <- IH; reflexivity|].
  rewrite IH at 1. apply Permutation_middle.
Qed.
Lemma has_nan_ok {lm} (p : particle (F64 lm)) : has_nan p = true <-> some_component (lm:=lm) nan (p_vel p).
Proof. unfold has_nan, some_component, nan. rewrite !orb_true_iff. tauto. Qed.
Lemma run_nans {lm} (K : F64 lm) fuel dt (c : cell (F64 lm)) nprops db res er g k s bnd :
  pos_ok g bnd -> bounded bnd (c_ranges c) -> disjoint (c_ranges c) ->
  (forall A B, List.Forall (fun e => quiet (lm:=lm) (q_cs e)) (db A B)) ->
  (forall A B, List.Forall (fun e => appends (q_model e)) (db A B)) ->
  driver K fuel true dt c nprops db res er g k = Ok s ->
  forall C r0, nth_error (c_ranges c) C = Some r0 ->
  exists r rest, nth_error (s_ranges s) C = Some r /\ Permutation (live (s_mem s) r) (nans (c_mem c) r0 ++ rest).
Proof.
  intros Hpos Hb Hd HQ Happ H C r0 E0. unfold driver in H. cbv zeta in H. apply obind_ok in H as ([l k1] & _ & H).
  set (L := fun C => match nth_error (c_ranges c) C with Some r => nans (c_mem c) r | None => [] end).
  assert (HL : forall C o, In o (L C) -> exists p, o = Some p /\ some_component (lm:=lm) nan (p_vel p)).
  { intros D o I. unfold L in I. destruct (nth_error (c_ranges c) D); [|destruct I]. unfold nans in I. apply filter_In in I as [_ I].
    destruct o as [p|]; [|discriminate]. exists p. split; [reflexivity|]. apply has_nan_ok, I. }
  destruct (pass_carries K g bnd db Hpos HQ Happ L HL (c_ranges c) er res Hb Hd fuel l _ _ H) as [Hr Hc].
  - apply reach_init.
  - intros D r ED. cbn [s_ranges s_mem] in *. unfold held_at, L. rewrite ED. eexists. apply filter_part.
  - destruct (shrinks_nth' _ _ C r0 (r_shrinks _ _ _ _ Hr) E0) as (r & E & _). destruct (Hc C r E) as [rest P].
    unfold L in P. rewrite E0 in P. eauto.
Qed.
