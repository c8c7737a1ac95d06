(** In-place runs finish (C38). *)
From Coq Require Import Reals Lra Lia ZArith Bool List Permutation.
From Flocq Require Import Core.Core IEEE754.BinarySingleNaN.
From Verif Require Import Base Num ModelTerm ModelCollide ModelFactories ModelXsec ModelSet SpecPhys SpecXsec SpecSet SpecFactories SpecRun ProofFactories
  ProofCollide ProofF64 ProofInelastic ProofSet ProofFloat ProofSelect ProofDriver ProofDriver2 ProofDriver3 ProofDriver4 ProofDriver5.
From Coq Require Import List.
Import ListNotations.

Section AnyNum.
Context {N : Num}.
Variable K : N.

Lemma set_total_in rhs msv (pA pB : particle N) l g k : List.Forall (total_inplace K) rhs ->
  exists x, set_interact K true rhs msv pA pB l g k = Ok x.
Proof.
  intros H. unfold set_interact.
  assert (Hc : forall v, exists cs, channel_cs K rhs v = Ok cs /\ length cs = length rhs).
  { intros v. unfold channel_cs. clear -H. induction H as [|e rhs [He _] H (cs & E & L)]; cbn [omap]; [exists []; auto|].
    destruct (He v) as (s & ->). cbn [obind]. rewrite E. cbn [obind]. eexists. split; [reflexivity|]. cbn. congruence. }
  destruct (Hc (vabs (vsub (p_vel pA) (p_vel pB)))) as (cs & Ec & Lc).
  unfold calculateOutPath. rewrite Ec. cbn [obind].
  destruct (_ <? _)%num; cbn [obind fst]; [eexists; reflexivity|].
  destruct (pick_valid cs (g_exc g (k + 1) * cs_total cs)%num n0 0%Z) as [->|(n & c & Hn & ->)]; cbn [obind fst]; [eexists; reflexivity|].
  replace (0 <=? 0 + Z.of_nat n)%Z with true by (symmetry; apply Z.leb_le; lia). rewrite Z.add_0_l, Nat2Z.id.
  assert (n < length cs)%nat by (apply nth_error_Some; rewrite Hn; discriminate).
  unfold oget. destruct (nth_error rhs n) as [e|] eqn:Ee; [|apply nth_error_None in Ee; lia]. cbn [obind].
  rewrite Forall_forall in H. destruct (H e (nth_error_In _ _ Ee)) as [_ Hm].
  destruct (p_species pB <? p_species pA)%Z; [destruct (Hm pB pA l g (k + 2)%nat) as ([[[? ?] ?] ?] & ->)|destruct (Hm pA pB l g (k + 2)%nat) as ([[[? ?] ?] ?] & ->)]; cbn [obind]; eexists; reflexivity.
Qed.

Lemma oget_total {X} (l : list X) n : (n < length l)%nat -> exists x, oget l n = Ok x /\ nth_error l n = Some x.
Proof. unfold oget. intros H. destruct (nth_error l n) eqn:E; [eauto|]. apply nth_error_None in E. lia. Qed.

Lemma retval_settles A B pr (s : dstate N) : retval_inplace A B pr s <> UB -> exists s', retval_inplace A B pr s = Ok s'.
Proof.
  assert (G : forall {X Y} (l : list X) n (f : X -> outcome Y), (forall x, f x <> UB -> exists y, f x = Ok y) ->
    obind (oget l n) f <> UB -> exists y, obind (oget l n) f = Ok y).
  { intros X Y l n f Hf H. unfold oget in *. destruct (nth_error l n); cbn [obind] in *; [auto|congruence]. }
  unfold retval_inplace. apply G. intros ra. cbv zeta. destruct (Nat.eqb _ _).
  - destruct (Nat.eqb A B); [|congruence]. apply G. intros p. apply G. eauto.
  - apply G. intros p. apply G. intros rb. apply G. eauto.
Qed.

Section Run.
Variables (g : rng N) (bnd : Z) (rs0 : list range) (er0 : list nat) (res0 : list (particle N)) (len m : nat).
Hypothesis Hpos : pos_ok g bnd.
Hypothesis Htot : pos_total g bnd.
Hypothesis Hb : bounded bnd rs0.
Hypothesis Hd : disjoint rs0.
Hypothesis Hmem : forall A r, nth_error rs0 A = Some r -> (snd r <= len)%nat.

Lemma total_safe rhs : List.Forall (total_inplace K) rhs -> List.Forall (safe_eq K true) rhs.
Proof.
  apply Forall_impl. intros e [H1 H2]. split.
  - intros v. destruct (H1 v) as (? & ->). discriminate.
  - intros p q l g0 k. destruct (H2 p q l g0 k) as (? & ->). discriminate.
Qed.

(** Prefixes of the original range that the run can be left with all have fair draws. *)
Definition fair_pair (A B : nat) : Prop := A = B -> forall r, nth_error rs0 A = Some r -> fair_prefixes g r m.

Lemma one_test_total_in sfuel rhs msv A B s : List.Forall (total_inplace K) rhs -> fair_pair A B -> (m <= sfuel)%nat -> (0 < sfuel)%nat ->
  reach rs0 er0 res0 s -> length (s_mem s) = len ->
  enough A B (s_ranges s) -> exists s', one_test K true sfuel rhs msv A B g s = Ok s'.
Proof.
  intros Ht Hfair Hm H0 Hr Hl Hen. pose proof Hr as [Hsh _ _]. 
  pose proof (one_test_safe K true g bnd rs0 er0 res0 len Hpos Htot Hb (fun _ => Hd) Hmem sfuel rhs msv A B s (total_safe _ Ht) Hr Hl Hen) as Hs.
  pose proof Hen as Hen0. destruct (enough_nth _ _ _ Hen) as (ra & rb & EA & EB).
  destruct (enough_sizes bnd _ _ _ _ _ Hen EA EB (bounded_shrinks bnd _ _ Hsh Hb)) as [SA SB].
  destruct (shrinks_nth _ _ _ _ Hsh EA) as (ra0 & EA0 & A1 & A2). destruct (shrinks_nth _ _ _ _ Hsh EB) as (rb0 & EB0 & B1 & B2).
  pose proof (Hmem _ _ EA0) as MA. pose proof (Hmem _ _ EB0) as MB.
  assert (Hgd : good_draws g ra rb m).
  { split; [intros k; apply Htot; assumption|]. split; [intros k; apply Htot; assumption|].
    destruct (Nat.eq_dec A B) as [Q|Q].
    - right. subst B. rewrite EA in EB. injection EB as <-. destruct Hen0 as (ra' & rb' & EA' & _ & Hsz). rewrite EA in EA'. injection EA' as <-.
      rewrite Nat.eqb_refl in Hsz. rewrite EA0 in EB0. injection EB0 as <-.
      destruct ra as [b e], ra0 as [b0 e0]. cbn [fst snd] in *. subst. apply (Hfair eq_refl _ EA0); unfold rsize in Hsz; cbn [fst snd] in Hsz |- *; lia.
    - left. intros p. eapply (disjoint_shrinks _ _ Hsh Hd); eassumption. }
  destruct (select_total sfuel ra rb g m (s_pos s) Hgd Hm H0) as (i & j & k' & Es & Hi & Hj).
  revert Hs. unfold one_test. assert (OA : oget (s_ranges s) A = Ok ra) by (unfold oget; rewrite EA; reflexivity). assert (OB : oget (s_ranges s) B = Ok rb) by (unfold oget; rewrite EB; reflexivity).
  rewrite OA, OB. cbn [obind]. rewrite Es. cbn [obind].
  unfold in_range in Hi, Hj.
  destruct (oget_total (s_mem s) i) as (pA & EpA & _); [lia|]. destruct (oget_total (s_mem s) j) as (pB & EpB & _); [lia|].
  rewrite EpA, EpB. cbn [obind].
  destruct (set_total_in rhs msv pA pB (s_res s) g k' Ht) as ([[[[path a] b] l] k2] & ->). cbn [obind]. cbv zeta.
  destruct (_ || _)%bool; [eauto|]. apply retval_settles.
Qed.

Lemma loop_total_in rhs msv A B sfuel : List.Forall (total_inplace K) rhs -> List.Forall (fun e => appends (q_model e)) rhs -> fair_pair A B ->
  (m <= sfuel)%nat -> (0 < sfuel)%nat -> (A < length rs0)%nat -> (B < length rs0)%nat ->
  forall n fuel x s, (n1 <? dec x n)%num = false -> (n < fuel)%nat -> reach rs0 er0 res0 s -> length (s_mem s) = len ->
  exists s', test_loop K fuel true sfuel rhs msv A B x g s = Ok s' /\ reach rs0 er0 res0 s' /\ length (s_mem s') = len.
Proof.
  intros Ht Happ Hfair Hm H0 LA LB. induction n as [|n IH]; intros [|fuel] x s Hn Hf Hr Hl; try lia; cbn [test_loop].
  - cbn [dec] in Hn. rewrite Hn. eauto.
  - destruct (n1 <? x)%num; [|eauto].
    assert (Hx : forall C, (C < length rs0)%nat -> exists r, nth_error (s_ranges s) C = Some r).
    { intros C HC. destruct (nth_error (s_ranges s) C) eqn:E; [eauto|]. apply nth_error_None in E. pose proof (F2_length _ _ _ (r_shrinks _ _ _ _ Hr)) as HL. unfold range in *. lia. }
    destruct (Hx A LA) as (ra & EA). destruct (Hx B LB) as (rb & EB). unfold oget. rewrite EA, EB. cbn [obind].
    destruct (_ || _)%bool eqn:Ec; [eauto|]. apply (enough_cond A B _ _ _ EA EB) in Ec.
    destruct (one_test_total_in sfuel rhs msv A B s Ht Hfair Hm H0 Hr Hl Ec) as (s1 & E1). rewrite E1. cbn [obind].
    apply IH; [rewrite dec_S; assumption|lia| |rewrite (one_test_length _ _ _ _ _ _ _ _ _ _ E1); assumption].
    eapply one_test_reach; try eassumption. intros _. assumption.
Qed.

Lemma second_total_in db (l : list (ctdata N)) :
  List.Forall (fun ct => (ct_A ct < length rs0)%nat /\ (ct_B ct < length rs0)%nat /\ (exists n, (n1 <? dec (ct_tests ct) n)%num = false) /\
    List.Forall (total_inplace K) (db (ct_A ct) (ct_B ct)) /\ List.Forall (fun e => appends (q_model e)) (db (ct_A ct) (ct_B ct)) /\ fair_pair (ct_A ct) (ct_B ct)) l ->
  exists f0, forall fuel s, (f0 <= fuel)%nat -> reach rs0 er0 res0 s -> length (s_mem s) = len -> exists s', second_pass K fuel true db g l s = Ok s'.
Proof.
  unfold second_pass. induction 1 as [|ct l (LA & LB & (n & Hn) & Ht & Ha & Hf) H (f1 & IH)].
  - exists 0%nat. intros fuel s _ _ _. exists s. reflexivity.
  - exists (S n + S m + f1)%nat. intros fuel s Hle Hr Hl. cbn [ofold].
    destruct (loop_total_in (db (ct_A ct) (ct_B ct)) (ct_msv ct) (ct_A ct) (ct_B ct) fuel Ht Ha Hf ltac:(lia) ltac:(lia) LA LB n fuel (ct_tests ct) s Hn ltac:(lia) Hr Hl) as (s1 & -> & Hr1 & Hl1).
    cbn [obind]. apply IH; [lia|assumption|assumption].
Qed.
End Run.

Lemma driver_total_in dt (c : cell N) nprops db res er g k bnd m :
  pos_total g bnd -> bounded bnd (c_ranges c) -> disjoint (c_ranges c) ->
  (forall A r, nth_error (c_ranges c) A = Some r -> (snd r <= length (c_mem c))%nat) ->
  let n := Nat.min (length (c_ranges c)) nprops in
  (forall A B, (A <= B < n)%nat -> db A B <> [] -> List.Forall (fun e => total_inplace K e /\ appends (q_model e)) (db A B) /\
     (exists msv, findMaxSigmaVProduct K (db A B) (c_maxv c A B) = Ok msv) /\
     (forall r, nth_error (c_ranges c) A = Some r \/ nth_error (c_ranges c) B = Some r ->
       (0 < rsize r)%nat /\ (A = B -> fair_prefixes g r m))) ->
  (forall x : N, exists i, (n1 <? dec x i)%num = false) ->
  exists f0, forall fuel, (f0 <= fuel)%nat -> exists s, driver K fuel true dt c nprops db res er g k = Ok s.
Proof.
  intros Htot Hb Hd Hmem n Hdb Hdec. unfold driver. cbv zeta. fold n.
  assert (Hpos : pos_ok g bnd). { intros r k0 i Hs E. destruct (Htot r k0 Hs) as (i' & E' & Hi). rewrite E in E'. injection E' as <-. assumption. }
  destruct (first_pass_empty K db dt c g (species_pairs n) k) as [_ Hok].
  - intros A B Hin. apply species_pairs_in in Hin.
    assert (Hl : forall C, (C < n)%nat -> exists r, nth_error (c_ranges c) C = Some r).
    { intros C HC. destruct (nth_error (c_ranges c) C) eqn:E; [eauto|]. apply nth_error_None in E. lia. }
    split; [apply Hl; lia|]. split; [apply Hl; lia|]. intros Hne. destruct (Hdb A B Hin Hne) as (_ & E & _). exact E.
  - assumption.
  - destruct Hok as (l & k' & E).
    + intros A B r Hin Hne Hr. apply species_pairs_in in Hin. destruct (Hdb A B Hin Hne) as (_ & _ & H). apply (H r Hr).
    + rewrite E. cbn [obind]. destruct (first_pass_ok K db dt c g _ _ _ _ E) as [Hm _].
      destruct (second_total_in g bnd (c_ranges c) er res (length (c_mem c)) m Hpos Htot Hb Hd Hmem db l) as [f0 Hf].
      * apply Forall_forall. intros ct Hin. assert (Hp : In (ct_A ct, ct_B ct) (filter (has_eqs db) (species_pairs n))).
        { rewrite <- Hm. apply in_map_iff. exists ct. auto. }
        apply filter_In in Hp as [Hp Hq]. apply species_pairs_in in Hp.
        assert (Hne : db (ct_A ct) (ct_B ct) <> []).
        { unfold has_eqs in Hq. cbn [fst snd] in Hq. destruct (db (ct_A ct) (ct_B ct)); discriminate. }
        destruct (Hdb _ _ Hp Hne) as (Ht & _ & Hf).
        split; [lia|]. split; [lia|]. split; [apply Hdec|]. split; [eapply Forall_impl; [|exact Ht]; intros ? [? ?]; assumption|].
        split; [eapply Forall_impl; [|exact Ht]; intros ? [? ?]; assumption|]. intros Q r Er. apply (Hf r (or_introl Er)). exact Q.
      * exists f0. intros fuel Hle. apply Hf; [assumption| |reflexivity]. apply reach_init.
Qed.
End AnyNum.

Lemma driver_terminates_in (K : R) (dt : R) (c : cell RNum) nprops db res er g k m :
  rng_ok g -> (forall A r, nth_error (c_ranges c) A = Some r -> (snd r <= length (c_mem c))%nat) ->
  bounded (2 ^ 31) (c_ranges c) -> disjoint (c_ranges c) ->
  (forall A B, (A <= B < Nat.min (length (c_ranges c)) nprops)%nat -> db A B <> [] ->
     List.Forall (fun e => total_inplace (N:=RNum) K e /\ appends (q_model e)) (db A B) /\
     (exists msv, findMaxSigmaVProduct (N:=RNum) K (db A B) (c_maxv c A B) = Ok msv) /\
     forall r, nth_error (c_ranges c) A = Some r \/ nth_error (c_ranges c) B = Some r ->
       (0 < rsize r)%nat /\ (A = B -> fair_prefixes g r m)) ->
  exists f0, forall fuel, (f0 <= fuel)%nat -> exists s, driver (N:=RNum) K fuel true dt c nprops db res er g k = Ok s.
Proof.
  intros Hg Hmem Hb Hd Hdb. apply (driver_total_in (N:=RNum) K dt c nprops db res er g k (2 ^ 31) m); try assumption; [|exact dec_R_stops].
  intros r k0 Hr. apply rrand_pos; assumption.
Qed.

Lemma factories_reject : forall lm (a b : massCharge (F64 lm)) outs,
  setParticleFactories (N:=F64 lm) finf [a; b] outs <> UB ->
  let same w := Beqb (total (N:=F64 lm) w outs) (fofZ 0) = Beqb (centre (N:=F64 lm) finf w a b) finf in
  (same (@mc_mass _) /\ same (@mc_charge _) -> exists fs, setParticleFactories (N:=F64 lm) finf [a; b] outs = Ok fs) /\
  (~ (same (@mc_mass _) /\ same (@mc_charge _)) -> setParticleFactories (N:=F64 lm) finf [a; b] outs = Throw ExnRuntime).
Proof.
  intros lm a b outs HU same. destruct (factories_rejected (N:=F64 lm) finf a b fltb_irrefl fltb_trans outs HU) as [H1 H2].
  assert (Hm : matched (N:=F64 lm) finf a b outs = true <-> same (@mc_mass _) /\ same (@mc_charge _)).
  { unfold matched. rewrite andb_true_iff, !Bool.eqb_true_iff. reflexivity. }
  split; [intros H; apply H1, Hm, H|]. intros H. apply H2. destruct (matched _ _ _ _); [exfalso; apply H, Hm; reflexivity|reflexivity].
Qed.
