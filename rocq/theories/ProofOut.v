(** Out-of-place runs. *)
From Coq Require Import Reals Lra Lia List ZArith Bool Permutation.
From Verif Require Import Base Num ModelTerm ModelCollide ModelFactories ModelXsec ModelSet SpecTerm SpecPhys SpecFactories SpecXsec SpecSet SpecMore SpecRun SpecInit SpecOut
  ProofTerm ProofCollide ProofInelastic ProofFactories ProofReact ProofTop1 ProofXsec ProofSet ProofThr ProofDriver ProofDriver2 ProofDriver3 ProofTop3 ProofRun ProofRun2.
From Coq Require Import List.
Import ListNotations.
Local Open Scope R_scope.

Section Gas.
Variables (mass charge : Z -> R).
Notation mom := (momentum_of mass).
Notation kin := (kinetic_of mass).

Lemma vss_energy mA mB al (pA pB q1 q2 : particle RNum) l (g : rng RNum) k k' : 0 < mA -> 0 < mB -> 0 <= al -> rng_ok g ->
  model_interact true (MVSS (ReducedMass (N:=RNum) mA mB) al) pA pB l g k = Ok (q1, q2, l, k') ->
  kinetic mA (p_vel pA) + kinetic mB (p_vel pB) - mA * mB / (mA + mB) / 2 / 1000000000000 <= kinetic mA (p_vel q1) + kinetic mB (p_vel q2)
    <= kinetic mA (p_vel pA) + kinetic mB (p_vel pB).
Proof.
  intros PA PB Hal Hg Hm.
  destruct (top_vss _ _ al pA pB l g k PA PB) as (r1 & r2 & E' & Hmom & Hrel). rewrite Hm in E'. injection E' as <- <- _.
  destruct (Hrel ltac:(apply Hg) Hal) as [R1 R2]. cbv zeta in R1, R2.
  rewrite (koenig mA mB q1 q2 PA PB), (koenig mA mB pA pB PA PB).
  rewrite !(momentum2_comp _ _ _ _ _ _ _ _ Hmom).
  set (D := R_sqrt.sqrt _) in R1, R2.
  assert (Hmu : 0 < mA * mB / (mA + mB)).
  { apply Rmult_lt_0_compat; [apply Rmult_lt_0_compat; assumption|apply Rinv_0_lt_compat; lra]. }
  set (mu := mA * mB / (mA + mB)) in *.
  destruct (Rle_or_lt D (1 / 1000000)) as [HD|HD].
  + destruct (R2 HD) as [-> HD2]. assert (0 <= D ^ 2) by apply pow2_ge_0.
    assert (0 <= mu / 2 * D ^ 2) by (apply Rmult_le_pos; lra).
    assert (mu / 2 * D ^ 2 <= mu / 2 * (1 / 1000000000000)) by (apply Rmult_le_compat_l; lra). lra.
  + destruct (R1 (or_introl HD)) as (-> & _). lra.
Qed.

(** One interaction out of place. *)
Lemma set_reports K g (db : nat -> nat -> list (equation RNum)) mem (A B i j : nat) msv (pA pB : particle RNum) l k path a b l' k' : (A <= B)%nat -> rng_ok g ->
  List.Forall (gas_channel mass charge (Z.of_nat A) (Z.of_nat B)) (db A B) ->
  nth_error mem i = Some pA -> nth_error mem j = Some pB -> i <> j ->
  p_species pA = Z.of_nat A -> p_species pB = Z.of_nat B ->
  set_interact (N:=RNum) K false (db A B) msv pA pB l g k = Ok (path, a, b, l', k') ->
  exists new, l' = l ++ new /\ reported mass charge K db mem (A, B, (i, j), fst path) new.
Proof.
  intros HAB Hg HG Hi Hj Hij TA TB H. unfold reported.
  pose proof H as H0. apply set_interact_order in H as (k1 & _ & [(L & _ & _ & -> & _)|(q & L & Eq & [(_ & Hm)|(Hlt & _)])]); [| |lia].
  { exists []. rewrite app_nil_r. split; [reflexivity|]. destruct (Z.leb_spec 0 (fst path)); [lia|reflexivity]. }
  destruct (Z.leb_spec 0 (fst path)) as [_|]; [|lia].
  rewrite List.Forall_forall in HG. pose proof (HG q (nth_error_In _ _ Eq)) as (PA & PB & Hch).
  set (mA := mass (Z.of_nat A)) in *. set (mB := mass (Z.of_nat B)) in *.
  destruct Hch as [Em|[(al & Em)|[(kec & thrE & HR)|Em]]]; [| | |rewrite Em in Hm; discriminate Hm].
  - destruct (elastic_out_in (ReducedMass (N:=RNum) mA mB) pA pB l g k1) as (q1 & q2 & E & E2 & P1 & S1 & W1 & P2 & S2 & W2 & _).
    rewrite Em, E2 in Hm. injection Hm as _ _ <- _. exists [q1; q2]. split; [reflexivity|].
    exists pA, pB, q. repeat (split; [assumption|]). split; [rewrite Em; cbn [map]; rewrite P1, S1, W1, P2, S2, W2; auto|].
    unfold momentum_of, kinetic_of. cbn [map Rsum]. rewrite S1, S2, TA, TB. fold mA mB. split.
    + intros _ x. destruct (top_momentum _ _ pA pB l g k1 PA PB) as (r1 & r2 & E' & Hmom). fold mA mB in E'. rewrite E in E'. injection E' as <- <-.
      pose proof (momentum2_comp _ _ _ _ _ _ _ _ Hmom x). lra.
    + intros dE loss Hen _. assert (dE = 0 /\ loss = 0) as [-> ->].
      { destruct Hen as (_ & _ & [(_ & ? & ?)|[(al' & _ & Em' & _)|[(kec & E' & fu & al' & inf & ninf & tol & solve & doc & HR & _)|Em']]]); [auto|congruence| |congruence].
        destruct (react_products _ _ _ _ _ _ _ HR true pA pB l g k1) as (new & k2 & E3 & Hne & _). rewrite Em, E in E3. injection E3 as _ _ E3 _.
        rewrite <- (app_nil_r l) in E3 at 1. apply app_inv_head in E3. congruence. }
      destruct (top_energy _ _ pA pB l g k1 PA PB Hg) as (r1 & r2 & E' & _ & He). fold mA mB in E', He. rewrite E in E'. injection E' as <- <-. lra.
  - destruct (vss_out_in (ReducedMass (N:=RNum) mA mB) al pA pB l g k1) as (q1 & q2 & E & E2 & P1 & S1 & W1 & P2 & S2 & W2 & _).
    rewrite Em, E2 in Hm. injection Hm as _ _ <- _. exists [q1; q2]. split; [reflexivity|].
    exists pA, pB, q. repeat (split; [assumption|]). split; [rewrite Em; cbn [map]; rewrite P1, S1, W1, P2, S2, W2; auto|].
    unfold momentum_of, kinetic_of. cbn [map Rsum]. rewrite S1, S2, TA, TB. fold mA mB. split.
    + intros _ x. destruct (top_vss _ _ al pA pB l g k1 PA PB) as (r1 & r2 & E' & Hmom & _). fold mA mB in E'. rewrite E in E'. injection E' as <- <-.
      pose proof (momentum2_comp _ _ _ _ _ _ _ _ Hmom x). lra.
    + intros dE loss Hen _. assert (0 <= al /\ dE = 0 /\ loss = mA * mB / (mA + mB) / 2 / 1000000000000) as (Hal & -> & ->).
      { destruct Hen as (_ & _ & [(Em' & _)|[(al' & Hal & Em' & ? & ?)|[(kec & E' & fu & al' & inf & ninf & tol & solve & doc & HR & _)|Em']]]); [congruence| | |congruence].
        - rewrite Em in Em'. injection Em' as ->. auto.
        - destruct (react_products _ _ _ _ _ _ _ HR true pA pB l g k1) as (new & k2 & E3 & Hne & _). rewrite Em, E in E3. injection E3 as _ _ E3 _.
          rewrite <- (app_nil_r l) in E3 at 1. apply app_inv_head in E3. congruence. }
      pose proof (vss_energy mA mB al pA pB q1 q2 l g k1 _ PA PB Hal Hg E). lra.
  - destruct (react_products _ _ _ _ _ _ _ HR false pA pB l g k1) as (new & k2 & E & Hne & Hsp & Hb). rewrite E in Hm. injection Hm as Ea Eb El _.
    exists new. split; [congruence|]. exists pA, pB, q. repeat (split; [assumption|]).
    assert (NE : match q_model q with MElastic _ | MVSS _ _ => False | _ => True end).
    { destruct (react_products _ _ _ _ _ _ _ HR true pA pB l g k1) as (new' & k2' & E' & Hne' & _).
      destruct (q_model q) eqn:Em; try exact I; apply Hne';
        [destruct (elastic_out_in mu pA pB l g k1) as (q1 & q2 & E3 & _)|destruct (vss_out_in mu vss_param_inv pA pB l g k1) as (q1 & q2 & E3 & _)];
        rewrite E3 in E'; injection E' as _ _ E' _; rewrite <- (app_nil_r l) in E' at 1; apply app_inv_head in E'; congruence. }
    split; [destruct (q_model q); try contradiction; exact Hsp|].
    assert (KA : kin pA = kinetic mA (p_vel pA)) by (unfold kinetic_of; now rewrite TA).
    assert (KB : kin pB = kinetic mB (p_vel pB)) by (unfold kinetic_of; now rewrite TB). split.
    + intros Hbal x. unfold momentum_of at 2 3. rewrite TA, TB. apply (Hb Hbal).
    + intros dE loss (_ & _ & [(Em & _)|[(al' & _ & Em & _)|[(kec' & E' & fuel & allowed & inf & ninf & tol & solve & doc & HR' & Hbal & Hdoc & Hinf & Hsol & Hl & HE & Ed & Hlow & ->)|Em]]]) Hr0;
        [rewrite Em in NE; contradiction|rewrite Em in NE; contradiction| |rewrite Em in E; discriminate E].
      assert (Hcs : cross_sections_ok K (db A B)) by (apply Hr0; unfold is_reaction; destruct (q_model q); try contradiction; reflexivity).
      destruct (react_products _ _ _ _ _ _ _ HR' false pA pB l g k1) as (new' & k2' & E2 & _ & _ & Hb').
      rewrite E in E2. injection E2 as E2 _. apply app_inv_head in E2. subst new'.
      destruct (Hb' Hbal) as [_ Hen]. fold mA mB in Hen.
      destruct HR' as (inf' & parse & fcm & fcq & ms & _ & Hr & _). pose proof Hr as (_ & _ & Hmu & _).
      destruct (set_channels _ _ _ _ _ _ _ _ _ _ H0) as (cs & Hc). pose proof (Hcs _ cs (relspeed_nonneg _ _) Hc) as Hnn.
      destruct (selected K fuel allowed inf ninf tol solve (q_core q) doc (q_cs q) (q_model q) (db A B) msv false pA pB l g k (Z.to_nat (fst path)) path a b l' k' mA mB cs)
        as ((E'' & HE' & Haff) & _); try assumption.
      { rewrite Eq. destruct q; reflexivity. } { symmetry; apply Z2Nat.id; assumption. }
      rewrite HE in HE'. injection HE' as <-.
      assert (Hlo : low pA pB = pA /\ high pA pB = pB).
      { unfold low, high. rewrite TA, TB. destruct (Z.ltb_spec (Z.of_nat B) (Z.of_nat A)); [lia|auto]. }
      destruct Hlo as [-> ->] in Haff. rewrite <- Ed in Hen.
      assert (R1 := Hen Hg ltac:(lra)). rewrite R1, KA, KB. lra.
Qed.

Section Runs.
Variables (K : R) (fuel : nat) (dt : R) (c : cell RNum) (nprops : nat) (db : nat -> nat -> list (equation RNum))
  (res : list (particle RNum)) (er : list nat) (g : rng RNum) (k : nat).
Hypothesis Hg : rng_ok g.
Hypothesis Hb : bounded (2 ^ 31) (c_ranges c).
Hypothesis Ht : typed (c_mem c) (c_ranges c).
Hypothesis HG : forall A B, (A <= B)%nat -> List.Forall (gas_channel mass charge (Z.of_nat A) (Z.of_nat B)) (db A B).

Definition outinv (s s' : dstate RNum) : Prop :=
  s_mem s' = c_mem c /\ s_ranges s' = c_ranges c /\
  exists log news, s_log s' = s_log s ++ log /\ s_res s' = s_res s ++ concat news /\ Forall2 (reported mass charge K db (c_mem c)) log news.
Lemma outinv_refl s : s_mem s = c_mem c -> s_ranges s = c_ranges c -> outinv s s.
Proof. intros H1 H2. split; [exact H1|]. split; [exact H2|]. exists [], []. cbn. rewrite !app_nil_r. auto. Qed.
Lemma outinv_trans s1 s2 s3 : outinv s1 s2 -> outinv s2 s3 -> outinv s1 s3.
Proof.
  intros (_ & _ & l1 & n1 & E1 & R1 & F1) (H1 & H2 & l2 & n2 & E2 & R2 & F2). split; [exact H1|]. split; [exact H2|]. exists (l1 ++ l2), (n1 ++ n2).
  rewrite E2, E1, R2, R1, concat_app, !app_assoc. split; [reflexivity|]. split; [reflexivity|]. now apply Forall2_app.
Qed.

Lemma test_reports sfuel msv A B s s' : (A <= B)%nat -> s_mem s = c_mem c -> s_ranges s = c_ranges c -> enough A B (s_ranges s) ->
  one_test (N:=RNum) K false sfuel (db A B) msv A B g s = Ok s' -> outinv s s'.
Proof.
  intros HAB Em Er Hen H. rewrite Er in Hen. destruct (enough_nth _ _ _ Hen) as (ra & rb & EA & EB).
  destruct (enough_sizes _ _ _ _ _ _ Hen EA EB Hb) as [SA SB]. rewrite <- Er in EA, EB.
  destruct (one_test_ok (N:=RNum) K false sfuel (db A B) msv A B g s s' (2 ^ 31) ra rb (rpos_ok g Hg) H EA EB SA SB) as (i & j & path & pA & pB & a & b & k1 & k' & Hi & Hj & Hij & EpA & EpB & Hpath & Hset & Hlog & Hcase).
  rewrite Er in EA, EB. rewrite Em in EpA, EpB. destruct (Ht A ra i EA Hi) as (pA' & E & TA). rewrite EpA in E. injection E as <-.
  destruct (Ht B rb j EB Hj) as (pB' & E & TB). rewrite EpB in E. injection E as <-.
  destruct (one_test_reach (N:=RNum) K false sfuel g (2 ^ 31) (rpos_ok g Hg) (db A B) msv A B (s_ranges s) (s_erase s) (s_res s) s s') as (_ & _ & Hsame & _).
  - rewrite Er. exact Hb.
  - discriminate.
  - eapply List.Forall_impl; [|exact (HG A B HAB)]. intros q Hq. eapply gas_appends; eassumption.
  - destruct s. apply reach_init.
  - rewrite Er. exact Hen.
  - exact H.
  - destruct (Hsame eq_refl) as (M & R & _).
    destruct (set_reports K g db (c_mem c) A B i j msv pA pB (s_res s) k1 path a b (s_res s') k' HAB Hg (HG A B HAB) EpA EpB Hij TA TB Hset) as (new & En & Hrep).
    split; [congruence|]. split; [congruence|]. exists [(A, B, (i, j), fst path)], [new]. cbn [concat]. rewrite app_nil_r.
    split; [exact Hlog|]. split; [exact En|]. constructor; [exact Hrep|constructor].
Qed.

Lemma run_reports s : driver (N:=RNum) K fuel false dt c nprops db res er g k = Ok s ->
  exists news, s_res s = res ++ concat news /\ Forall2 (reported mass charge K db (c_mem c)) (s_log s) news.
Proof.
  intros H. unfold driver in H. cbv zeta in H. apply obind_ok in H as ([l k1] & E1 & H). apply first_pass_ok in E1 as [Hm _].
  assert (HL : forall ct, In ct l -> (ct_A ct <= ct_B ct)%nat).
  { intros ct Hin. assert (Hp : In (ct_A ct, ct_B ct) (filter (has_eqs db) (species_pairs (Nat.min (length (c_ranges c)) nprops)))).
    { rewrite <- Hm. apply in_map_iff. exists ct. auto. }
    apply filter_In in Hp as [Hp _]. apply species_pairs_in in Hp. lia. }
  assert (P : outinv (mkState (N:=RNum) (c_mem c) (c_ranges c) res er k1 []) s).
  { clear Hm. assert (M : s_mem (mkState (N:=RNum) (c_mem c) (c_ranges c) res er k1 []) = c_mem c) by reflexivity.
    assert (R : s_ranges (mkState (N:=RNum) (c_mem c) (c_ranges c) res er k1 []) = c_ranges c) by reflexivity.
    revert M R H. generalize (mkState (N:=RNum) (c_mem c) (c_ranges c) res er k1 []). unfold second_pass.
    induction l as [|ct l IH]; intros s0 M R H; cbn [ofold] in H; [injection H as <-; now apply outinv_refl|].
    apply obind_ok in H as (s1 & H1 & H). apply loop_tests in H1 as (n & Hn & _).
    assert (I : outinv s0 s1).
    { pose proof (HL ct (or_introl eq_refl)) as L. clear -Hn M R L Hg Hb Ht HG. induction Hn as [s|n s s1 s2 Hen H1 Hn IH]; [now apply outinv_refl|].
      assert (I : outinv s s1) by (eapply test_reports; eassumption). apply (outinv_trans _ s1); [exact I|]. destruct I as (M1 & R1 & _). now apply IH. }
    apply (outinv_trans _ s1); [exact I|]. destruct I as (M1 & R1 & _). apply IH; auto. intros; apply HL; now right. }
  destruct P as (_ & _ & log & news & E & R & F). cbn [s_log s_res app] in E, R. subst log. eauto.
Qed.
End Runs.
End Gas.

Lemma NoDup_app_iff_ {A} (l l' : list A) : NoDup l -> NoDup l' -> (forall x, In x l -> ~ In x l') -> NoDup (l ++ l').
Proof.
  intros H1 H2 H. induction H1 as [|x l Hx H1 IH]; [exact H2|]. cbn [app]. constructor.
  - rewrite in_app_iff. intros [I|I]; [contradiction|]. exact (H x (or_introl eq_refl) I).
  - apply IH. intros y Hy. apply H. now right.
Qed.
Lemma total_app f mem xs ys : total_at f mem (xs ++ ys) = total_at f mem xs + total_at f mem ys.
Proof. unfold total_at. now rewrite map_app, Rsum_app. Qed.
(** Totals over the reports of a log. *)
Lemma reports_total (f : particle RNum -> R) (lo hi : nat -> nat -> nat -> R) mem P : forall log (news : list (list (particle RNum))), Forall2 P log news ->
  (forall A B i j n l, P (A, B, (i, j), n) l -> if (0 <=? n)%Z then
     lo A B (Z.to_nat n) <= Rsum (map f l) - (held f (nth_error mem i) + held f (nth_error mem j)) <= hi A B (Z.to_nat n) else l = []) ->
  total_at f mem (partners log) + over_collisions lo log <= Rsum (map f (concat news)) <= total_at f mem (partners log) + over_collisions hi log.
Proof.
  intros log news F H. induction F as [|[[[A B] [i j]] n] l log news Hp F IH]; [unfold total_at, over_collisions; cbn; lra|].
  change (partners ((A, B, (i, j), n) :: log)) with ((if (0 <=? n)%Z then [i; j] else []) ++ partners log).
  cbn [concat]. rewrite map_app, Rsum_app, total_app.
  assert (EL : forall d, over_collisions d ((A, B, (i, j), n) :: log) = (if (0 <=? n)%Z then d A B (Z.to_nat n) else 0) + over_collisions d log) by reflexivity.
  rewrite !EL. specialize (H _ _ _ _ _ _ Hp). destruct (0 <=? n)%Z.
  - unfold total_at at 1 3. cbn [map Rsum]. lra.
  - subst l. unfold total_at at 1 3. cbn [map Rsum]. lra.
Qed.
Lemma total_perm f mem xs ys : Permutation xs ys -> total_at f mem xs = total_at f mem ys.
Proof. intros H. unfold total_at. apply Rsum_perm, Permutation_map, H. Qed.
Lemma total_all (f : particle RNum -> R) mem : total_at f mem (seq 0 (length mem)) = Rsum (map f mem).
Proof.
  assert (G : forall l pre, Rsum (map (fun i => held f (nth_error (pre ++ l) i)) (seq (length pre) (length l))) = Rsum (map f l)).
  { induction l as [|p l IH]; intros pre; [reflexivity|]. cbn [length seq map Rsum].
    rewrite nth_error_app2, Nat.sub_diag by lia. cbn [nth_error held]. f_equal.
    specialize (IH (pre ++ [p])). rewrite app_length, <- app_assoc in IH. cbn [length app] in IH. rewrite Nat.add_1_r in IH. exact IH. }
  exact (G mem []).
Qed.
Lemma total_split (f : particle RNum -> R) mem xs : NoDup xs -> (forall i, In i xs -> (i < length mem)%nat) ->
  total_at f mem (positions_but mem xs) + total_at f mem xs = Rsum (map f mem).
Proof.
  intros ND Hin. rewrite <- total_app, <- total_all. apply total_perm, NoDup_Permutation.
  - apply NoDup_app_iff_. { apply NoDup_filter, seq_NoDup. } { exact ND. }
    intros i Hi Hx. apply filter_In in Hi as [_ Hi]. apply negb_true_iff in Hi. assert (existsb (Nat.eqb i) xs = true) by (apply existsb_exists; exists i; split; [exact Hx|apply Nat.eqb_refl]). congruence.
  - apply seq_NoDup.
  - intros i. rewrite in_app_iff. unfold positions_but. rewrite filter_In, in_seq. split.
    + intros [[H _]|H]; [exact H|]. specialize (Hin _ H). lia.
    + intros H. destruct (existsb (Nat.eqb i) xs) eqn:E; [right|left; split; [exact H|reflexivity]].
      apply existsb_exists in E as (y & Hy & E). apply Nat.eqb_eq in E. now subst.
Qed.
