(** Proofs about examples/simtest: its database and its driver call. *)
From Coq Require Import Reals Qreals Lra Lia String Ascii ZArith QArith Bool Arith Sorted Permutation List.
From Verif Require Import Base Num ModelTerm ModelCollide ModelFactories ModelXsec ModelSet ModelEq ModelFilter ModelDB ModelMisc ModelShippedTables ModelShipped ModelSim
  SpecTerm SpecPhys SpecFactories SpecXsec SpecSet SpecEq SpecFilter SpecDB SpecMore SpecRun SpecInit SpecLoadable SpecShipped SpecSim
  ProofCollide ProofXsec ProofData ProofInelastic ProofThr ProofFilter ProofFilter3 ProofDB  ProofDB3 ProofDriver2 ProofDriver5 ProofInit ProofInit2 ProofShipped ProofShipped2 ProofSim.
From Coq Require Import List.
Import ListNotations.
Local Open Scope R_scope.

(** ** Tables *)
Definition reaches (V : R) (t : table RNum) : Prop := exists x, In x t /\ V <= fst x.
Lemma check_reaches V (t t' : table RNum) : increasing t -> checkThreshold (N:=RNum) t = Ok t' -> reaches V t -> reaches V t' /\ t' <> [].
Proof.
  induction t as [|x t IH]; intros Hi H (z & Hz & L); cbn [checkThreshold] in H; [discriminate|].
  destruct t as [|y t].
  - destruct (_ =? _)%num; [discriminate|]. injection H as <-. split; [exists z; auto|discriminate].
  - destruct (_ && _)%bool; [|injection H as <-; split; [exists z; auto|discriminate]].
    destruct (incr_cons _ _ Hi) as [H1 H2]. apply IH; [exact H1|exact H|]. destruct Hz as [<-|Hz]; [|exists z; auto].
    inversion H2; subst. exists y. split; [now left|rl].
Qed.
Lemma check_nonempty (t t' : table RNum) : checkThreshold (N:=RNum) t = Ok t' -> t' <> [].
Proof.
  induction t as [|x t IH]; cbn [checkThreshold]; [discriminate|]. destruct t as [|y t].
  - destruct (_ =? _)%num; [discriminate|]. injection 1 as <-. discriminate.
  - destruct (_ && _)%bool; [exact IH|]. injection 1 as <-. discriminate.
Qed.
Lemma eval_def (d : data RNum) V : d_table d <> [] -> data_sigma (N:=RNum) d V <> UB.
Proof.
  intros Hne. unfold data_sigma. destruct (lb_ex (d_table d) V) as (l & r & Et & -> & _). unfold data_eval.
  destruct l as [|x l]; [destruct r as [|f r]; [exfalso; apply Hne; exact Et|destruct (_ =? _)%num; discriminate]|].
  assert (R : exists i li, rev (x :: l) = i :: li) by (destruct (rev (x :: l)) as [|i li] eqn:E; [apply (f_equal (@length _)) in E; rewrite rev_length in E; discriminate|eauto]).
  destruct R as (i & li & ->). destruct r; [|discriminate]. destruct (_ =? _)%num; [discriminate|]. destruct (_ =? _)%num; discriminate.
Qed.
Lemma max_def (d : data RNum) V : reaches V (d_table d) -> exists m, data_max (N:=RNum) d V = Ok m.
Proof.
  intros (z & Hz & L). unfold data_max. destruct (lb_ex (d_table d) V) as (l & r & Et & -> & Hl & Hr).
  assert (Er : exists f r', r = f :: r').
  { destruct r as [|f r']; [|eauto]. rewrite app_nil_r in Et. subst l. rewrite List.Forall_forall in Hl. specialize (Hl z Hz). rl. }
  destruct Er as (f & r' & ->). cbn [fst]. unfold data_eval. destruct l as [|x l]; [destruct (_ =? _)%num; eexists; reflexivity|].
  destruct (rev (x :: l)) as [|i li] eqn:E; [apply (f_equal (@length _)) in E; rewrite rev_length in E; discriminate|]. eexists. reflexivity.
Qed.
Lemma load_reaches (mu : reducedMass RNum) rows e s V : 0 < rm_value mu -> In (QEnergy (N:=RNum) e, s) rows ->
  0 <= V -> rm_value mu * V ^ 2 / 2 <= e -> reaches V (loadCrossSectionData (N:=RNum) mu rows).
Proof.
  intros Hmu Hin HV He. destruct (load_spec mu rows Hmu) as [Hi _]. unfold loadCrossSectionData.
  assert (G : forall rows (t : table RNum), In (QEnergy (N:=RNum) e, s) rows \/ reaches V t -> reaches V (fold_left (fun t r =>
    let v := match fst r with QVelocity v => v | QEnergy e => nsqrt (e / (nhalf * rm_value mu))%num end in table_insert (N:=RNum) (v, snd r) t) rows t)).
  { clear rows Hin Hi. induction rows as [|r rows IH]; intros t H; cbn [fold_left]; [destruct H as [[]|H]; exact H|]. apply IH. clear IH. cbv zeta.
    assert (Keep : reaches V t -> forall v x, reaches V (table_insert (N:=RNum) (v, x) t)).
    { intros (z & Hz & L) v x. clear -Hz L. induction t as [|y t IH]; [destruct Hz|]. cbn [table_insert]. unR. destruct (Rltb _ _); [exists z; split; [now right|exact L]|].
      destruct (Rltb _ _); [|exists z; auto]. destruct Hz as [<-|Hz]; [exists y; split; [now left|exact L]|]. destruct (IH Hz) as (w & Hw & Lw). exists w. split; [now right|exact Lw]. }
    assert (Add : forall v x, V <= v -> reaches V (table_insert (N:=RNum) (v, x) t)).
    { intros v x Lv. clear -Lv. induction t as [|y t IH]; [exists (v, x); split; [now left|exact Lv]|]. cbn [table_insert]. unR. cbn [fst].
      destruct (Rltb_spec v (fst y)); [exists (v, x); split; [now left|exact Lv]|]. destruct (Rltb_spec (fst y) v); [|exists y; split; [now left|rl]].
      destruct IH as (w & Hw & Lw). exists w. split; [now right|exact Lw]. }
    destruct H as [[->|H]|H]; [|now left|].
    - right. apply Add. cbn [fst]. unR. revert Hmu He. change (T RNum) with R. generalize (rm_value mu : R) as m. intros m Hmu He.
      rewrite <- (sqrt_pow2 V HV). apply sqrt_le_1_alt. apply (Rmult_le_reg_r (1 / 2 * m)); [lra|].
      replace (e / (1 / 2 * m) * (1 / 2 * m)) with e by (field; lra). lra.
    - right. now apply Keep. }
  apply G. now left.
Qed.

(** ** The interactions simtest keeps *)
Definition five : list string := map sp_name sim_particles.
Fixpoint leqb (a b : list string) : bool :=
  match a, b with [], [] => true | x :: a, y :: b => String.eqb x y && leqb a b | _, _ => false end.
Lemma leqb_refl l : leqb l l = true.
Proof. induction l as [|x l IH]; [reflexivity|]. cbn. now rewrite String.eqb_refl. Qed.
Definition candidate (i : ship_inter) : bool :=
  leqb (map x_P (si_in i)) (map x_P (si_out i)) && forallb (fun n => existsb (String.eqb n) five) (map x_P (si_in i)).
Lemma candidates : map fst (filter (fun ki => candidate (snd ki)) (combine (seq 0 (length shipped_interactions)) shipped_interactions)) = [0; 2; 126; 158]%nat.
Proof. vm_compute. reflexivity. Qed.
Definition sim_kept (k : nat) (i : ship_inter) : Prop :=
  (k = 0%nat /\ i = mkSI [t2 "87Rb"] [t2 "87Rb"] (SVHS (fun _ => 540 * / 10 ^ 18)%R (ModelShippedTables.dec 25%Z (-6)%Z) (ModelShippedTables.dec 75%Z (-2)%Z)) None) \/
  (k = 2%nat /\ i = mkSI [t2 "Ar"] [t2 "Ar"] (SVHS (fun _ => PI * (417 * / 10 ^ 12) ^ 2)%R (ModelShippedTables.dec 273%Z 0%Z) (ModelShippedTables.dec 81%Z (-2)%Z)) None) \/
  (k = 126%nat /\ i = mkSI [t1 "e^-"; t1 "Ar"] [t1 "e^-"; t1 "Ar"] (SData tab126) None) \/
  (k = 158%nat /\ i = mkSI [t1 "e^-"; t1 "Hg"] [t1 "e^-"; t1 "Hg"] (SConstant (ModelShippedTables.dec 6%Z (-20)%Z)) None).
Lemma kept_nth k i : sim_kept k i -> nth_error shipped_interactions k = Some i.
Proof. intros [[-> ->]|[[-> ->]|[[-> ->]|[-> ->]]]]; reflexivity. Qed.
Lemma candidate_kept k i : nth_error shipped_interactions k = Some i -> candidate i = true -> sim_kept k i.
Proof.
  intros Hk C. assert (I : In k [0; 2; 126; 158]%nat).
  { rewrite <- candidates. apply in_map_iff. exists (k, i). split; [reflexivity|]. apply filter_In. split; [|exact C].
    assert (G : forall l o m, nth_error l m = Some i -> In ((o + m)%nat, i) (combine (seq o (length l)) l)).
    { clear. intros l; induction l as [|a l IH]; intros o [|m] H; cbn in H |- *; try discriminate.
      - injection H as ->. left. f_equal. lia.
      - right. replace (o + S m)%nat with (S o + m)%nat by lia. apply IH, H. }
    apply (G _ 0%nat _ Hk). }
  unfold sim_kept. destruct I as [<-|[<-|[<-|[<-|[]]]]]; cbn [nth_error shipped_interactions] in Hk; injection Hk as <-; auto 6.
Qed.
Lemma kept_cand k i : sim_kept k i -> si_in i = si_out i /\ si_cs i <> SNone /\ si_out i <> [] /\ forall t, In t (si_in i) -> In (x_P t) five.
Proof.
  intros [[-> ->]|[[-> ->]|[[-> ->]|[-> ->]]]]; (split; [reflexivity|]); (split; [discriminate|]); (split; [discriminate|]); cbn [si_in];
    intros t Ht; cbn in Ht; repeat (destruct Ht as [<-|Ht]; [cbn; auto 9|]); destruct Ht.
Qed.

Section Database.
Variables (fuel : nat) (allowed : bool) (inf ninf : RNum) (tol : RNum -> RNum -> bool)
  (solve : (RNum -> RNum) -> RNum -> RNum -> RNum * RNum) (finf : RNum)
  (parse : string -> outcome (list (expr RNum))) (fcm fcq : bool).
Notation reg := (default_reg (N:=RNum) fuel allowed inf ninf tol solve (setParticleFactories (N:=RNum) finf) parse fcm fcq).
Variables (val : string -> R) (ginv : R -> R) (path : nat -> list string) (text : nat -> string * string) (d : document RNum).
Hypothesis Hdata : sim_data val ginv path text d.
Notation props := (map (shipped_prop val) sim_particles).
Lemma sim_gas : shipped_gas val ginv path text d sim_particles. Proof. apply Hdata. Qed.
Lemma sim_added : ofold (addParticleNamed (N:=RNum) d) [] sim_species = Ok props.
Proof.
  destruct Hdata as (_ & _ & _ & _ & Hp). unfold sim_species, addParticleNamed. cbn [ofold].
  unfold sim_particles in Hp.
  pose proof (Hp _ (or_introl eq_refl)) as H0. cbn [sp_name] in H0. rewrite H0. cbn [obind].
  pose proof (Hp _ (or_intror (or_introl eq_refl))) as H1. cbn [sp_name] in H1. rewrite H1. cbn [obind].
  pose proof (Hp _ (or_intror (or_intror (or_introl eq_refl)))) as H2. cbn [sp_name] in H2. rewrite H2. cbn [obind].
  pose proof (Hp _ (or_intror (or_intror (or_intror (or_introl eq_refl))))) as H3. cbn [sp_name] in H3. rewrite H3. cbn [obind].
  pose proof (Hp _ (or_intror (or_intror (or_intror (or_intror (or_introl eq_refl)))))) as H4. cbn [sp_name] in H4. rewrite H4. cbn [obind].
  reflexivity.
Qed.

Variables (r : list (prop RNum)) (s : sets RNum).
Hypothesis Hinit : sim_database reg d = Ok (r, s).
Lemma sim_init : initBinary reg d sim_filter props = Ok (r, s).
Proof. unfold sim_database in Hinit. rewrite sim_added in Hinit. exact Hinit. Qed.
Lemma sim_perm : Permutation props r.
Proof. pose proof sim_init as H. revert H. generalize props as l. intros l H. unfold initBinary in H. apply obind_ok in H as (s' & _ & H). injection H as <- _. apply sort_perm. Qed.
Lemma sim_unique : unique_names r.
Proof. eapply Permutation_NoDup; [apply Permutation_map, sim_perm|apply (gas_unique _ _ _ _ _ _ sim_gas)]. Qed.
Lemma sim_names n : In n (map (pr_name (N:=RNum)) r) <-> In n five.
Proof.
  assert (E : map (pr_name (N:=RNum)) props = five) by reflexivity.
  pose proof (Permutation_map (pr_name (N:=RNum)) sim_perm) as P. rewrite E in P.
  split; apply Permutation_in; [apply Permutation_sym|]; exact P.
Qed.
Lemma sim_name_inj A B pA pB : nth_error r A = Some pA -> nth_error r B = Some pB -> pr_name pA = pr_name pB -> A = B.
Proof.
  intros HA HB E. pose proof sim_unique as U. unfold unique_names in U. eapply (proj1 (NoDup_nth_error _) U); [rewrite map_length; apply nth_error_Some; congruence|].
  rewrite !nth_error_map, HA, HB. cbn. now rewrite E.
Qed.
Lemma sim_index n : In n five -> exists A p, nth_error r A = Some p /\ pr_name p = n.
Proof. intros H. apply sim_names in H. apply in_map_iff in H as (p & <- & Hp). apply In_nth_error in Hp as (A & HA). eauto. Qed.

(** The names of a kept interaction. *)
Lemma kept_pair A B pA pB k i : nth_error r A = Some pA -> nth_error r B = Some pB -> sim_kept k i ->
  (written_as A B (pr_name pA) (pr_name pB) (si_in i) <->
   (k = 0%nat /\ pr_name pA = "87Rb" /\ pr_name pB = "87Rb") \/ (k = 2%nat /\ pr_name pA = "Ar" /\ pr_name pB = "Ar") \/
   (k = 126%nat /\ (pr_name pA = "e^-" /\ pr_name pB = "Ar" \/ pr_name pA = "Ar" /\ pr_name pB = "e^-")) \/
   (k = 158%nat /\ (pr_name pA = "e^-" /\ pr_name pB = "Hg" \/ pr_name pA = "Hg" /\ pr_name pB = "e^-")))%string.
Proof.
  intros HA HB Hk.
  assert (Two : forall n, written_as A B (pr_name pA) (pr_name pB) [t2 n] <-> pr_name pA = n /\ pr_name pB = n).
  { intros n. split.
    - intros [H1 H2]. destruct (Nat.eq_dec A B) as [E|E].
      + destruct (H1 E) as (t & Et & En & _). injection Et as <-. subst B. rewrite HA in HB. injection HB as <-. cbn in En. auto.
      + destruct (H2 E) as (t & u & P & _). apply Permutation_length in P. discriminate.
    - intros [E1 E2]. assert (A = B) by (eapply sim_name_inj; [exact HA|exact HB|congruence]). split; [|contradiction]. intros _. exists (t2 n). auto. }
  assert (One : forall m n, m <> n -> written_as A B (pr_name pA) (pr_name pB) [t1 m; t1 n] <-> (pr_name pA = m /\ pr_name pB = n \/ pr_name pA = n /\ pr_name pB = m)).
  { intros m n Nmn. split.
    - intros [H1 H2]. destruct (Nat.eq_dec A B) as [E|E].
      + destruct (H1 E) as (t & Et & _). discriminate.
      + destruct (H2 E) as (t & u & P & [Pt _] & [Pu _]). apply two_perm in P as [[<- <-]|[<- <-]]; cbn in Pt, Pu; auto.
    - intros H. assert (NE : A <> B). { intros E. subst B. rewrite HA in HB. injection HB as <-. destruct H as [[? ?]|[? ?]]; congruence. }
      split; [contradiction|]. intros _. destruct H as [[-> ->]|[-> ->]].
      + exists (t1 m), (t1 n). split; [apply Permutation_refl|]. split; split; cbn; auto.
      + exists (t1 n), (t1 m). split; [apply perm_swap|]. split; split; cbn; auto. }
  destruct Hk as [[-> ->]|[[-> ->]|[[-> ->]|[-> ->]]]]; cbn [si_in].
  - rewrite Two. intuition discriminate.
  - rewrite Two. intuition discriminate.
  - rewrite One by discriminate. intuition discriminate.
  - rewrite One by discriminate. intuition discriminate.
Qed.
Lemma kept_known k i : sim_kept k i -> List.Forall (known r) (si_out i).
Proof.
  intros Hk. destruct (kept_cand k i Hk) as (E & _ & _ & F). rewrite <- E. apply List.Forall_forall. intros t Ht. unfold known. apply sim_names. now apply F.
Qed.
Definition sx k i := shipped_x val ginv path text k i.
Lemma kept_iff A B pA pB x : nth_error r A = Some pA -> nth_error r B = Some pB ->
  (In x (x_inter d) /\ belongs r A B x /\ keeps sim_filter x <->
   exists k i, sim_kept k i /\ x = sx k i /\ written_as A B (pr_name pA) (pr_name pB) (si_in i)).
Proof.
  intros HA HB. pose proof sim_gas as (_ & _ & _ & Hd). destruct Hdata as (_ & _ & _ & Ht & _). rewrite Hd. split.
  - intros (Hx & (_ & (pA' & pB' & HA' & HB' & W) & _ & K) & F). apply doc_inv in Hx as (k & i & Hk & ->). exists k, i.
    rewrite HA in HA'. injection HA' as <-. rewrite HB in HB'. injection HB' as <-. cbn [xi_in xi_out shipped_x] in *.
    split; [|split; [reflexivity|exact W]]. destruct F as [F|F]; [|discriminate]. cbn in F. apply (Ht k i Hk) in F.
    apply candidate_kept; [exact Hk|]. unfold candidate. rewrite F, leqb_refl. cbn [andb]. apply forallb_forall. intros n Hn.
    apply in_map_iff in Hn as (t & <- & Hn). rewrite List.Forall_forall in K. specialize (K t Hn). apply sim_names in K.
    apply existsb_exists. exists (x_P t). split; [exact K|apply String.eqb_refl].
  - intros (k & i & Hk & -> & W). pose proof (kept_nth k i Hk) as Hn. destruct (kept_cand k i Hk) as (E & C & O & _).
    split; [now apply doc_nth|]. split.
    + split; [cbn; destruct (si_cs i); [congruence|discriminate..]|]. split; [exists pA, pB; auto|]. split; [exact O|]. now apply (kept_known k i).
    + left. cbn. now apply (Ht k i Hn).
Qed.
Lemma pair_names A B pA pB : nth_error r A = Some pA -> nth_error r B = Some pB ->
  (sim_collide (pr_name pA) (pr_name pB) <-> exists k i, sim_kept k i /\ written_as A B (pr_name pA) (pr_name pB) (si_in i)).
Proof.
  intros HA HB. split.
  - intros H. assert (Q : exists k i, sim_kept k i /\ ((k = 0%nat /\ pr_name pA = "87Rb" /\ pr_name pB = "87Rb") \/ (k = 2%nat /\ pr_name pA = "Ar" /\ pr_name pB = "Ar") \/
     (k = 126%nat /\ (pr_name pA = "e^-" /\ pr_name pB = "Ar" \/ pr_name pA = "Ar" /\ pr_name pB = "e^-")) \/
     (k = 158%nat /\ (pr_name pA = "e^-" /\ pr_name pB = "Hg" \/ pr_name pA = "Hg" /\ pr_name pB = "e^-")))%string).
    { unfold sim_collide, sim_pairs in H. cbn [In] in H.
      assert (H' : (pr_name pA = "87Rb" /\ pr_name pB = "87Rb" \/ pr_name pA = "Ar" /\ pr_name pB = "Ar" \/ (pr_name pA = "e^-" /\ pr_name pB = "Ar" \/ pr_name pA = "Ar" /\ pr_name pB = "e^-") \/
        (pr_name pA = "e^-" /\ pr_name pB = "Hg" \/ pr_name pA = "Hg" /\ pr_name pB = "e^-"))%string).
      { destruct H as [[H|[H|[H|[H|[]]]]]|[H|[H|[H|[H|[]]]]]]; injection H as <- <-; auto 9. }
      destruct H' as [H'|[H'|[H'|H']]].
      - exists 0%nat. eexists. split; [left; split; reflexivity|]. tauto.
      - exists 2%nat. eexists. split; [right; left; split; reflexivity|]. tauto.
      - exists 126%nat. eexists. split; [right; right; left; split; reflexivity|]. tauto.
      - exists 158%nat. eexists. split; [right; right; right; split; reflexivity|]. tauto. }
    destruct Q as (k & i & Hk & Q). exists k, i. split; [exact Hk|]. now apply (kept_pair A B pA pB k i HA HB Hk).
  - intros (k & i & Hk & W). apply (kept_pair A B pA pB k i HA HB Hk) in W. unfold sim_collide, sim_pairs. cbn [In].
    destruct W as [(_ & -> & ->)|[(_ & -> & ->)|[(_ & [[-> ->]|[-> ->]])|(_ & [[-> ->]|[-> ->]])]]]; auto 9.
Qed.

(** The equations of a pair. *)
Lemma sim_pair A B pA pB : (A <= B)%nat -> nth_error r A = Some pA -> nth_error r B = Some pB -> exists xs qs,
  pair_sets s A B = qs /\ List.Forall2 (fun x q => load_equation reg r x = Ok q) xs qs /\ NoDup xs /\
  (forall x, In x xs <-> exists k i, sim_kept k i /\ x = sx k i /\ written_as A B (pr_name pA) (pr_name pB) (si_in i)).
Proof.
  intros L HA HB. assert (LB : (B < length r)%nat) by (apply nth_error_Some; congruence).
  pose proof (gas_set_ok _ _ _ _ _ _ sim_gas) as Hd.
  destruct (init_exact reg d sim_filter props r s (gas_unique _ _ _ _ _ _ sim_gas) Hd (gas_plain_names _ _ _ _ _ _ sim_gas) sim_init A B (conj L LB))
    as (m & xs & qs & Hm & Hmi & Hf & Ec & _ & HF & Hp).
  exists xs, qs. split; [unfold pair_sets; destruct (Nat.ltb_spec B A); [lia|now rewrite Ec]|]. split; [exact HF|]. split.
  - destruct (filter_total (x_inter d) Hd sim_filter m Hm) as (xs' & E & So & _); [intros x Hx; now apply Hmi|]. rewrite Hf in E. injection E as <-. now apply ss_nodup.
  - intros x. rewrite (Hp (conj I I)). now apply kept_iff.
Qed.
End Database.
