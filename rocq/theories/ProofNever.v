(** Channels that never complete. *)
From Coq Require Import Reals Lra Lia String ZArith Bool Arith Sorted Permutation List.
From Verif Require Import Base Num ModelTerm ModelCollide ModelFactories ModelXsec ModelSet ModelEq ModelFilter ModelDB
  SpecTerm SpecPhys SpecFactories SpecXsec SpecSet SpecEq SpecFilter SpecDB SpecMore SpecRun SpecInit SpecLoadable
  ProofCollide ProofInelastic ProofDriver3 ProofRun ProofRun2 ProofInit ProofInit2.
From Coq Require Import List.
Import ListNotations.
Local Open Scope R_scope.

Section Gas.
Variables (mass charge : Z -> R).
Definition bare (rhs : list (equation RNum)) (j : nat) : R :=
  match nth_error rhs j with Some q => match q_model q with MInBare => 1 | _ => 0 end | None => 1 end.
Lemma bare_nonneg rhs j : 0 <= bare rhs j.
Proof. unfold bare. destruct (nth_error rhs j) as [q|]; [destruct (q_model q)|]; lra. Qed.
Lemma bare_step K g rhs (A B : nat) : (A <= B)%nat -> List.Forall (gas_channel mass charge (Z.of_nat A) (Z.of_nat B)) rhs ->
  step_ok (fun _ => 0) K g rhs A B (bare rhs) (bare rhs).
Proof.
  intros HAB HG msv pA pB l k path a b l' k' TA TB H L.
  destruct (species_step mass charge (fun _ => 0) K g (fun _ _ => rhs) A B HAB HG msv pA pB l k path a b l' k' TA TB H L) as (new & E & Hd & Hs).
  exists new. split; [exact E|]. split; [|exact Hs].
  destruct (selected_in_order _ _ _ _ _ _ _ _ _ _ _ _ _ _ _ HAB TA TB H L) as (q & k1 & Eq & Hm).
  assert (Z : bare rhs (Z.to_nat (fst path)) = 0).
  { unfold bare. rewrite Eq. destruct (q_model q) eqn:Em; try reflexivity. discriminate Hm. }
  rewrite Z. assert (S : forall l : list (particle RNum), Rsum (map (fun _ => 0) l) = 0) by (induction l0; cbn [map Rsum]; lra).
  destruct new; [lra|]. rewrite S. lra.
Qed.
Lemma over_nonneg (h : nat -> nat -> nat -> R) log A B ij k : (forall A B j, 0 <= h A B j) -> over_collisions h log = 0 ->
  In (A, B, ij, k) log -> (0 <= k)%Z -> h A B (Z.to_nat k) = 0.
Proof.
  intros Hh. unfold over_collisions.
  assert (P : forall log, 0 <= Rsum (map (fun e : nat * nat * (nat * nat) * Z => if (0 <=? snd e)%Z then h (fst (fst (fst e))) (snd (fst (fst e))) (Z.to_nat (snd e)) else 0) log)).
  { clear -Hh. induction log as [|e log IH]; cbn [map Rsum]; [lra|]. destruct (0 <=? snd e)%Z; [|lra]. specialize (Hh (fst (fst (fst e))) (snd (fst (fst e))) (Z.to_nat (snd e))). lra. }
  induction log as [|e log IH]; [intros _ []|]. cbn [map Rsum]. intros Z I Hk.
  assert (Q : 0 <= if (0 <=? snd e)%Z then h (fst (fst (fst e))) (snd (fst (fst e))) (Z.to_nat (snd e)) else 0) by (destruct (0 <=? snd e)%Z; [apply Hh|lra]).
  specialize (P log). destruct I as [->|I].
  - cbn [fst snd] in *. apply Z.leb_le in Hk. rewrite Hk in *. lra.
  - apply IH; [lra|exact I|exact Hk].
Qed.
Lemma run_never K fuel dt (c : cell RNum) nprops db res er g k s : rng_ok g -> bounded (2 ^ 31) (c_ranges c) -> disjoint (c_ranges c) ->
  typed (c_mem c) (c_ranges c) -> driver (N:=RNum) K fuel true dt c nprops db res er g k = Ok s ->
  (forall A B, (A <= B)%nat -> List.Forall (gas_channel mass charge (Z.of_nat A) (Z.of_nat B)) (db A B)) ->
  (forall A B, (B < A)%nat -> db A B = []) ->
  forall A B ij n, In (A, B, ij, n) (s_log s) -> (0 <= n)%Z -> exists q, nth_error (db A B) (Z.to_nat n) = Some q /\ q_model q <> MInBare.
Proof.
  intros Hg Hb Hd Ht Hrun HG Hlow A B ij n I Hn.
  destruct (run_amount (fun _ => 0) K fuel dt c nprops db res er g k s (2 ^ 31) (fun A B => bare (db A B)) (fun A B => bare (db A B))) as [_ H]; try assumption.
  - apply rpos_ok, Hg.
  - intros A' B'. destruct (Nat.le_gt_cases A' B') as [L|L]; [|rewrite Hlow by assumption; constructor].
    eapply List.Forall_impl; [|exact (HG A' B' L)]. intros q Hq. eapply gas_appends; eassumption.
  - intros A' B' L. apply bare_step; auto.
  - assert (Z : forall mem rs r, amount (fun _ => 0) mem rs r = 0).
    { intros mem rs r. unfold amount. assert (S : forall T (l : list T) (h : T -> R), (forall t, h t = 0) -> Rsum (map h l) = 0).
      { intros T l h Hh. induction l as [|t l IH]; cbn [map Rsum]; [reflexivity|]. rewrite Hh, IH. lra. }
      rewrite (S _ rs), (S _ r); [lra|reflexivity|]. intros rg. unfold content. apply S. intros [p|]; reflexivity. }
    rewrite !Z in H. assert (Z0 : over_collisions (fun A B => bare (db A B)) (s_log s) = 0) by lra.
    pose proof (over_nonneg _ _ A B ij n (fun A B => bare_nonneg (db A B)) Z0 I Hn) as E. cbv beta in E. unfold bare in E.
    destruct (nth_error (db A B) (Z.to_nat n)) as [q|]; [|lra]. exists q. split; [reflexivity|]. intros Em. rewrite Em in E. lra.
Qed.
End Gas.

Section Doc.
Variables (fuel : nat) (allowed : bool) (inf ninf : RNum) (tol : RNum -> RNum -> bool)
  (solve : (RNum -> RNum) -> RNum -> RNum -> RNum * RNum) (finf : RNum)
  (parse : string -> outcome (list (expr RNum))) (fcm fcq : bool).
Notation reg := (default_reg (N:=RNum) fuel allowed inf ninf tol solve (setParticleFactories (N:=RNum) finf) parse fcm fcq).
Variables (d : document RNum) (f : filt) (props r : list (prop RNum)) (s : sets RNum).
Hypothesis U : unique_names props.
Hypothesis Hpos : forall p, In p props -> 0 < pr_mass p.
Hypothesis Hd : set_ok (x_inter d).
Hypothesis Hn : plain_names props (x_inter d).
Hypothesis Hpl : plain_among props (x_inter d).
Hypothesis Hinit : initBinary reg d f props = Ok (r, s).
Lemma doc_never K rfuel dt (c : cell RNum) nprops res er g k st : rng_ok g -> bounded (2 ^ 31) (c_ranges c) -> disjoint (c_ranges c) ->
  typed (c_mem c) (c_ranges c) -> driver (N:=RNum) K rfuel true dt c nprops (pair_sets s) res er g k = Ok st ->
  forall A B ij n, In (A, B, ij, n) (s_log st) -> (0 <= n)%Z ->
  exists x q, entry d f r A B (Z.to_nat n) = Some x /\ nth_error (pair_sets s A B) (Z.to_nat n) = Some q /\
    In x (x_inter d) /\ among props x /\
    (is_reaction q = true -> length (products x) = 2 \/ length (products x) = 3)%nat.
Proof.
  intros Hg Hb Hdj Ht Hrun A B ij n I Hk.
  pose proof (pair_channels fuel allowed inf ninf tol solve finf parse fcm fcq d f props r s U Hpos Hd Hn Hpl Hinit) as PC.
  destruct (run_never (mass_of r) (charge_of r) K rfuel dt c nprops (pair_sets s) res er g k st Hg Hb Hdj Ht Hrun PC) with (2 := I) (3 := Hk) as (q & Hq & Hm).
  { intros A' B' L. eapply pair_low; eassumption. }
  destruct (channel_source fuel allowed inf ninf tol solve finf parse fcm fcq d f props r s U Hd Hn Hinit A B _ q Hq) as (_ & x & Ex & Ix & Hbl & L).
  exists x, q. split; [exact Ex|]. split; [exact Hq|]. split; [exact Ix|].
  assert (Ha : among props x) by (eapply source_among; eassumption). split; [exact Ha|]. intros Hr.
  pose proof L as (pA & pB & Lx & _).
  destruct (model_cases fuel allowed inf ninf tol solve finf parse fcm fcq r x q Lx) as [E|[(al & Hal & E)|(th & Eth & Em)]].
  - unfold is_reaction in Hr. rewrite E in Hr. discriminate.
  - unfold is_reaction in Hr. rewrite E in Hr. discriminate.
  - destruct (loaded_length fuel allowed inf ninf tol solve finf parse fcm fcq r A B x q L (Hpl x Ix Ha) _ _ Em) as [Hl|Hl]; [exact Hl|contradiction].
Qed.
End Doc.
