(** C100: the example program examples/simtest. *)
From Coq Require Import Reals Lra Lia String ZArith Bool Arith Permutation List.
From Flocq Require Import Core.Core IEEE754.BinarySingleNaN.
From Verif Require Import Base Num ModelTerm ModelCollide ModelFactories ModelXsec ModelSet ModelEq ModelFilter ModelDB ModelMisc ModelShippedTables ModelShipped ModelSim
  SpecTerm SpecPhys SpecFactories SpecXsec SpecSet SpecEq SpecFilter SpecDB SpecInit SpecShipped SpecSim
  ProofCollide ProofXsec ProofData ProofInelastic ProofFloat ProofSelect ProofDriver2 ProofTop3 ProofDriver3 ProofShipped ProofShipped2 ProofSim ProofSim2 ProofSim3 Properties1 Properties3 Properties16.
From Coq Require Import List.
Import ListNotations.
Local Open Scope R_scope.

(** C100.  createRandomParticles: draws of the species on [0, n) give particles of species
    0..n-1 with weight 1, ... *)
Theorem C100_created : forall n count (species : nat -> RNum) position velocity, (Z.of_nat n <= 2 ^ 31)%Z ->
  (forall i, (i < count)%nat -> 0 <= species i < INR n) ->
  exists ps, createRandomParticles (N:=RNum) n count species position velocity = Ok ps /\ length ps = count /\
    forall p, In p ps -> (0 <= p_species p < Z.of_nat n)%Z /\ p_weight p = 1.
Proof.
  intros n count species position velocity Hn H.
  destruct (created_total (N:=RNum) n count species position velocity) as (ps & E).
  - intros i Hi. specialize (H i Hi). rewrite INR_IZR_INZ in H. assert (IZR (Z.of_nat n) <= 2147483648) by (apply IZR_le; lia).
    unfold to_int. unR. change (T RNum) with R in *. destruct (Rltb_spec (-2147483649) (species i)); [|exfalso; lra]. destruct (Rltb_spec (species i) 2147483648); [|exfalso; lra].
    cbn [andb]. eexists. split; [reflexivity|]. change (@ntrunc RNum) with Ztrunc. rewrite Ztrunc_floor by lra.
    split; [apply Zfloor_lub; lra|]. apply lt_IZR. eapply Rle_lt_trans; [apply Zfloor_lb|lra].
  - exists ps. split; [exact E|]. exact (created_spec n count species position velocity ps E).
Qed.
Print Assumptions C100_created.
(** ... also in binary64. *)
Theorem C100_created_double : forall lm n count (species : nat -> F64 lm) position velocity, (Z.of_nat n <= 2 ^ 31)%Z ->
  (forall i, (i < count)%nat -> is_finite (species i) = true /\ 0 <= B2R (species i) < INR n) ->
  exists ps, createRandomParticles (N:=F64 lm) n count species position velocity = Ok ps /\ length ps = count /\
    forall p, In p ps -> (0 <= p_species p < Z.of_nat n)%Z /\ p_weight p = fofZ 1.
Proof.
  intros lm n count species position velocity Hn H.
  destruct (created_total (N:=F64 lm) n count species position velocity) as (ps & E).
  - intros i Hi. destruct (H i Hi) as [F B]. rewrite INR_IZR_INZ in B. destruct (fto_int (lm:=lm) (species i) (Z.of_nat n) F B) as [_ G].
    destruct (G Hn) as (d & Ed & Hd). exists d. auto.
  - exists ps. split; [exact E|]. exact (created_spec n count species position velocity ps E).
Qed.
Print Assumptions C100_created_double.
(** sortBySpecies is defined exactly for them; it keeps the particles, and the range of species
    A delimits exactly the particles of species A. *)
Theorem C100_sorted : forall (N : Num) n (ps : list (particle N)),
  ((exists m, sortBySpecies n ps = Ok m) <-> (0 < n)%nat /\ forall p, In p ps -> (0 <= p_species p < Z.of_nat n)%Z) /\
  forall mem rs, sortBySpecies n ps = Ok (mem, rs) -> Permutation mem ps /\ length rs = n /\
    forall A, (A < n)%nat -> exists a b, nth_error rs A = Some (a, b) /\ (a <= b <= length mem)%nat /\
      forall i p, nth_error mem i = Some p -> ((a <= i < b)%nat <-> p_species p = Z.of_nat A).
Proof. intros N n ps. split; [apply sort_defined|apply sort_sorted]. Qed.
Print Assumptions C100_sorted.
(** Draws 1.5, 0.25 and 1 of two species; sorting the three particles puts the second first. *)
Definition draw100 (i : nat) : R := match i with 0%nat => 3/2 | 1%nat => 1/4 | _ => 1 end.
Definition part100 (i : nat) (sp : Z) : particle RNum := mkParticle (N:=RNum) (V3 (N:=RNum) (INR i) 0 0) (V3 (N:=RNum) 0 (INR i) 0) sp 1.
Example C100_sort_case :
  createRandomParticles (N:=RNum) 2 3 draw100 (fun i => V3 (N:=RNum) (INR i) 0 0) (fun i => V3 (N:=RNum) 0 (INR i) 0) = Ok [part100 0 1; part100 1 0; part100 2 1] /\
  sortBySpecies 2 [part100 0 1; part100 1 0; part100 2 1] = Ok ([part100 1 0; part100 0 1; part100 2 1], [(0, 1); (1, 3)]%nat) /\
  sortBySpecies 1 [part100 0 1] = UB.
Proof.
  split; [|split; reflexivity].
  assert (E : forall x : R, 0 <= x < 2 -> to_int (N:=RNum) x = Ok (Zfloor x)).
  { intros x H. unfold to_int. unR. change (T RNum) with R in *. destruct (Rltb_spec (-2147483649) x); [|exfalso; lra]. destruct (Rltb_spec x 2147483648); [|exfalso; lra].
    cbn [andb]. change (@ntrunc RNum) with Ztrunc. rewrite Ztrunc_floor by lra. reflexivity. }
  unfold createRandomParticles. cbn [seq ofold obind]. unfold randomParticle.
  change (draw100 0) with (3/2). change (draw100 1) with (1/4). change (draw100 2) with 1.
  rewrite (E (3/2)), (E (1/4)), (E 1) by lra. replace (Zfloor (3/2)) with 1%Z by (symmetry; apply Zfloor_imp; cbn; lra).
  replace (Zfloor (1/4)) with 0%Z by (symmetry; apply Zfloor_imp; cbn; lra). replace (Zfloor 1) with 1%Z by (symmetry; apply Zfloor_imp; cbn; lra). reflexivity.
Qed.

Section Statements.
Variables (fuel : nat) (allowed : bool) (inf ninf : RNum) (tol : RNum -> RNum -> bool)
  (solve : (RNum -> RNum) -> RNum -> RNum -> RNum * RNum) (finf : RNum)
  (parse : string -> outcome (list (expr RNum))) (fcm fcq : bool).
Let reg := default_reg (N:=RNum) fuel allowed inf ninf tol solve (setParticleFactories (N:=RNum) finf) parse fcm fcq.

(** With the shipped data the database loads; exactly four pairs of species have an equation,
    each exactly one, elastic. *)
Theorem C100_database : forall val ginv path text d, sim_data val ginv path text d ->
  1 < finf -> (9900 <= Z.of_nat fuel)%Z -> (forall h a b, tol (fst (solve h a b)) (snd (solve h a b)) = true) ->
  exists r s, sim_database reg d = Ok (r, s) /\ Permutation (map (pr_name (N:=RNum)) r) ["87Rb"; "Ar"; "e^-"; "Hg"; "Hg^+"]%string /\
    forall A B pA pB, (A <= B)%nat -> nth_error r A = Some pA -> nth_error r B = Some pB ->
      (sim_collide (pr_name pA) (pr_name pB) -> exists q, cell_get s A B = Ok [q] /\ cell_get s B A = Ok [q] /\
         q_model q = MElastic (ReducedMass (N:=RNum) (pr_mass pA) (pr_mass pB))) /\
      (~ sim_collide (pr_name pA) (pr_name pB) -> cell_get s A B = Ok [] /\ cell_get s B A = Ok []).
Proof.
  intros val ginv path text d Hd Hfi Hfu Hso. pose proof Hd as (Hg & Hl & HeV & _).
  destruct (C88_shipped fuel allowed inf ninf tol solve finf parse fcm fcq val ginv path text d sim_particles sim_filter Hg HeV Hl Hfi Hfu Hso) as (s & Hi).
  exists (sort_props (map (shipped_prop val) sim_particles)), s.
  assert (E : sim_database reg d = Ok (sort_props (map (shipped_prop val) sim_particles), s)).
  { unfold sim_database. rewrite (sim_added val ginv path text d Hd). exact Hi. }
  revert E. generalize (sort_props (map (shipped_prop val) sim_particles)) as r. intros r E. split; [exact E|]. split.
  - apply Permutation_sym. exact (Permutation_map (pr_name (N:=RNum)) (sim_perm fuel allowed inf ninf tol solve finf parse fcm fcq val ginv path text d Hd r s E)).
  - intros A B pA pB L HA HB. assert (LB : (B < length r)%nat) by (apply nth_error_Some; congruence).
    pose proof (sim_init fuel allowed inf ninf tol solve finf parse fcm fcq val ginv path text d Hd r s E) as Hi'.
    destruct (ProofDB3.init_exact reg d sim_filter _ r s (gas_unique _ _ _ _ _ _ Hg) (gas_set_ok _ _ _ _ _ _ Hg) (gas_plain_names _ _ _ _ _ _ Hg) Hi' A B (conj L LB))
      as (_ & _ & qs & _ & _ & _ & C1 & C2 & _).
    destruct (sim_pair fuel allowed inf ninf tol solve finf parse fcm fcq val ginv path text d Hd r s E A B pA pB L HA HB) as (xs & qs' & Eq & HF & ND & Hx).
    assert (qs' = qs) as ->. { rewrite <- Eq. unfold pair_sets. destruct (Nat.ltb_spec B A); [lia|]. now rewrite C1. }
    pose proof (pair_names fuel allowed inf ninf tol solve finf parse fcm fcq val ginv path text d Hd r s E A B pA pB HA HB) as PN. split.
    + intros C. apply PN in C as (k & i & Hk & W).
      assert (I1 : In (sx val ginv path text k i) xs) by (apply Hx; eauto).
      pose proof (pair_single fuel allowed inf ninf tol solve finf parse fcm fcq val ginv path text d Hd r s E A B) as Len. rewrite Eq in Len.
      assert (Hq : exists q, qs = [q]). { destruct HF as [|x q xs qs _ HF]; [destruct I1|]. destruct qs; [eauto|cbn in Len; lia]. }
      destruct Hq as (q & ->). exists q. split; [exact C1|]. split; [exact C2|].
      assert (Iq : In q (pair_sets s A B)) by (unfold pair_sets; destruct (Nat.ltb_spec B A); [lia|]; rewrite C1; now left).
      destruct (sim_channel fuel allowed inf ninf tol solve finf parse fcm fcq val ginv path text d Hd r s E A B q Iq) as (_ & pA' & pB' & k' & i' & HA' & HB' & Hk' & Lq & _ & Em).
      rewrite (kept_model fuel allowed inf ninf tol solve finf parse fcm fcq val ginv path text r k' i' q Hk' Lq), Em.
      rewrite HA in HA'. injection HA' as <-. rewrite HB in HB'. injection HB' as <-. reflexivity.
    + intros NC. assert (xs = []) as ->. { destruct xs as [|x xs]; [reflexivity|]. exfalso. apply NC, PN. destruct (proj1 (Hx x) (or_introl eq_refl)) as (k & i & Hk & _ & W). eauto. }
      clear Eq. inversion HF; subst. split; assumption.
Qed.
(** For up to 2^31 - 1 particles, none too fast for the table of e^- + Ar, the driver call has
    undefined behaviour exactly if 87Rb, Ar, e^- or Hg has no particle (Hg^+ may have none). *)
Theorem C100_undefined : forall val ginv path text d r s K rfuel dt ps g k, sim_data val ginv path text d ->
  sim_database reg d = Ok (r, s) -> rng_ok g -> slow val ps -> (Z.of_nat (length ps) < 2 ^ 31)%Z ->
  (forall p, In p ps -> (0 <= p_species p < Z.of_nat (length r))%Z) ->
  (sim_run (N:=RNum) K rfuel dt (length r) (pair_sets s) ps g k = UB <-> exists n, In n ["87Rb"; "Ar"; "e^-"; "Hg"]%string /\ missing r ps n).
Proof. intros until k. intros Hd Hi. now apply (sim_undefined fuel allowed inf ninf tol solve finf parse fcm fcq val ginv path text d Hd r s Hi). Qed.
(** However fast they are, the call never completes then. *)
Theorem C100_never : forall val ginv path text d r s K rfuel dt ps g k st n, sim_data val ginv path text d ->
  sim_database reg d = Ok (r, s) -> In n ["87Rb"; "Ar"; "e^-"; "Hg"]%string -> missing r ps n ->
  sim_run (N:=RNum) K rfuel dt (length r) (pair_sets s) ps g k <> Ok st.
Proof.
  intros val ginv path text d r s K rfuel dt ps g k st n Hd Hi Hn (A & p & HA & En & NO) Hrun.
  unfold sim_run in Hrun. apply obind_ok in Hrun as ([mem rs] & Es & Hrun). unfold driver in Hrun.
  cbn zeta in Hrun. apply obind_ok in Hrun as ([l k1] & E1 & _). apply first_pass_ok in E1 as [_ Hct]. cbn [c_ranges c_mem sim_cell] in Hct.
  destruct (sort_sorted _ _ _ _ Es) as (Pm & Ll & So). cbn [c_ranges sim_cell] in *. rewrite Ll, Nat.min_id in Hct.
  assert (LA : (A < length r)%nat) by (apply nth_error_Some; congruence).
  assert (Part : exists m, In m five /\ sim_collide n m).
  { cbn [In] in Hn. unfold sim_collide, sim_pairs. cbn [In]. destruct Hn as [<-|[<-|[<-|[<-|[]]]]]; [exists "87Rb"%string|exists "Ar"%string|exists "Ar"%string|exists "e^-"%string]; (split; [cbn; auto 9|auto 9]). }
  destruct Part as (m & Hm & Cm). destruct (sim_index fuel allowed inf ninf tol solve finf parse fcm fcq val ginv path text d Hd r s Hi m Hm) as (B & pB & HB & EB).
  assert (LB : (B < length r)%nat) by (apply nth_error_Some; congruence).
  assert (Ne : forall A' B' pA' pB', (A' <= B')%nat -> nth_error r A' = Some pA' -> nth_error r B' = Some pB' -> sim_collide (pr_name pA') (pr_name pB') -> pair_sets s A' B' <> []).
  { intros A' B' pA' pB' L' HA' HB' Cn. destruct (sim_pair fuel allowed inf ninf tol solve finf parse fcm fcq val ginv path text d Hd r s Hi A' B' pA' pB' L' HA' HB') as (xs & qs & Eq & HF & _ & Hx).
    apply (pair_names fuel allowed inf ninf tol solve finf parse fcm fcq val ginv path text d Hd r s Hi A' B' pA' pB' HA' HB') in Cn as (k0 & i & Hk & W).
    assert (Ix : In (sx val ginv path text k0 i) xs) by (apply Hx; eauto). rewrite Eq. destruct HF; [destruct Ix|discriminate]. }
  assert (Empty : forall rg q, nth_error rs A = Some rg -> nth_error mem (fst rg) = Some q -> (fst rg < snd rg)%nat -> False).
  { intros rg q Hr Hq Lt. destruct (So A LA) as (a & b & Er & _ & S). rewrite Hr in Er. injection Er as ->. cbn [fst snd] in *. apply NO. exists q.
    split; [eapply Permutation_in; [exact Pm|eapply nth_error_In; exact Hq]|]. apply (S a q Hq). lia. }
  destruct (Nat.le_ge_cases A B) as [L|L].
  - assert (Isp : In (A, B) (species_pairs (length r))) by (apply species_pairs_in; lia). apply in_split in Isp as (l1 & l2 & Esp).
    destruct (Hct l1 A B l2 Esp) as (ct & la & lb & ra & rb & pa & pb & _ & _ & _ & _ & Ea & Eb & La & Lb & Epa & Epb & _).
    + apply (Ne A B p pB L HA HB). rewrite En, EB. exact Cm.
    + exact (Empty ra pa Ea Epa La).
  - assert (Isp : In (B, A) (species_pairs (length r))) by (apply species_pairs_in; lia). apply in_split in Isp as (l1 & l2 & Esp).
    destruct (Hct l1 B A l2 Esp) as (ct & la & lb & ra & rb & pa & pb & _ & _ & _ & _ & Ea & Eb & La & Lb & Epa & Epb & _).
    + apply (Ne B A pB p L HB HA). rewrite En, EB. unfold sim_collide in *. tauto.
    + exact (Empty rb pb Eb Epb Lb).
Qed.
(** A call that completes leaves the particles as they were sorted, erases none, and tests only
    different particles of pairs that collide, with channel 0 or none. *)
Theorem C100_completed : forall val ginv path text d r s K rfuel dt ps g k st, sim_data val ginv path text d ->
  sim_database reg d = Ok (r, s) -> rng_ok g -> (Z.of_nat (length ps) < 2 ^ 31)%Z ->
  sim_run (N:=RNum) K rfuel dt (length r) (pair_sets s) ps g k = Ok st ->
  Permutation (s_mem st) ps /\ s_erase st = [] /\
  forall A B i j n, In (A, B, (i, j), n) (s_log st) -> (n = 0 \/ n = -1)%Z /\ i <> j /\
    exists pA pB a b, nth_error r A = Some pA /\ nth_error r B = Some pB /\ sim_collide (pr_name pA) (pr_name pB) /\
      nth_error (s_mem st) i = Some a /\ p_species a = Z.of_nat A /\ nth_error (s_mem st) j = Some b /\ p_species b = Z.of_nat B.
Proof.
  intros until st. intros Hd Hi Hg Hlen Hrun. unfold sim_run in Hrun. apply obind_ok in Hrun as ([mem rs] & Es & Hrun).
  destruct (sort_cell _ _ _ _ Es Hlen) as (Bd & _ & _ & _ & Ty). destruct (sort_sorted _ _ _ _ Es) as (Pm & _).
  destruct (C42_out_of_place RNum K rfuel dt (sim_cell n1 mem rs) (length r) (pair_sets s) [] [] g k st (2 ^ 31)%Z (rpos_ok g Hg) Bd) as (Em & _ & Ee & _ & Hlog); [|exact Hrun|].
  - intros A B. apply List.Forall_forall. intros q Hq. exact (proj2 (channel_safe fuel allowed inf ninf tol solve finf parse fcm fcq val ginv path text d Hd r s Hi A B q 0 false Hq)).
  - cbn [c_mem c_ranges sim_cell] in *. rewrite Em. split; [exact Pm|]. split; [exact Ee|]. intros A B i j n Hin.
    rewrite List.Forall_forall in Hlog. destruct (Hlog _ Hin) as (A' & B' & _ & Ne & (i' & j' & n' & ra & rb & Ei & Ha & Hb & Ia & Ib & Nij & Hp)).
    injection Ei as <- <- <- <- <-. pose proof (pair_single fuel allowed inf ninf tol solve finf parse fcm fcq val ginv path text d Hd r s Hi A B) as Len.
    split; [lia|]. split; [exact Nij|]. destruct (pair_sets s A B) as [|q l] eqn:Eq; [congruence|]. assert (Hq : In q (pair_sets s A B)) by (rewrite Eq; now left).
    destruct (sim_channel fuel allowed inf ninf tol solve finf parse fcm fcq val ginv path text d Hd r s Hi A B q Hq) as (_ & pA & pB & k' & i' & HA & HB & Hk & _ & W & _).
    destruct (Ty A ra i Ha Ia) as (a & Ea & Sa). destruct (Ty B rb j Hb Ib) as (b & Eb & Sb). exists pA, pB, a, b. split; [exact HA|]. split; [exact HB|]. split; [|auto].
    apply (pair_names fuel allowed inf ninf tol solve finf parse fcm fcq val ginv path text d Hd r s Hi A B pA pB HA HB). eauto.
Qed.
End Statements.
Print Assumptions C100_database.
Print Assumptions C100_undefined.
Print Assumptions C100_never.
Print Assumptions C100_completed.

(** Masses 1, 40, 87, 199, 200, one particle of each species: with all five the call is defined;
    without species A it is undefined unless A is Hg^+. *)
Definition val100 (c : string) : R :=
  if String.eqb c "m_e" then 1 else if String.eqb c "element::Ar::mass" then 40 else if String.eqb c "element::Hg::mass" then 200 else 1.
Definition xterm_dec (a b : xterm) : {a = b} + {a <> b}.
Proof. repeat decide equality. Defined.
Definition text100 (k : nat) : string * string :=
  match nth_error shipped_interactions k with
  | Some i => if list_eq_dec xterm_dec (si_in i) (si_out i) then ("a", "a")%string else ("a", "b")%string
  | None => ("", "")%string
  end.
Definition doc100 : document RNum := mkDoc (N:=RNum)
  (fun n => match find (fun p => String.eqb (sp_name p) n) sim_particles with Some p => Ok (shipped_prop val100 p) | None => Throw ExnNotFound end)
  (fun _ => []) (fun _ => Throw ExnNotFound) (shipped_doc val100 (fun _ => 1) (fun _ => []) text100).
Lemma mass100 p : In p sim_particles -> 1 <= linear val100 (sp_mass p) /\ (sp_name p <> "e^-"%string -> 1 < linear val100 (sp_mass p)).
Proof. intros [<-|[<-|[<-|[<-|[<-|[]]]]]]; unfold linear, val100; cbn; (split; [lra|]); intros H; try lra; now contradiction H. Qed.
Lemma data100 : sim_data val100 (fun _ => 1) (fun _ => []) text100 doc100.
Proof.
  split; [|split; [|split; [|split]]].
  - split; [|split; [|split; [|reflexivity]]].
    + repeat constructor; cbn; intuition discriminate.
    + intros p Hp. assert (E : ship_named (sp_name p) = Some p) by (destruct Hp as [<-|[<-|[<-|[<-|[<-|[]]]]]]; reflexivity).
      unfold ship_named in E. apply find_some in E. tauto.
    + intros p Hp. apply mass100 in Hp as [H _]. lra.
  - intros p Hp Hn _. apply mass100 in Hp as [_ H]. specialize (H Hn). unfold val100 at 1. cbn. exact H.
  - unfold val100. cbn. lra.
  - intros k i Hk. unfold text100. rewrite Hk. destruct (list_eq_dec xterm_dec (si_in i) (si_out i)) as [E|E]; cbn; split; intros H; try assumption; try reflexivity; try discriminate. contradiction.
  - intros p [<-|[<-|[<-|[<-|[<-|[]]]]]]; reflexivity.
Qed.
Definition ps100 : list (particle RNum) := map (fun i => mkParticle (N:=RNum) (V3 (N:=RNum) 0 0 0) (V3 (N:=RNum) 1 0 (-1)) i 1) [4; 0; 3; 1; 2]%Z.
Definition without (A : nat) : list (particle RNum) := filter (fun p => negb (Z.eqb (p_species p) (Z.of_nat A))) ps100.
Lemma slow100 ps : incl ps ps100 -> slow val100 ps.
Proof.
  intros H. exists 1. split.
  - intros p Hp. apply H in Hp. apply in_map_iff in Hp as (i & <- & _). cbn. split_Rabs; lra.
  - unfold val100. cbn. lra.
Qed.
Lemma filter_short {A} (f : A -> bool) l : (length (filter f l) <= length l)%nat.
Proof. induction l as [|a l IH]; cbn; [lia|]. destruct (f a); cbn; lia. Qed.
Example C100_case : forall g : rng RNum, rng_ok g -> exists r s,
  sim_database (default_reg (N:=RNum) (Z.to_nat 9900) true 1 (-1) (fun _ _ => true) (fun _ a b => (a, b)) (setParticleFactories (N:=RNum) 2) (fun _ => Throw ExnRuntime) true true) doc100 = Ok (r, s) /\
  sim_run (N:=RNum) 1 3 1 (length r) (pair_sets s) ps100 g 0 <> UB /\
  forall A p, nth_error r A = Some p ->
    (sim_run (N:=RNum) 1 3 1 (length r) (pair_sets s) (without A) g 0 = UB <-> pr_name p <> "Hg^+"%string).
Proof.
  intros g Hg. pose proof data100 as Hd.
  destruct (C100_database (Z.to_nat 9900) true 1 (-1) (fun _ _ => true) (fun _ a b => (a, b)) 2 (fun _ => Throw ExnRuntime) true true _ _ _ _ _ Hd)
    as (r & s & Hi & Pn & _); [unR; lra|rewrite Z2Nat.id; lia|reflexivity|].
  assert (Lr : length r = 5%nat) by (rewrite <- (map_length (pr_name (N:=RNum)) r), (Permutation_length Pn); reflexivity).
  exists r, s. split; [exact Hi|].
  assert (Sp : forall p, In p ps100 -> (0 <= p_species p < Z.of_nat (length r))%Z).
  { rewrite Lr. intros p Hp. apply in_map_iff in Hp as (i & <- & H). cbn [p_species]. cbn in H. lia. }
  assert (Oc : forall A, (A < 5)%nat -> occurs ps100 A).
  { intros A L. exists (mkParticle (N:=RNum) (V3 (N:=RNum) 0 0 0) (V3 (N:=RNum) 1 0 (-1)) (Z.of_nat A) 1). split; [|reflexivity].
    apply in_map_iff. exists (Z.of_nat A). split; [reflexivity|]. cbn. lia. }
  split.
  - rewrite (C100_undefined _ _ _ _ _ _ _ _ _ _ _ _ _ _ _ r s _ _ _ ps100 g 0%nat Hd Hi Hg (slow100 _ (incl_refl _))); [|cbn; lia|exact Sp].
    intros (n & _ & (A & p & HA & _ & NO)). apply NO, Oc. rewrite <- Lr. apply nth_error_Some. congruence.
  - intros A p HA. assert (LA : (A < 5)%nat) by (rewrite <- Lr; apply nth_error_Some; congruence).
    assert (In' : incl (without A) ps100) by (intros q Hq; apply filter_In in Hq; tauto).
    rewrite (C100_undefined _ _ _ _ _ _ _ _ _ _ _ _ _ _ _ r s _ _ _ (without A) g 0%nat Hd Hi Hg (slow100 _ In')).
    + assert (Nm : In (pr_name p) ["87Rb"; "Ar"; "e^-"; "Hg"; "Hg^+"]%string).
      { eapply Permutation_in; [exact Pn|]. apply in_map. eapply nth_error_In; exact HA. }
      split.
      * intros (n & Hn & (A' & p' & HA' & En & NO)) E. assert (A' = A) as ->.
        { destruct (Nat.eq_dec A' A) as [|NE]; [assumption|]. exfalso. apply NO. destruct (Oc A') as (q & Hq & Eq); [rewrite <- Lr; apply nth_error_Some; congruence|].
          exists q. split; [|exact Eq]. apply filter_In. split; [exact Hq|]. rewrite Eq. apply negb_true_iff, Z.eqb_neq. lia. }
        rewrite HA in HA'. injection HA' as <-. rewrite E in En. subst n. cbn in Hn. intuition discriminate.
      * intros NE. exists (pr_name p). split; [cbn in Nm |- *; intuition congruence|]. exists A, p. split; [exact HA|]. split; [reflexivity|].
        intros (q & Hq & Eq). apply filter_In in Hq as [_ Hq]. rewrite Eq, Z.eqb_refl in Hq. discriminate.
    + unfold without. eapply Z.le_lt_trans; [apply inj_le, (filter_short _ ps100)|cbn; lia].
    + intros q Hq. apply Sp, In', Hq.
Qed.
