(** The shipped data. *)
From Coq Require Import Reals Qreals Lra Lia String Ascii ZArith Bool Arith Sorted Permutation List.
From Verif Require Import Base Num ModelTerm ModelCollide ModelFactories ModelXsec ModelSet ModelEq ModelFilter ModelDB ModelShippedTables ModelShipped
  SpecTerm SpecPhys SpecFactories SpecXsec SpecSet SpecEq SpecFilter SpecDB SpecMore SpecRun SpecInit SpecShipped ProofInelastic ProofRun ProofRun2 ProofInit ProofInit2.
From Coq Require Import List.
Import ListNotations.
Local Open Scope R_scope.

(** ** The particles *)
Lemma ship_names_unique : NoDup (map sp_name shipped_particles).
Proof.
  assert (H : nodup string_dec (map sp_name shipped_particles) = map sp_name shipped_particles) by (vm_compute; reflexivity).
  rewrite <- H. apply NoDup_nodup.
Qed.
Lemma ship_named_in p : In p shipped_particles -> ship_named (sp_name p) = Some p.
Proof.
  unfold ship_named. pose proof ship_names_unique as U. revert U. generalize shipped_particles as l.
  induction l as [|a l IH]; [intros _ []|]. cbn [map find]. intros U I. inversion U as [|? ? Hn U']; subst.
  destruct (String.eqb_spec (sp_name p) (sp_name a)) as [E|E].
  - destruct I as [->|I]; [reflexivity|]. exfalso. apply Hn. rewrite <- E. now apply in_map.
  - destruct I as [->|I]; [contradiction|]. now apply IH.
Qed.
Lemma ship_name_inj p q : In p shipped_particles -> In q shipped_particles -> sp_name p = sp_name q -> p = q.
Proof. intros Hp Hq E. pose proof (ship_named_in p Hp) as A. rewrite E, (ship_named_in q Hq) in A. congruence. Qed.

(** ** Balances by coefficients *)
Definition coef (c : string) (l : list (Z * string)) : Z :=
  fold_right (fun t s => if String.eqb c (snd t) then (fst t + s)%Z else s) 0%Z l.
Definition constants : list string := nodup string_dec (concat (map (fun p => map snd (sp_mass p)) shipped_particles)).
Definition by_coef (val : string -> R) (f : string -> Z) : R := Rsum (map (fun c => IZR (f c) * val c) constants).
Lemma by_coef_add val f g : by_coef val (fun c => f c + g c)%Z = by_coef val f + by_coef val g.
Proof. unfold by_coef. induction constants as [|c l IH]; cbn [map Rsum fold_right]; [lra|]. rewrite IH, plus_IZR. lra. Qed.
Lemma by_coef_zero val : by_coef val (fun _ => 0%Z) = 0.
Proof. unfold by_coef. induction constants as [|c l IH]; cbn [map Rsum fold_right]; [lra|]. rewrite IH. lra. Qed.
Lemma by_coef_one val z c0 : In c0 constants -> by_coef val (fun c => if String.eqb c c0 then z else 0%Z) = IZR z * val c0.
Proof.
  unfold by_coef. assert (U : NoDup constants) by apply NoDup_nodup. revert U. generalize constants as l.
  induction l as [|c l IH]; [intros _ []|]. intros U I. inversion U as [|? ? Hn U']; subst. cbn [map Rsum fold_right].
  destruct (String.eqb_spec c c0) as [->|E].
  - replace (Rsum _) with 0; [lra|]. clear -Hn. induction l as [|d l IH]; [reflexivity|]. cbn [map Rsum fold_right].
    destruct (String.eqb_spec d c0) as [->|E]; [exfalso; apply Hn; now left|]. rewrite <- IH; [lra|]. intros H; apply Hn; now right.
  - destruct I as [->|I]; [contradiction|]. rewrite IH by assumption. lra.
Qed.
Lemma by_coef_ext val f g : (forall c, In c constants -> f c = g c) -> by_coef val f = by_coef val g.
Proof. intros H. unfold by_coef. revert H. generalize constants as l. intros l H. apply (f_equal Rsum). apply map_ext_in. intros c Hc. rewrite (H c Hc). reflexivity. Qed.
Lemma linear_coef val l : incl (map snd l) constants -> linear val l = by_coef val (fun c => coef c l).
Proof.
  induction l as [|[z c0] l IH]; intros H; cbn [linear fold_right coef].
  - now rewrite by_coef_zero.
  - cbn [fst snd]. change (fold_right _ 0 l) with (linear val l). rewrite IH by (intros y Hy; apply H; now right). rewrite <- (by_coef_one val z c0) by (apply H; now left). rewrite <- by_coef_add.
    apply by_coef_ext. intros c _. cbn [fst snd coef fold_right]. destruct (String.eqb_spec c c0); [reflexivity|]. reflexivity.
Qed.
Definition coef_called (c n : string) : Z := match ship_named n with Some p => coef c (sp_mass p) | None => 0%Z end.
Lemma mass_coef val n : mass_called val n = by_coef val (fun c => coef_called c n).
Proof.
  unfold mass_called, coef_called. destruct (ship_named n) as [p|] eqn:E; [|now rewrite by_coef_zero].
  apply linear_coef. intros c Hc. unfold constants. apply nodup_In. apply in_concat. exists (map snd (sp_mass p)). split; [|exact Hc].
  apply in_map_iff. exists p. split; [reflexivity|]. apply find_some in E. tauto.
Qed.
Definition zsum (l : list Z) : Z := fold_right Z.add 0%Z l.
Lemma total_mass_coef val xl : total_named (mass_called val) xl = by_coef val (fun c => zsum (map (coef_called c) (expand_names xl))).
Proof.
  unfold total_named. induction (expand_names xl) as [|n l IH]; cbn [map Rsum zsum fold_right]; [now rewrite by_coef_zero|].
  rewrite mass_coef, IH. fold (zsum (map (coef_called "") l)). rewrite <- by_coef_add. reflexivity.
Qed.

(** The check on the data. *)
Definition is_shipped (t : xterm) : bool := match ship_named (x_P t) with Some _ => true | None => false end.
Definition zcharge (n : string) : Z := match ship_named n with Some p => sp_charge p | None => 0%Z end.
Definition checked (i : ship_inter) : bool :=
  negb (forallb is_shipped (si_in i ++ si_out i)) ||
  (forallb (fun c => Z.eqb (zsum (map (coef_called c) (expand_names (si_out i)))) (zsum (map (coef_called c) (expand_names (si_in i))))) constants &&
   Z.eqb (zsum (map zcharge (expand_names (si_out i)))) (zsum (map zcharge (expand_names (si_in i))))).
Lemma all_checked : forallb checked shipped_interactions = true.
Proof. vm_compute. reflexivity. Qed.

Section Doc.
Variables (val : string -> R) (ginv : R -> R) (path : nat -> list string) (text : nat -> string * string).
Notation doc := (shipped_doc val ginv path text).
Lemma doc_inv x : In x doc -> exists k i, nth_error shipped_interactions k = Some i /\ x = shipped_x val ginv path text k i.
Proof.
  unfold shipped_doc. intros H. apply in_map_iff in H as ([k i] & <- & H). exists k, i. split; [|reflexivity].
  apply (In_nth_error) in H as (n & H). assert (G : forall l o m, nth_error (combine (seq o (length l)) l) m = Some (k, i) -> k = (o + m)%nat /\ nth_error l m = Some i).
  { clear. intros l; induction l as [|a l IH]; intros o [|m] H; cbn in H; try discriminate.
    - injection H as <- <-. split; [lia|reflexivity].
    - apply IH in H as [-> H]. split; [lia|exact H]. }
  apply G in H as [-> H]. exact H.
Qed.
Lemma doc_nth k i : nth_error shipped_interactions k = Some i -> In (shipped_x val ginv path text k i) doc.
Proof.
  intros H. unfold shipped_doc. apply in_map_iff. exists (k, i). split; [reflexivity|].
  assert (G : forall l o m, nth_error l m = Some i -> In ((o + m)%nat, i) (combine (seq o (length l)) l)).
  { clear. intros l; induction l as [|a l IH]; intros o [|m] H; cbn in H |- *; try discriminate.
    - injection H as ->. left. f_equal. lia.
    - right. replace (o + S m)%nat with (S o + m)%nat by lia. apply IH, H. }
  apply (G _ 0%nat _ H).
Qed.
Lemma doc_sorted : set_ok doc.
Proof.
  unfold set_ok, shipped_doc. generalize 0%nat as o. induction shipped_interactions as [|i l IH]; intros o; cbn [length seq combine map]; constructor; [apply IH|].
  apply List.Forall_forall. intros x Hx. apply in_map_iff in Hx as ([k j] & <- & H). apply in_combine_l, in_seq in H. cbn. lia.
Qed.
Lemma doc_balance x : In x doc -> all_shipped x -> forall val',
  total_named (mass_called val') (xi_out x) = total_named (mass_called val') (xi_in x) /\
  total_named charge_called (xi_out x) = total_named charge_called (xi_in x).
Proof.
  intros Hx Ha val'. apply doc_inv in Hx as (k & i & Hk & ->).
  pose proof all_checked as C. rewrite forallb_forall in C. specialize (C i (nth_error_In _ _ Hk)). unfold checked in C.
  apply orb_true_iff in C as [C|C].
  - exfalso. apply negb_true_iff in C. revert C. apply not_false_iff_true. apply forallb_forall. intros t Ht.
    destruct (Ha t Ht) as (p & Hp & E). unfold is_shipped. rewrite <- E, (ship_named_in p Hp). reflexivity.
  - apply andb_true_iff in C as [C1 C2]. cbn [xi_out xi_in shipped_x]. split.
    + rewrite !total_mass_coef. apply by_coef_ext. intros c Hc. rewrite forallb_forall in C1. exact (proj1 (Z.eqb_eq _ _) (C1 c Hc)).
    + apply Z.eqb_eq in C2.
      assert (G : forall xl, total_named charge_called xl = IZR (zsum (map zcharge (expand_names xl)))).
      { intros xl. unfold total_named. induction (expand_names xl) as [|n l IH]; [reflexivity|]. cbn [map Rsum zsum fold_right]. rewrite plus_IZR.
        unfold zsum in IH. rewrite IH. f_equal. unfold charge_called, zcharge. destruct (ship_named n); reflexivity. }
      now rewrite !G, C2.
Qed.

(** ** A gas of shipped species *)
Section Gas.
Variables (d : document RNum) (ps : list ship_particle).
Hypothesis Hgas : shipped_gas val ginv path text d ps.
Notation props := (map (shipped_prop val) ps).
Lemma gas_unique : unique_names props.
Proof.
  destruct Hgas as (ND & Hin & _). unfold unique_names. rewrite map_map. change (fun x => pr_name (shipped_prop val x)) with sp_name.
  revert ND Hin. clear Hgas. induction ps as [|p l IH]; intros ND Hin; [constructor|]. inversion ND as [|? ? Hn ND']; subst. cbn [map]. constructor.
  - intros H. apply in_map_iff in H as (q & E & Hq). apply Hn. rewrite <- (ship_name_inj q p); [exact Hq| | |exact E]; apply Hin; [now right|now left].
  - apply IH; [assumption|]. intros q Hq. apply Hin. now right.
Qed.
Lemma gas_pos p : In p props -> 0 < pr_mass p.
Proof. destruct Hgas as (_ & _ & Hp & _). intros H. apply in_map_iff in H as (q & <- & Hq). cbn. now apply Hp. Qed.
Lemma gas_set_ok : set_ok (x_inter d).
Proof. destruct Hgas as (_ & _ & _ & ->). apply doc_sorted. Qed.
Fixpoint char_b (c : ascii) (s : string) : bool :=
  match s with EmptyString => false | String d s => Ascii.eqb c d || char_b c s end.
Lemma char_b_ok c s : has_char c s -> char_b c s = true.
Proof. induction s as [|d0 s IH]; cbn; [tauto|]. intros [->|H]; [now rewrite Ascii.eqb_refl|]. rewrite (IH H). apply orb_true_r. Qed.
Definition plain_b (s : string) : bool := negb (String.eqb s "") && negb (char_b ":" s).
Lemma plain_b_ok s : plain_b s = true -> plain_name s.
Proof.
  unfold plain_b. intros H. apply andb_true_iff in H as [H1 H2]. split; [destruct (String.eqb_spec s ""); [discriminate|assumption]|].
  intros H. apply char_b_ok in H. rewrite H in H2. discriminate.
Qed.
Lemma names_checked : forallb (fun p => plain_b (sp_name p)) shipped_particles = true /\
  forallb (fun i => forallb (fun t => plain_b (x_P t) && String.eqb (xt_ops t) "") (si_out i) &&
    Nat.ltb (length (expand_names (si_out i))) 10) shipped_interactions = true.
Proof. split; vm_compute; reflexivity. Qed.
Lemma gas_plain_names : plain_names props (x_inter d).
Proof.
  destruct names_checked as [C1 C2]. rewrite forallb_forall in C1, C2. destruct Hgas as (_ & Hin & _ & Hd). split.
  - intros p Hp. apply in_map_iff in Hp as (q & <- & Hq). apply plain_b_ok, C1, Hin, Hq.
  - rewrite Hd. intros x t Hx Ht. apply doc_inv in Hx as (k & i & Hk & ->). cbn [xi_out shipped_x] in Ht.
    specialize (C2 i (nth_error_In _ _ Hk)). apply andb_true_iff in C2 as [C2 _]. rewrite forallb_forall in C2. specialize (C2 t Ht).
    apply andb_true_iff in C2 as [C2 _]. now apply plain_b_ok.
Qed.
Lemma gas_plain : plain_among props (x_inter d).
Proof.
  destruct names_checked as [_ C2]. rewrite forallb_forall in C2. destruct Hgas as (_ & Hin & _ & Hd). rewrite Hd.
  intros x Hx _. apply doc_inv in Hx as (k & i & Hk & ->). specialize (C2 i (nth_error_In _ _ Hk)). apply andb_true_iff in C2 as [C2 C3].
  split; cbn [xi_out shipped_x].
  - apply Nat.ltb_lt in C3. lia.
  - apply List.Forall_forall. intros t Ht. rewrite forallb_forall in C2. specialize (C2 t Ht). apply andb_true_iff in C2 as [_ C2]. now apply String.eqb_eq.
Qed.
Lemma gas_among x : among props x -> all_shipped x.
Proof.
  destruct Hgas as (_ & Hin & _). intros [H1 H2] t Ht. assert (K : known props t).
  { apply in_app_iff in Ht as [Ht|Ht]; [rewrite List.Forall_forall in H1; now apply H1|rewrite List.Forall_forall in H2; now apply H2]. }
  unfold known in K. rewrite map_map in K. apply in_map_iff in K as (q & E & Hq). exists q. split; [now apply Hin|exact E].
Qed.
Lemma gas_balances val' : balances (mass_called val') props (x_inter d) /\ balances charge_called props (x_inter d).
Proof.
  destruct Hgas as (_ & _ & _ & Hd). rewrite Hd.
  split; intros x Hx Ha; destruct (doc_balance x Hx (gas_among x Ha) val') as [H1 H2]; assumption.
Qed.
Lemma gas_mass_named n : In n (map (pr_name (N:=RNum)) props) -> mass_named props n = mass_called val n.
Proof.
  intros H. rewrite map_map in H. apply in_map_iff in H as (p & <- & Hp).
  change (pr_name (shipped_prop val p)) with (sp_name p).
  change (sp_name p) with (pr_name (shipped_prop val p)) at 1. rewrite mass_named_in; [|exact gas_unique|now apply in_map].
  destruct Hgas as (_ & Hin & _). unfold mass_called. rewrite (ship_named_in p (Hin p Hp)). reflexivity.
Qed.
Lemma among_names (x : xinter RNum) n : among props x -> In n (expand_names (xi_in x)) \/ In n (expand_names (xi_out x)) -> In n (map (pr_name (N:=RNum)) props).
Proof.
  intros [H1 H2] [H|H]; unfold expand_names in H; apply in_concat in H as (l & Hl & H); apply in_map_iff in Hl as (t & <- & Ht); apply repeat_spec in H; subst n.
  - rewrite List.Forall_forall in H1. now apply H1.
  - rewrite List.Forall_forall in H2. now apply H2.
Qed.
Lemma gas_mass_balance : balances (mass_named props) props (x_inter d).
Proof.
  intros x Hx Ha. pose proof (proj1 (gas_balances val) x Hx Ha) as B.
  rewrite (map_ext_in (mass_named props) (mass_called val)), B.
  - f_equal. apply map_ext_in. intros n Hn. symmetry. apply gas_mass_named. eapply among_names; [exact Ha|now left].
  - intros n Hn. apply gas_mass_named. eapply among_names; [exact Ha|now right].
Qed.
End Gas.
End Doc.
