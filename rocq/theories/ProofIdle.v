(** Runs without tests. *)
From Coq Require Import List ZArith Bool Arith Lia Reals.
From Flocq Require Import Core.Core IEEE754.BinarySingleNaN.
From Verif Require Import Base Num ModelTerm ModelCollide ModelXsec ModelSet SpecSet SpecNan SpecIdle
  ProofInelastic ProofSelect ProofDB ProofDriver ProofNan ProofDraws.
From Coq Require Import List.
Import ListNotations.

Lemma zn_mul_l x y : zn x -> zn (fmul x y).
Proof. intros [H|[s ->]]; [apply nan_is in H; subst|]; destruct y as [[]|[]| |[]]; try destruct s; zz. Qed.
Lemma nan_mul_l x y : nan x -> nan (fmul x y).
Proof. intros H. apply (ab_mul _ absorbing_nan). left. exact H. Qed.
Lemma nan_mul_r x y : nan y -> nan (fmul x y).
Proof. intros H. apply (ab_mul _ absorbing_nan). right. exact H. Qed.
Lemma div_nan_l x y : nan x -> nan (fdiv x y).
Proof. intros H. apply nan_is in H. subst. destruct y as [[]|[]| |[]]; reflexivity. Qed.
Lemma div_zn x y : zn x -> zn y -> nan (fdiv x y).
Proof. intros [H|[s ->]] [H'|[s' ->]]; try apply nan_is in H; try apply nan_is in H'; subst; try destruct s; try destruct s'; reflexivity. Qed.

Section Idle.
Context {lm : libm} (K : F64 lm).
Notation N := (F64 lm).
Lemma min_zero_l (a b : N) : is_zero a -> fnonneg b -> zn (nmin (N:=N) a b).
Proof.
  intros [s ->] H. unfold nmin. change (nltb (n:=N) b (B754_zero s)) with (Bltb b (B754_zero s)).
  destruct (fnonneg_cases b H) as [X|X]; destruct b as [[]|[]| |[]]; try discriminate; try (right; eexists; reflexivity);
    try (destruct s; cbn; right; eexists; reflexivity).
Qed.
Lemma min_zero_r (a b : N) : is_zero b -> fnonneg a -> zn (nmin (N:=N) a b).
Proof.
  intros [s ->] H. unfold nmin. change (nltb (n:=N) (B754_zero s) a) with (Bltb (B754_zero s) a).
  destruct (Bltb (B754_zero s) a) eqn:E; [right; eexists; reflexivity|].
  destruct (fnonneg_cases a H) as [X|[->|(m & e & Hm & ->)]]; [right; exact X|destruct s; discriminate E|destruct s; discriminate E].
Qed.
Lemma estimate_nan same (wA wB : N) na nb (dt msv vol : N) : spoiled dt vol msv wA wB -> nan (estimate (N:=N) same wA wB na nb dt msv vol).
Proof.
  intros H. unfold estimate. cbv zeta.
  set (num := nmul (n:=N) (nmul (n:=N) (nmul (n:=N) (nmul (n:=N) (nmul (n:=N) wA wB) (ofZ (n:=N) (Z.of_nat na))) (ofZ (n:=N) (Z.of_nat nb))) dt) msv).
  set (den := nmul (n:=N) vol (nmin (N:=N) wA wB)).
  assert (Q : nan (fdiv num den)).
  { destruct H as [H|[H|[H|[H|[H|[[Z P]|[Z P]]]]]]].
    - apply div_nan_l, nan_mul_l, nan_mul_r, H.
    - apply div_nan, nan_mul_l, H.
    - apply div_nan_l, nan_mul_r, H.
    - apply div_nan_l, nan_mul_l, nan_mul_l, nan_mul_l, nan_mul_l, nan_mul_l, H.
    - apply div_nan_l, nan_mul_l, nan_mul_l, nan_mul_l, nan_mul_l, nan_mul_r, H.
    - apply div_zn; [|apply zn_mul, min_zero_l; assumption]. do 5 apply zn_mul_l. right. exact Z.
    - apply div_zn; [|apply zn_mul, min_zero_r; assumption]. do 4 apply zn_mul_l. apply zn_mul. right. exact Z. }
  destruct same; [apply nan_mul_l; exact Q|exact Q].
Qed.
Lemma promote_nan (x d : N) : nan x -> nan (promote (N:=N) x d).
Proof. intros H. unfold promote. destruct (nltb _ _); [|exact H]. apply (ab_add _ absorbing_nan). left. exact H. Qed.

Definition from_cell db dt (c : cell N) (ct : ctdata N) : Prop :=
  exists ra rb wA wB d, nth_error (c_ranges c) (ct_A ct) = Some ra /\ nth_error (c_ranges c) (ct_B ct) = Some rb /\
    first_weight (c_mem c) ra = Ok wA /\ first_weight (c_mem c) rb = Ok wB /\
    findMaxSigmaVProduct K (db (ct_A ct) (ct_B ct)) (c_maxv c (ct_A ct) (ct_B ct)) = Ok (ct_msv ct) /\
    ct_tests ct = promote (N:=N) (estimate (N:=N) (Nat.eqb (ct_A ct) (ct_B ct)) wA wB (rsize ra) (rsize rb) dt (ct_msv ct) (c_volume c)) d.
Lemma first_from db dt (c : cell N) g : forall ps k l k', first_pass K db dt c g k ps = Ok (l, k') -> List.Forall (from_cell db dt c) l.
Proof.
  induction ps as [|[A B] ps IH]; intros k l k' H; cbn [first_pass] in H; [injection H as <- _; constructor|].
  apply obind_ok in H as (ra & Ea & H). apply oget_ok in Ea. apply obind_ok in H as (rb & Eb & H). apply oget_ok in Eb.
  destruct (db A B) as [|e rhs] eqn:E; [exact (IH _ _ _ H)|].
  apply obind_ok in H as (msv & Em & H). apply obind_ok in H as (wA & EA & H). apply obind_ok in H as (wB & EB & H). cbv zeta in H.
  apply obind_ok in H as ([l1 k1] & El & H). injection H as <- _. constructor; [|exact (IH _ _ _ El)].
  exists ra, rb, wA, wB, (g_rand g k). cbn [ct_A ct_B ct_msv ct_tests]. rewrite E. do 5 (split; [assumption|]). reflexivity.
Qed.
Lemma loop_nan fuel inplace sfuel rhs msv A B (x : N) g s s' : nan x -> test_loop K fuel inplace sfuel rhs msv A B x g s = Ok s' -> s' = s.
Proof.
  intros H E. destruct fuel as [|fuel]; cbn [test_loop] in E; [discriminate|].
  replace (nltb (n:=N) n1 x) with false in E; [congruence|]. apply nan_is in H. rewrite H. reflexivity.
Qed.
Lemma test_pair inplace sfuel rhs msv A B g s s' : one_test K inplace sfuel rhs msv A B g s = Ok s' -> exists e, s_log s' = s_log s ++ [e] /\ tested_pairs [e] = [(A, B)].
Proof.
  intros E. unfold one_test in E. do 2 apply obind_ok in E as (? & _ & E). apply obind_ok in E as ([[i0 j0] k1] & _ & E).
  do 2 apply obind_ok in E as (? & _ & E). apply obind_ok in E as ([[[[path a] b] l] k2] & _ & E). cbv zeta in E.
  exists (A, B, (i0, j0), fst path). split; [|reflexivity]. destruct (_ || _)%bool in E; [now injection E as <-|]. apply retval_pos in E as [_ E]. exact E.
Qed.
Lemma loop_pair fuel inplace sfuel rhs msv A B g : forall (x : N) s s', test_loop K fuel inplace sfuel rhs msv A B x g s = Ok s' ->
  forall p, In p (tested_pairs (s_log s')) -> In p (tested_pairs (s_log s)) \/ p = (A, B).
Proof.
  induction fuel as [|fuel IH]; intros x s s' H p Hp; cbn [test_loop] in H; [discriminate|].
  destruct (nltb _ _) in H; [|injection H as <-; auto]. do 2 apply obind_ok in H as (? & _ & H).
  destruct (_ || _)%bool in H; [injection H as <-; auto|]. apply obind_ok in H as (s1 & E1 & H).
  destruct (IH _ _ _ H p Hp) as [I|I]; [|auto]. destruct (test_pair _ _ _ _ _ _ _ _ _ E1) as (e & El & Ee).
  rewrite El in I. unfold tested_pairs in I. rewrite map_app in I. apply in_app_or in I as [I|I]; [left; exact I|].
  unfold tested_pairs in Ee. rewrite Ee in I. destruct I as [I|[]]; auto.
Qed.
Lemma pass_skips fuel inplace db g A B (l : list (ctdata N)) : 
  (forall ct, In ct l -> ct_A ct = A -> ct_B ct = B -> nan (ct_tests ct)) ->
  forall s s', second_pass K fuel inplace db g l s = Ok s' -> ~ In (A, B) (tested_pairs (s_log s)) -> ~ In (A, B) (tested_pairs (s_log s')).
Proof.
  unfold second_pass. induction l as [|ct l IH]; intros Hn s s' H Hs; cbn [ofold] in H; [injection H as <-; exact Hs|].
  apply obind_ok in H as (s1 & H1 & H). apply (IH (fun c Hc => Hn c (or_intror Hc)) s1 s' H). intros I.
  destruct (loop_pair _ _ _ _ _ _ _ _ _ _ _ H1 _ I) as [I'|I']; [contradiction|].
  assert (Q : ct_A ct = A /\ ct_B ct = B) by (split; congruence). destruct Q as [Q1 Q2].
  apply loop_nan in H1; [subst s1; contradiction|]. apply Hn; auto. left. reflexivity.
Qed.
Lemma pass_idle fuel inplace db g (l : list (ctdata N)) : List.Forall (fun ct : ctdata N => nan (ct_tests ct)) l ->
  forall s s', second_pass K fuel inplace db g l s = Ok s' -> s' = s.
Proof.
  unfold second_pass. intros Hn. induction Hn as [|ct l Hc _ IH]; intros s s' H; cbn [ofold] in H; [congruence|].
  apply obind_ok in H as (s1 & H1 & H). apply loop_nan in H1; [|exact Hc]. subst s1. exact (IH _ _ H).
Qed.
Lemma weight_first (mem : list (particle N)) r w : first_weight mem r = Ok w -> exists p, nth_error mem (fst r) = Some p /\ w = p_weight p.
Proof.
  unfold first_weight. intros H. destruct (Nat.ltb _ _); [|discriminate]. apply obind_ok in H as (p & E & H). apply oget_ok in E. injection H as <-. eauto.
Qed.
Lemma run_skips fuel inplace dt (c : cell N) nprops db res er g k s A B ra rb pa pb msv :
  driver K fuel inplace dt c nprops db res er g k = Ok s ->
  nth_error (c_ranges c) A = Some ra -> nth_error (c_ranges c) B = Some rb ->
  nth_error (c_mem c) (fst ra) = Some pa -> nth_error (c_mem c) (fst rb) = Some pb ->
  findMaxSigmaVProduct K (db A B) (c_maxv c A B) = Ok msv ->
  spoiled dt (c_volume c) msv (p_weight pa) (p_weight pb) -> ~ In (A, B) (tested_pairs (s_log s)).
Proof.
  intros H EA EB Pa Pb Em Hs. unfold driver in H. cbv zeta in H. apply obind_ok in H as ([l k1] & El & H).
  apply first_from in El. rewrite Forall_forall in El.
  apply (pass_skips fuel inplace db g A B l) in H; [exact H| |intros []].
  intros ct I QA QB. destruct (El ct I) as (ra' & rb' & wA & wB & d & E1 & E2 & E3 & E4 & E5 & ->). rewrite QA, QB in *.
  rewrite EA in E1. injection E1 as <-. rewrite EB in E2. injection E2 as <-.
  apply weight_first in E3 as (p & E3 & ->). rewrite Pa in E3. injection E3 as <-.
  apply weight_first in E4 as (p & E4 & ->). rewrite Pb in E4. injection E4 as <-.
  rewrite Em in E5. assert (Q : ct_msv ct = msv) by congruence. rewrite Q. apply promote_nan, estimate_nan, Hs.
Qed.
Lemma run_idle fuel inplace dt (c : cell N) nprops db res er g k s : nan dt \/ nan (c_volume c) ->
  driver K fuel inplace dt c nprops db res er g k = Ok s ->
  s_mem s = c_mem c /\ s_ranges s = c_ranges c /\ s_res s = res /\ s_erase s = er /\ s_log s = [].
Proof.
  intros Hn H. unfold driver in H. cbv zeta in H. apply obind_ok in H as ([l k1] & El & H).
  apply pass_idle in H; [subst s; auto|]. apply first_from in El. eapply Forall_impl; [|exact El].
  intros ct (ra & rb & wA & wB & d & _ & _ & _ & _ & _ & ->). apply promote_nan, estimate_nan. unfold spoiled. tauto.
Qed.
End Idle.
