(** Cross sections in binary64. *)
From Coq Require Import Reals Lra Lia ZArith Bool List Psatz.
Require Import Flocq.Prop.Sterbenz.
From Flocq Require Import Core.Core IEEE754.BinarySingleNaN.
From Verif Require Import Base Num ModelTerm ModelCollide ModelXsec ModelSet SpecPhys SpecSet SpecRound SpecDouble ProofF64 ProofFloat ProofSelect ProofRound ProofDouble.
From Coq Require Import List.
Import ListNotations.
Local Open Scope R_scope.

Lemma data_eval_cons {N : Num} (d : data N) x l r v i li : rev (x :: l) = i :: li -> data_eval d (x :: l, r) v =
  match r with
  | [] => if (snd i =? n0)%num then Ok n0 else if (d_C d =? n0)%num then Throw ExnRuntime else Ok (logE_f (sqr v - d_v02 d)%num (d_C d) (d_a d) (d_b d))
  | f :: _ => let L_inv := (n1 / (fst f - fst i))%num in Ok (snd i * L_inv * (fst f - v) + snd f * L_inv * (v - fst i))%num
  end.
Proof. intros E. unfold data_eval. rewrite E. reflexivity. Qed.
Section Xs.
Context {lm : libm}.
Lemma cmp_le (x y : binary64) : is_finite x = true -> is_finite y = true -> nleb (n:=F64 lm) x y = nleb (n:=RNum) (real64 x) (real64 y).
Proof. intros F G. cbn [nleb F64 RNum]. rewrite fleb_le by assumption. unfold Rleb. change fB2R with real64. destruct (Rle_bool_spec (real64 x) (real64 y)), (Rle_dec (real64 x) (real64 y)); try reflexivity; lra. Qed.
Lemma cmp_lt (x y : binary64) : is_finite x = true -> is_finite y = true -> nltb (n:=F64 lm) x y = nltb (n:=RNum) (real64 x) (real64 y).
Proof.
  intros F G. cbn [nltb F64 RNum]. destruct (Bltb x y) eqn:E; symmetry.
  - apply fltb_lt in E; [|assumption..]. unfold Rltb. change (real64 x < real64 y) in E. destruct (Rlt_dec (real64 x) (real64 y)); [reflexivity|lra].
  - apply fltb_ge in E; [|assumption..]. unfold Rltb. change (real64 y <= real64 x) in E. destruct (Rlt_dec (real64 x) (real64 y)); [lra|reflexivity].
Qed.
Lemma cmp_eq (x y : binary64) : is_finite x = true -> is_finite y = true -> neqb (n:=F64 lm) x y = neqb (n:=RNum) (real64 x) (real64 y).
Proof.
  intros F G. cbn [neqb F64 RNum]. rewrite Beqb_correct by assumption. unfold Reqb. change (B2R x) with (real64 x). change (B2R y) with (real64 y).
  destruct (Req_bool_spec (real64 x) (real64 y)), (Req_EM_T (real64 x) (real64 y)); try reflexivity; contradiction.
Qed.
Lemma fin0 : is_finite (fofZ 0) = true. Proof. reflexivity. Qed.
Lemma real0 : real64 (fofZ 0) = 0. Proof. apply fofZ0. Qed.
Lemma ap_0 e k : ap e k (fofZ 0) 0.
Proof. split; [|left; reflexivity]. split; [reflexivity|]. rewrite real0. apply near_refl. lra. Qed.
Lemma ap_1 : ap 0 0 (fofZ 1) 1.
Proof. split; [|right; cbn; lra]. split; [reflexivity|]. change (real64 (fofZ 1)) with (fB2R (fofZ 1)). rewrite fofZ1. apply near_refl. lra. Qed.

Variables (K : F64 lm) (K' : R).
Ltac norm := change (@fst (T (F64 lm)) (T (F64 lm))) with (@fst binary64 binary64) in *; change (@snd (T (F64 lm)) (T (F64 lm))) with (@snd binary64 binary64) in *;
  change (@fst (T RNum) (T RNum)) with (@fst R R) in *; change (@snd (T RNum) (T RNum)) with (@snd R R) in *.
Ltac tolt F G := norm; match goal with |- context[nltb (n:=F64 lm) ?a ?b] => replace (nltb (n:=F64 lm) a b) with (nltb (n:=RNum) (real64 a) (real64 b)) by (symmetry; exact (cmp_lt a b F G)) end.
Ltac toeq F G := norm; match goal with |- context[neqb (n:=F64 lm) ?a ?b] => replace (neqb (n:=F64 lm) a b) with (neqb (n:=RNum) (real64 a) (real64 b)) by (symmetry; exact (cmp_eq a b F G)) end.

Lemma ap_2 : ap 1 0 (fofZ 2) 2.
Proof. split; [|right; cbn; lra]. split; [reflexivity|]. replace (real64 (fofZ 2)) with 2 by (symmetry; apply fofZ_exact; cbn; lia). apply near_refl. lra. Qed.
Lemma ap_pos_num x : pos64 x -> ap 150 0 x (real64 x) /\ 0 < real64 x. Proof. intros [H P]. split; [apply ap_num, H|exact P]. Qed.
Lemma ap_add_min e k x y : ap e k x y -> 0 < y -> few k -> (0 <= e <= 900)%Z -> ap (e + 1) (k + 1) (fadd x fmin_normal) (y + bpow radix2 (-1022)).
Proof.
  intros [[F N] S] P Hk He. destruct fmin_normal_val as [Vn Fn]. assert (R0 : near k (real64 fmin_normal) (bpow radix2 (-1022))). { change (real64 fmin_normal) with (fB2R fmin_normal). rewrite Vn. apply near_refl, bpow_ge_0. }
  pose proof (near_add _ _ _ _ _ N R0) as NM. destruct S as [S|[S1 S2]]; [lra|].
  assert (M0 : bpow radix2 (-1022) <= bpow radix2 (- e)) by (apply bpow_le; lia). pose proof (bpow_gt_0 radix2 (-1022)).
  assert (E1 : bpow radix2 (- e) <= bpow radix2 e) by (apply bpow_le; lia).
  assert (SM : bpow radix2 (- (e + 1)) <= y + bpow radix2 (-1022) <= bpow radix2 (e + 1)).
  { split; [apply Rle_trans with (bpow radix2 (- e)); [apply bpow_le; lia|lra]|]. rewrite bpow_plus. change (bpow radix2 1) with 2. lra. }
  unfold few in Hk. pose proof (near_span k (e + 1) _ _ ltac:(lia) NM (or_intror SM)) as SX.
  assert (B : Rabs (fB2R x + fB2R fmin_normal) <= bpow radix2 1000). { change (fB2R x + fB2R fmin_normal) with (real64 x + real64 fmin_normal). destruct (span_ok (e + 1 + 1) _ ltac:(lia) SX) as [->|[_ B]]; [rewrite Rabs_R0; apply bpow_ge_0|exact B]. }
  destruct (fadd_err x fmin_normal F Fn B) as [FF E]. split; [|right; exact SM]. split; [exact FF|]. rewrite Nat.add_comm. eapply near_trans; [|exact NM].
  apply near_round; [apply (near_nonneg _ _ _ NM)|exact E].
Qed.
Lemma half_exact (w : binary64) : is_finite w = true -> 1/4 <= real64 w <= 1 ->
  is_finite (fsub w (nhalf (N:=F64 lm))) = true /\ real64 (fsub w (nhalf (N:=F64 lm))) = real64 w - 1 / 2.
Proof.
  intros F H. set (h := nhalf (N:=F64 lm)). assert (Fh : is_finite h = true) by (vm_compute; reflexivity). assert (Vh : fB2R h = 1 / 2) by (vm_compute; lra).
  assert (G : frnd (fB2R w - fB2R h) = fB2R w - fB2R h).
  { apply round_generic; [apply valid_rnd_N|]. apply sterbenz; [typeclasses eauto|unfold Monotone_exp; apply (FLT_exp_monotone (SpecFloat.emin fprec femax) fprec)|apply fF_B2R|apply fF_B2R|]. rewrite Vh. change (1/4 <= fB2R w <= 1) in H. lra. }
  destruct (fsub_ok w h F Fh) as [E FF]. { rewrite G, Vh. change (1/4 <= fB2R w <= 1) in H. apply Rle_lt_trans with (bpow radix2 0); [apply Rabs_le; cbn; lra|apply bpow_lt; reflexivity]. }
  split; [exact FF|]. change (fB2R (fsub w h) = fB2R w - 1 / 2). rewrite E, G, Vh. reflexivity.
Qed.
Lemma vhs_ap p (s Tref w g v : binary64) (mu : reducedMass (F64 lm)) (mu' : reducedMass RNum) : pow64 lm p -> (Z.of_nat p <= 2 ^ 20)%Z ->
  num64 s -> pos64 Tref -> is_finite w = true -> 1/4 <= real64 w <= 1 -> num64 g -> pos64 (rm_value mu) -> rm_value mu' = real64 (rm_value mu) -> pos64 K -> K' = real64 K -> pos64 v ->
  ap 676 (p + 8) (vhs_sigma K (mkVHS (N:=F64 lm) s Tref w g) mu v) (vhs_sigma (N:=RNum) K' (mkVHS (N:=RNum) (real64 s) (real64 Tref) (real64 w) (real64 g)) mu' (real64 v)).
Proof.
  intros Hpow Lp Hs HT Fw Hw Hg Hmu Emu HK EK Hv.
  destruct (ap_pos_num _ HT) as [AT PT]. destruct (ap_pos_num _ Hmu) as [Am Pm]. destruct (ap_pos_num _ HK) as [AK PK]. destruct (ap_pos_num _ Hv) as [Av Pv].
  pose proof (ap_mul _ _ _ _ _ _ _ _ ap_2 AK ltac:(unfold few; lia) ltac:(unfold few; lia) ltac:(lia)) as N1.
  pose proof (ap_mul _ _ _ _ _ _ _ _ N1 AT ltac:(unfold few; lia) ltac:(unfold few; lia) ltac:(lia)) as N2.
  pose proof (ap_mul _ _ _ _ _ _ _ _ Av Av ltac:(unfold few; lia) ltac:(unfold few; lia) ltac:(lia)) as D1.
  pose proof (ap_mul _ _ _ _ _ _ _ _ Am D1 ltac:(unfold few; lia) ltac:(unfold few; lia) ltac:(lia)) as D2.
  assert (PD : 0 < real64 (rm_value mu) * (real64 v * real64 v)) by (apply Rmult_lt_0_compat; [exact Pm|apply Rmult_lt_0_compat; exact Pv]).
  pose proof (ap_add_min _ _ _ _ D2 PD ltac:(unfold few; lia) ltac:(lia)) as D3. pose proof (bpow_gt_0 radix2 (-1022)) as Pmin.
  pose proof (ap_div _ _ _ _ _ _ _ _ N2 D3 ltac:(unfold few; lia) ltac:(unfold few; lia) ltac:(lra) ltac:(lia)) as B. cbn [Z.add Nat.add Pos.add Pos.succ] in B.
  set (Y := 2 * real64 K * real64 Tref / (real64 (rm_value mu) * (real64 v * real64 v) + bpow radix2 (-1022))) in *.
  assert (PY : 0 < Y). { unfold Y. apply Rdiv_lt_0_compat; [|lra]. repeat apply Rmult_lt_0_compat; lra. }
  change (ap 752 6 (fdiv (fmul (fmul (fofZ 2) K) Tref) (fadd (fmul (rm_value mu) (fmul v v)) fmin_normal)) Y) in B.
  set (X := fdiv (fmul (fmul (fofZ 2) K) Tref) (fadd (fmul (rm_value mu) (fmul v v)) fmin_normal)) in *. destruct B as [[FX NX] SY].
  pose proof (near_span 6 752 _ _ ltac:(lia) NX SY) as SX. destruct SY as [SY|SY]; [lra|].
  assert (PX : 0 < real64 X) by (destruct NX as (_ & A & _); pose proof (uqn_pos 6) as U; pose proof (Rmult_lt_0_compat _ _ PY (proj1 U)); lra).
  destruct SX as [SX|SX]; [lra|]. destruct (half_exact w Fw Hw) as [Fa Va]. set (a := fsub w (nhalf (N:=F64 lm))) in *.
  destruct (Hpow X a FX Fa) as [FP NP]; [|rewrite Va; lra|].
  { split; [apply Rle_trans with (bpow radix2 (- (752 + 1))); [apply bpow_le; lia|apply SX]|apply Rle_trans with (bpow radix2 (752 + 1)); [apply SX|apply bpow_le; lia]]. }
  assert (AP : ap 376 (p + 6) (lm_pow lm X a) (Rpower Y (real64 w - 1 / 2))).
  { split; [split; [exact FP|]|right; apply span_pow; [lia|lra|exact SY]]. eapply near_trans; [exact NP|]. rewrite Va. apply near_pow; [exact PY|lra|exact NX]. }
  pose proof (ap_mul _ _ _ _ _ _ _ _ (ap_num _ Hs) AP ltac:(unfold few; lia) ltac:(unfold few; lia) ltac:(lia)) as Q1.
  pose proof (ap_mul _ _ _ _ _ _ _ _ Q1 (ap_num _ Hg) ltac:(unfold few; lia) ltac:(unfold few; lia) ltac:(lia)) as Q2.
  replace (0 + (p + 6) + 1 + 0 + 1)%nat with (p + 8)%nat in Q2 by lia. change (150 + 376 + 150)%Z with 676%Z in Q2.
  assert (ER : vhs_sigma (N:=RNum) K' (mkVHS (N:=RNum) (real64 s) (real64 Tref) (real64 w) (real64 g)) mu' (real64 v) = real64 s * Rpower Y (real64 w - 1 / 2) * real64 g).
  { unfold vhs_sigma. cbn [vhs_cs vhs_Tref vhs_visc vhs_ginv]. rewrite Emu, EK.
    change (real64 s * Rpow Y (real64 w - 1 / 2) * real64 g = real64 s * Rpower Y (real64 w - 1 / 2) * real64 g).
    unfold Rpow. destruct (Req_EM_T Y 0); [lra|reflexivity]. }
  rewrite ER. exact Q2.
Qed.
Lemma simple_sigma k c c' v : double_simple K K' k c c' -> (Z.of_nat k <= 2 ^ 20)%Z -> num64 v -> 0 < real64 v ->
  exists s s', sigma K c v = Ok s /\ sigma (N:=RNum) K' c' (real64 v) = Ok s' /\ ap 680 k s s'.
Proof.
  intros D Lk Hv P. destruct D as [s e t Hs Ht|s e t Hs Ht|p s Tref w g e t mu mu' Hpow Hs HT Fw Hw Hg Ht Hmu Emu HK EK]; cbn [sigma].
  - rewrite (cmp_le t v (proj1 Ht) (proj1 Hv)). destruct (nleb (n:=RNum) (real64 t) (real64 v)).
    + exists s, (real64 s). do 2 (split; [reflexivity|]). apply (ap_weak 150 0 s _ (ap_num s Hs)); lia.
    + exists (fofZ 0), 0. do 2 (split; [reflexivity|]). apply ap_0.
  - rewrite (cmp_lt v t (proj1 Hv) (proj1 Ht)). destruct (nltb (n:=RNum) (real64 v) (real64 t)).
    + exists (fofZ 0), 0. do 2 (split; [reflexivity|]). apply ap_0.
    + exists (fdiv s v), (real64 s / real64 v). do 2 (split; [reflexivity|]). apply (ap_weak 300 1 (fdiv s v) (real64 s / real64 v)); [|lia|lia]. apply (ap_div 150 150 0 0 s v _ _ (ap_num s Hs) (ap_num v Hv)); unfold few; try lia; lra.
  - rewrite (cmp_lt v t (proj1 Hv) (proj1 Ht)). destruct (nltb (n:=RNum) (real64 v) (real64 t)).
    + exists (fofZ 0), 0. do 2 (split; [reflexivity|]). apply ap_0.
    + eexists _, _. do 2 (split; [reflexivity|]). apply (ap_weak 676 (p + 8)); [|lia|lia]. apply vhs_ap; try assumption; [lia|split; assumption].
Qed.

(** Tables. *)
Lemma lower_real t v : Forall (fun x => num64 (fst x) /\ num64 (snd x)) t -> is_finite v = true ->
  lower_bound (N:=RNum) (rtable t) (real64 v) = (rtable (fst (lower_bound (N:=F64 lm) t v)), rtable (snd (lower_bound (N:=F64 lm) t v))).
Proof.
  intros Ht Fv. induction Ht as [|x t [Hx _] Ht IH]; [reflexivity|]. cbn [rtable map lower_bound fst]. fold (rtable t). tolt (proj1 Hx) Fv.
  destruct (nltb (n:=RNum) (real64 (fst x)) (real64 v)); [|reflexivity]. rewrite IH. destruct (lower_bound (N:=F64 lm) t v) as [l r]. reflexivity.
Qed.
Lemma lower_split t v l r : Forall (fun x => num64 (fst x) /\ num64 (snd x)) t -> is_finite v = true -> lower_bound (N:=F64 lm) t v = (l, r) ->
  Forall (fun x => num64 (fst x) /\ num64 (snd x)) l /\ Forall (fun x => num64 (fst x) /\ num64 (snd x)) r /\ Forall (fun x => real64 (fst x) < real64 v) l /\
  match r with [] => True | f :: _ => real64 v <= real64 (fst f) end.
Proof.
  intros Ht Fv. revert l r. induction Ht as [|x t Hx Ht IH]; intros l r H; cbn [lower_bound] in H; [injection H as <- <-; auto|].
  revert H. tolt (proj1 (proj1 Hx)) Fv. intros H. cbn [nltb RNum] in H. unfold Rltb in H. destruct (Rlt_dec (real64 (fst x)) (real64 v)) as [L|L].
  - destruct (lower_bound (N:=F64 lm) t v) as [l0 r0] eqn:E. injection H as <- <-. destruct (IH _ _ eq_refl) as (A & B & C & D). repeat split; try constructor; auto.
  - injection H as <- <-. repeat split; auto. lra.
Qed.
Definition agr (e : Z) (k : nat) (o : outcome binary64) (o' : outcome R) : Prop :=
  match o, o' with Ok a, Ok b => ap e k a b | Throw _, Throw _ => True | UB, UB => True | Diverge, Diverge => True | _, _ => False end.
Lemma agr_if e k (b b' : bool) o1 o2 o1' o2' : b = b' -> agr e k o1 o1' -> agr e k o2 o2' -> agr e k (if b then o1 else o2) (if b' then o1' else o2').
Proof. intros <-. destruct b; auto. Qed.

Lemma agr_eq e k o o' o1 o1' : o = o1 -> o' = o1' -> agr e k o1 o1' -> agr e k o o'. Proof. intros -> ->. auto. Qed.
Lemma interp_ap (xi si xf sf v : binary64) : num64 xi -> num64 si -> num64 xf -> num64 sf -> num64 v -> real64 xi < real64 v <= real64 xf ->
  ap 557 6 (fadd (fmul (fmul si (fdiv (fofZ 1) (fsub xf xi))) (fsub xf v)) (fmul (fmul sf (fdiv (fofZ 1) (fsub xf xi))) (fsub v xi)))
    (real64 si * (1 / (real64 xf - real64 xi)) * (real64 xf - real64 v) + real64 sf * (1 / (real64 xf - real64 xi)) * (real64 v - real64 xi)).
Proof.
  intros Hxi Hsi Hxf Hsf Hv [L1 L2]. pose proof (ap_sub xf xi Hxf Hxi ltac:(lra)) as D. pose proof (ap_sub xf v Hxf Hv ltac:(lra)) as D1. pose proof (ap_sub v xi Hv Hxi ltac:(lra)) as D2.
  pose proof (ap_div _ _ _ _ _ _ _ _ ap_1 D ltac:(unfold few; lia) ltac:(unfold few; lia) ltac:(lra) ltac:(lia)) as Li. cbn [Z.add Nat.add] in Li.
  pose proof (ap_mul _ _ _ _ _ _ _ _ (ap_num si Hsi) Li ltac:(unfold few; lia) ltac:(unfold few; lia) ltac:(lia)) as P1. pose proof (ap_mul _ _ _ _ _ _ _ _ (ap_num sf Hsf) Li ltac:(unfold few; lia) ltac:(unfold few; lia) ltac:(lia)) as P2.
  pose proof (ap_mul _ _ _ _ _ _ _ _ P1 D1 ltac:(unfold few; lia) ltac:(unfold few; lia) ltac:(lia)) as Q1. pose proof (ap_mul _ _ _ _ _ _ _ _ P2 D2 ltac:(unfold few; lia) ltac:(unfold few; lia) ltac:(lia)) as Q2.
  exact (ap_add _ _ _ _ _ _ _ _ Q1 Q2 ltac:(unfold few; lia) ltac:(unfold few; lia) eq_refl ltac:(lia)).
Qed.
Lemma data_eval_agr d d' v : double_data (lm:=lm) d d' -> num64 v -> agr 557 6 (data_eval d (lower_bound (d_table d) v) v) (data_eval d' (lower_bound (d_table d') (real64 v)) (real64 v)).
Proof.
  intros ((Ht & Hi) & EC & Et & EC') Hv. rewrite Et, (lower_real _ v Ht (proj1 Hv)). destruct (lower_bound (N:=F64 lm) (d_table d) v) as [l r] eqn:E.
  destruct (lower_split _ _ _ _ Ht (proj1 Hv) E) as (Nl & Nr & Ll & Lr). cbn [fst snd].
  destruct l as [|x l].
  - destruct r as [|f r]; [exact I|]. change (rtable (f :: r)) with ((real64 (fst f), real64 (snd f)) :: rtable r). change (rtable []) with (@nil (R * R)). unfold data_eval.
    inversion_clear Nr as [|? ? [Hf1 Hf2] _]. apply agr_if; [exact (cmp_eq (fst f) v (proj1 Hf1) (proj1 Hv))| |exact (ap_0 557 6)]. exact (ap_weak 150 0 _ _ (ap_num _ Hf2) 557 6 ltac:(lia) ltac:(lia)).
  - assert (Hrev : exists i li, rev (x :: l) = i :: li). { destruct (rev (x :: l)) as [|i li] eqn:Q; [|eauto]. apply (f_equal (@length _)) in Q. rewrite rev_length in Q. discriminate. }
    destruct Hrev as (i & li & Ei). assert (Hin : In i (x :: l)) by (rewrite in_rev, Ei; left; reflexivity).
    assert (Er : rev (rtable (x :: l)) = (real64 (fst i), real64 (snd i)) :: rtable li). { unfold rtable. rewrite <- map_rev. change (@rev (binary64 * binary64)) with (@rev (T (F64 lm) * T (F64 lm))). etransitivity; [apply f_equal; exact Ei|reflexivity]. }
    rewrite Forall_forall in Nl, Ll. destruct (Nl i Hin) as [Hi1 Hi2]. specialize (Ll i Hin).
    change (rtable (x :: l)) with ((real64 (fst x), real64 (snd x)) :: rtable l) in *.
    refine (agr_eq _ _ _ _ _ _ (data_eval_cons (N:=F64 lm) d x l r v i li Ei) (data_eval_cons (N:=RNum) d' _ _ (rtable r) (real64 v) _ _ Er) _). destruct r as [|f r].
    + change (rtable []) with (@nil (R * R)). cbv iota. apply agr_if; [|exact (ap_0 557 6)|].
      { pose proof (cmp_eq (snd i) (fofZ 0) (proj1 Hi2) fin0) as C. rewrite real0 in C. exact C. }
      rewrite EC, EC'. change (neqb (n:=F64 lm) (fofZ 0) n0) with true. change (neqb (n:=RNum) 0 n0) with (Reqb 0 0). unfold Reqb. destruct (Req_EM_T 0 0); [exact I|lra].
    + change (rtable (f :: r)) with ((real64 (fst f), real64 (snd f)) :: rtable r). cbv iota zeta. inversion_clear Nr as [|? ? [Hf1 Hf2] _].
      exact (interp_ap (fst i) (snd i) (fst f) (snd f) v Hi1 Hi2 Hf1 Hf2 Hv (conj Ll Lr)).
Qed.
Lemma ap_eq e k x x1 y y1 : x = x1 -> y = y1 -> ap e k x1 y1 -> ap e k x y. Proof. intros -> ->. auto. Qed.
Lemma max_step_fst {N : Num} (m : N * N) (p v : N) : fst (max_step m p v) = if (fst m <? p)%num then p else fst m.
Proof. unfold max_step. destruct (fst m <? p)%num; reflexivity. Qed.
Lemma max_step_R (m : R * R) p v : fst (max_step (N:=RNum) m p v) = Rmax (fst m) p.
Proof.
  etransitivity; [apply (max_step_fst (N:=RNum))|]. cbn [nltb RNum]. unfold Rltb, Rmax. norm. destruct m as [a b]. cbn [fst].
  destruct (Rlt_dec a p) as [L1|L1], (Rle_dec a p) as [L2|L2]; try reflexivity; [exfalso; apply L2; left; exact L1|apply Rle_antisym; [exact L2|apply Rnot_lt_le; exact L1]].
Qed.
Lemma ap_if_max e k (a p : binary64) a' p' (b : bool) : ap e k a a' -> ap e k p p' -> b = nltb (n:=RNum) (real64 a) (real64 p) -> ap e k (if b then p else a) (Rmax a' p').
Proof.
  intros [[F N] S] [[F' N'] S'] ->. split; [|apply span_max; assumption]. pose proof (near_max _ _ _ _ _ N N') as M. cbn [nltb RNum]. unfold Rltb.
  destruct (Rlt_dec (real64 a) (real64 p)) as [L|L].
  - split; [exact F'|]. rewrite (Rmax_right (real64 a)) in M by lra. exact M.
  - split; [exact F|]. rewrite (Rmax_left (real64 a)) in M by lra. exact M.
Qed.
Lemma ap_max_step e k (m : F64 lm * F64 lm) (m' : R * R) p p' (v : F64 lm) v' : ap e k (fst m) (fst m') -> ap e k p p' -> ap e k (fst (max_step m p v)) (fst (max_step (N:=RNum) m' p' v')).
Proof.
  intros A B. refine (ap_eq _ _ _ _ _ _ (max_step_fst (N:=F64 lm) m p v) (max_step_R m' p' v') _). apply ap_if_max; [exact A|exact B|]. apply cmp_lt; [apply A|apply B].
Qed.
Lemma max_fold_ap l : Forall (fun x => num64 (fst x) /\ num64 (snd x)) l -> forall (m : F64 lm * F64 lm) (m' : R * R), ap 707 7 (fst m) (fst m') ->
  ap 707 7 (fst (fold_left (fun m i => max_step (N:=F64 lm) m (nmul (n:=F64 lm) (fst i) (snd i)) (fst i)) l m)) (fst (fold_left (fun m i => max_step (N:=RNum) m (nmul (n:=RNum) (fst i) (snd i)) (fst i)) (rtable l) m')).
Proof.
  induction 1 as [|x l [Hx1 Hx2] Hl IH]; intros m m' H; [exact H|]. cbn [rtable map fold_left]. apply IH. apply ap_max_step; [exact H|]. cbn [fst snd].
  apply (ap_weak 300 1 (fmul (fst x) (snd x)) (real64 (fst x) * real64 (snd x))); [|lia|lia]. exact (ap_mul _ _ _ _ _ _ _ _ (ap_num _ Hx1) (ap_num _ Hx2) ltac:(unfold few; lia) ltac:(unfold few; lia) ltac:(lia)).
Qed.
Definition omapf {A B} (f : A -> B) (o : outcome A) : outcome B := match o with Ok a => Ok (f a) | Throw e => Throw e | UB => UB | Diverge => Diverge end.
Lemma data_max_agr d d' v : double_data (lm:=lm) d d' -> num64 v -> agr 707 7 (omapf fst (data_max d v)) (omapf fst (data_max d' (real64 v))).
Proof.
  intros D Hv. pose proof (data_eval_agr d d' v D Hv) as A. unfold data_max. destruct D as ((Ht & Hi) & EC & Et & EC').
  destruct (lower_bound (N:=F64 lm) (d_table d) v) as [l r] eqn:E. destruct (lower_split _ _ _ _ Ht (proj1 Hv) E) as (Nl & _ & _ & _).
  assert (E' : lower_bound (N:=RNum) (d_table d') (real64 v) = (rtable l, rtable r)) by (rewrite Et, (lower_real _ v Ht (proj1 Hv)); rewrite E; reflexivity). rewrite E' in *.
  destruct (data_eval d (l, r) v) as [s| | |], (data_eval d' (rtable l, rtable r) (real64 v)) as [s'| | |]; cbn [agr] in A; try contradiction; cbn [obind omapf agr]; try exact I.
  cbn [fst snd]. apply ap_max_step.
  - apply max_fold_ap; [exact Nl|]. cbn [fst]. apply ap_0.
  - exact (ap_mul _ _ _ _ _ _ _ _ (ap_num _ Hv) A ltac:(unfold few; lia) ltac:(unfold few; lia) ltac:(lia)).
Qed.
End Xs.
