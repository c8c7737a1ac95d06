(** C99: the number of tests of a run in binary64. *)
From Coq Require Import Reals Lra Lia ZArith Bool List String.
From Flocq Require Import Core.Core IEEE754.BinarySingleNaN.
From Verif Require Import Base Num ModelTerm ModelCollide ModelXsec ModelSet SpecPhys SpecXsec SpecSet SpecRound SpecDouble ProofFloat ProofTests Properties1 Properties3 Properties19 Properties20 Properties22.
From Coq Require Import List.
Import ListNotations.
Local Open Scope R_scope.

(** C99.  A run of the driver in binary64, either mode: with y the exact no-time-counter estimate (exact maximum, real arithmetic),
    u the draw and e = (2n+2m+22) 2^-53 (y+1) for n channels with values up to m roundings (C97), the pair gets between y-u-e and y-u+1+e tests, where y is more than e
    away from every whole number; in any case at least y-1-e. *)
Theorem C99_tests : forall lm (K : F64 lm) (K' : R) m fuel inplace (dt : F64 lm) (c : cell (F64 lm)) nprops db (db' : nat -> nat -> list (equation RNum)) res er g k s,
  (Z.of_nat m <= 2 ^ 20)%Z -> frng_ok g -> bounded (2 ^ 32) (c_ranges c) -> (inplace = true -> disjoint (c_ranges c)) ->
  (forall A B, List.Forall (fun e => appends (q_model e)) (db A B)) ->
  List.Forall (fun p : particle (F64 lm) => num64 (p_weight p) /\ 0 < real64 (p_weight p)) (c_mem c) ->
  num64 (c_volume c) -> 0 < real64 (c_volume c) -> num64 dt ->
  driver K fuel inplace dt c nprops db res er g k = Ok s ->
  forall l1 A B l2, species_pairs (Nat.min (length (c_ranges c)) nprops) = l1 ++ (A, B) :: l2 -> db A B <> [] -> enough A B (s_ranges s) ->
  Forall2 (fun e e' => double_xs K K' m (q_cs e) (q_cs e')) (db A B) (db' A B) -> (Z.of_nat (length (db A B)) <= 2 ^ 20)%Z ->
  num64 (c_maxv c A B) -> 0 < real64 (c_maxv c A B) ->
  exists ra rb pa pb M M', nth_error (c_ranges c) A = Some ra /\ nth_error (c_ranges c) B = Some rb /\
    nth_error (c_mem c) (fst ra) = Some pa /\ nth_error (c_mem c) (fst rb) = Some pb /\
    findMaxSigmaVProduct K (db A B) (c_maxv c A B) = Ok M /\ findMaxSigmaVProduct (N:=RNum) K' (db' A B) (real64 (c_maxv c A B)) = Ok M' /\
    let y := ntc (Nat.eqb A B) (real64 (p_weight pa)) (real64 (p_weight pb)) (rsize ra) (rsize rb) (real64 dt) M' (real64 (c_volume c)) in
    let u := real64 (g_rand g (k + length (filter (has_eqs db) l1))) in
    let e := INR (2 * length (db A B) + 2 * m + 22) * bpow radix2 (-53) * (y + 1) in
    num64 M -> y <= bpow radix2 52 ->
    y - 1 - e <= INR (tested A B s) <= y - u + 1 + e /\
    ((forall z, e < Rabs (y - IZR z)) -> y - u - e <= INR (tested A B s)).
Proof. exact tests_double. Qed.
Print Assumptions C99_tests.

(** The gas of C96, 3 and 2 particles, volume 8: the exact estimate for the pair (0,1) is 18.75 and the draw 1/2, so 19 tests. *)
Definition tdb (A B : nat) : list (equation RNum) :=
  match A, B with
  | 0%nat, 0%nat | 0%nat, 1%nat => [mkEquation exeq (XConstant (N:=RNum) (real64 (fofZ 5)) (real64 (fofZ 0)) (real64 (fofZ 0))) (MElastic (ReducedMass (N:=RNum) 1 4))]
  | _, _ => []
  end.
Lemma t_num z : (0 <= z <= 1000)%Z -> num64 (fofZ z).
Proof.
  intros H. split; [apply fofZ_fin; lia|]. rewrite fofZ_val by lia. destruct (Z.eq_dec z 0) as [->|Hz]; [left; reflexivity|right].
  assert (1 <= IZR z <= 1000) by (split; apply IZR_le; lia). split; [apply Rle_trans with 1; [change 1 with (bpow radix2 0); apply bpow_le; lia|lra]|apply Rle_trans with (bpow radix2 10); [cbn; lra|apply bpow_le; lia]].
Qed.
Lemma t_max : (match findMaxSigmaVProduct (N:=F64 rlm) (fofZ 1) (gdb2 0 1) (fofZ 5) with Ok m => m | _ => fofZ 0 end) = fofZ 25.
Proof. apply B2R_inj; vm_compute; reflexivity. Qed.
Lemma t_max' : findMaxSigmaVProduct (N:=RNum) 1 (tdb 0 1) 5 = Ok 25.
Proof.
  unfold findMaxSigmaVProduct. cbn [tdb ofold]. rewrite !fofZ_val by lia. change (q_cs _) with (q_cs (rc 5)). rewrite rc_max by lra. cbn [obind]. apply f_equal. change (0 + 5 * 5 = 25). lra.
Qed.
Example C99_case : exists s, driver (N:=F64 rlm) (fofZ 1) 20 true (fofZ 1) (gcell gmem) 2 gdb2 [] [] gG 0 = Ok s /\ tested 0 1 s = 19%nat.
Proof.
  destruct (loads_ok (driver (N:=F64 rlm) (fofZ 1) 20 true (fofZ 1) (gcell gmem) 2 gdb2 [] [] gG 0) ltac:(vm_compute; reflexivity)) as [s E]. exists s. split; [exact E|].
  assert (Er : s_ranges s = [(0, 3); (3, 5)]%nat). { assert (Q : (match driver (N:=F64 rlm) (fofZ 1) 20 true (fofZ 1) (gcell gmem) 2 gdb2 [] [] gG 0 with Ok s => s_ranges s | _ => [] end) = [(0, 3); (3, 5)]%nat) by (vm_compute; reflexivity). rewrite E in Q. exact Q. }
  assert (P : forall z, (1 <= z <= 1000)%Z -> 0 < real64 (fofZ z)). { intros z Hz. rewrite fofZ_val by lia. apply IZR_lt. lia. }
  destruct (C99_tests rlm (fofZ 1) 1 0 20 true (fofZ 1) (gcell gmem) 2 gdb2 tdb [] [] gG 0 s ltac:(lia) gG_ok) with (l1 := [(0, 0)]%nat) (A := 0%nat) (B := 1%nat) (l2 := [(1, 1)]%nat) as (ra & rb & pa & pb & M & M' & EA & EB & Epa & Epb & Em & Em' & H).
  - repeat constructor; unfold rsize; cbn; lia.
  - intros _ A B ra rb p Hn HA HB. cbn [gcell c_ranges] in *. unfold in_range. destruct A as [|[|A]], B as [|[|B]]; cbn [nth_error] in *; try (destruct A; discriminate); try (destruct B; discriminate); try (contradict Hn; reflexivity); injection HA as <-; injection HB as <-; cbn [fst snd]; lia.
  - intros A B. destruct A as [|A], B as [|[|B]]; cbn [gdb2]; repeat constructor; exact I.
  - repeat (apply List.Forall_cons; [split; [apply t_num|apply P]; lia|]). apply List.Forall_nil.
  - apply t_num; lia.
  - apply P; lia.
  - apply t_num; lia.
  - exact E.
  - reflexivity.
  - discriminate.
  - rewrite Er. exists (0, 3)%nat, (3, 5)%nat. cbn. repeat split; lia.
  - constructor; [|constructor]. apply (double_simple_xs _ _ _ 0); [|lia]. apply double_constant; apply t_num; lia.
  - cbn; lia.
  - apply t_num; lia.
  - apply P; lia.
  - cbn [gcell c_ranges nth_error] in EA, EB. injection EA as <-. injection EB as <-. cbn [gcell c_mem gmem fst nth_error] in Epa, Epb. injection Epa as <-. injection Epb as <-.
    cbn [gp p_weight gcell c_volume c_maxv] in *. rewrite !fofZ_val in H by lia.
    assert (NM : num64 M).
    { refine (eq_ind (fofZ 25) num64 (t_num 25 ltac:(lia)) M _). exact (eq_trans (eq_sym t_max) (f_equal (fun o => match o with Ok m => m | _ => fofZ 0 end) Em)). }
    rewrite fofZ_val in Em' by lia. rewrite t_max' in Em'. injection Em' as <-. cbv zeta in H. specialize (H NM).
    assert (Ey : ntc (Nat.eqb 0 1) 1 1 (rsize (0, 3)%nat) (rsize (3, 5)%nat) 1 25 8 = 75 / 4) by (unfold ntc, rsize; cbn [Nat.eqb fst snd Nat.sub INR]; rewrite Rmax_left by lra; field).
    rewrite Ey in H. assert (Eu : real64 (g_rand gG (0 + length (filter (has_eqs gdb2) [(0, 0)]%nat))) = 1 / 2) by (vm_compute; lra). rewrite Eu in H.
    set (e := INR (2 * length (gdb2 0 1) + 2 * 0 + 22) * bpow radix2 (-53) * (75 / 4 + 1)) in *.
    assert (He : 0 <= e <= 1 / 1000). { unfold e. cbn [gdb2 length Nat.mul Nat.add]. rewrite INR_IZR_INZ. change (bpow radix2 (-53)) with (/ 9007199254740992). cbn [Z.of_nat Pos.of_succ_nat Pos.succ]. lra. }
    destruct H as [[_ Hu] Hl]. { apply Rle_trans with (bpow radix2 5); [cbn; lra|apply bpow_le; lia]. }
    assert (Hl' : 75 / 4 - 1 / 2 - e <= INR (tested 0 1 s)).
    { apply Hl. intros z. destruct (Z.le_gt_cases z 18) as [L|L]; [apply IZR_le in L; rewrite Rabs_pos_eq; lra|]. assert (L' : (19 <= z)%Z) by lia. apply IZR_le in L'. rewrite Rabs_left1; lra. }
    clear -He Hu Hl'. rewrite INR_IZR_INZ in *. apply Nat2Z.inj. assert (18 < Z.of_nat (tested 0 1 s) < 20)%Z; [split; apply lt_IZR; lra|lia].
Qed.
