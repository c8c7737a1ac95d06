(** C71, C72, C76, C77: fitted table tails, repeated initialisation, averages over the
    random draws, reachable outcomes of 2->3 reactions. *)
From Coq Require Import String List ZArith Bool Arith Lia Reals Lra.
From Verif Require Import Base Num ModelTerm ModelCollide ModelXsec ModelSet ModelEq ModelFilter ModelDB ModelMore
  SpecTerm SpecPhys SpecXsec SpecEq SpecFilter SpecDB SpecMore
  ProofCollide ProofInelastic ProofTop1 ProofOrder ProofDB ProofMean ProofMean2 ProofReach ProofTail ProofMore
  Properties1 Properties2 Properties4 Properties5 Properties6.
From Coquelicot Require Import Coquelicot.
From Coq Require Import List.
Import ListNotations.
Local Open Scope R_scope.

(** C71.  Beyond the last entry the cross section is the curve C b ln(a x + b)/(a x + b)
    fitted to the last but one entry, with the tried b that best reproduces the last
    entry; if no tried b has a representable mismatch, b = 30. *)
Theorem C71_best_fit : forall (fuel : nat) (t : table RNum) (mu : reducedMass RNum) d l d0 d1 d2,
  data_init (N:=RNum) fuel true t mu = Ok d -> increasing t ->
  d_table d = l ++ [d0; d1; d2] -> snd d2 <> 0 -> 0 < snd d1 -> mean_slope d0 d1 d2 < 0 ->
  exists b,
    (forall v, fst d2 < v -> data_sigma (N:=RNum) d v = Ok (tail_curve d0 d1 d2 b (v ^ 2 - fst d1 ^ 2))) /\
    ((tried b /\ mismatch d0 d1 d2 b < dblmax /\ forall b', tried b' -> mismatch d0 d1 d2 b <= mismatch d0 d1 d2 b') \/
     (b = 30 /\ forall b', tried b' -> dblmax <= mismatch d0 d1 d2 b')).
Proof. exact tail_fit. Qed.
Print Assumptions C71_best_fit.
(** The fit does not join the table: the cross section can jump up by any factor. *)
Theorem C71_continuous_refuted : forall K : R, 0 < K -> forall fuel mu, (9900 <= Z.of_nat fuel)%Z ->
  exists e d, 0 < e < 6 /\ data_init (N:=RNum) fuel true [(1, 9); (2, 6); (3, e)] mu = Ok d /\
    d_table d = [(1, 9); (2, 6); (3, e)] /\
    forall v, 3 < v <= 4 -> exists s, data_sigma (N:=RNum) d v = Ok s /\ K * e < s.
Proof. exact tail_jump. Qed.
Print Assumptions C71_continuous_refuted.
Example C71_case : exists d, data_init (N:=RNum) (Z.to_nat 9900) true [(1, 9); (2, 6); (3, 1)] mu2 = Ok d /\
  d_table d = [] ++ [(1, 9); (2, 6); (3, 1)] /\ increasing [(1, 9); (2, 6); (3, 1)] /\ mean_slope (1, 9) (2, 6) (3, 1) < 0 /\
  tried (exp 1).
Proof.
  set (t := [(1, 9); (2, 6); (3, 1)] : table RNum).
  destruct (C24_leading_zeros (Z.to_nat 9900) true t mu2 ltac:(lia)) as (_ & _ & H).
  assert (Hi : increasing t) by (cbn; lra).
  destruct H as (zs & d & E & _ & Ht & Hz & _ & _ & _); [|exact Hi|].
  { intros H. rewrite List.Forall_forall in H. specialize (H (1, 9) ltac:(cbn; tauto)). cbn in H. lra. }
  assert (zs = []) as ->.
  { destruct zs as [|z zs]; [reflexivity|]. inversion Hz as [|? ? A _]; subst. injection Ht as Hz0 _. rewrite <- Hz0 in A. cbn in A. lra. }
  cbn [app] in Ht. exists d. split; [exact E|]. split; [symmetry; exact Ht|]. split; [exact Hi|].
  split; [unfold mean_slope; cbn; lra|]. exists 0%nat. cbn [INR]. pose proof exp_le_3. lra.
Qed.

(** C72.  Calling initBinaryInteractions once more appends a second copy of every
    equation of every set; the order of the species is unchanged. *)
Theorem C72_again : forall (N : Num) reg (d : document N) f (ok : N -> Prop) (props r : list (prop N)) s,
  mass_order ok -> masses_ok ok props -> initBinary reg d f props = Ok (r, s) ->
  exists s2, initBinaryAgain reg d f r s = Ok (r, s2) /\
    forall i j l, (i < length r)%nat -> (j < length r)%nat -> cell_get s i j = Ok l -> cell_get s2 i j = Ok (l ++ l).
Proof. exact @again. Qed.
Print Assumptions C72_again.
(** That doubles the maximum used by the driver and the total cross section of each pair. *)
Theorem C72_maximum : forall K (l : list (equation RNum)) V M,
  findMaxSigmaVProduct K l V = Ok M -> findMaxSigmaVProduct K (l ++ l) V = Ok (2 * M).
Proof. exact max_double. Qed.
Print Assumptions C72_maximum.
Theorem C72_total : forall K (l : list (equation RNum)) v cs,
  channel_cs K l v = Ok cs -> channel_cs K (l ++ l) v = Ok (cs ++ cs) /\ cs_total (N:=RNum) (cs ++ cs) = 2 * cs_total (N:=RNum) cs.
Proof. exact total_double. Qed.
Print Assumptions C72_total.
Example C72_case :
  db_view (match initBinary reg0 docF FNull dbx with Ok (r, s) => initBinaryAgain reg0 docF FNull r s | _ => UB end) =
  Some (["e"; "A"; "B"; "Xe"]%string, [((0, 3), 2); ((1, 1), 2); ((2, 2), 2)]%nat) /\ mass_order okF /\ masses_ok okF dbx.
Proof. split; [vm_compute; reflexivity|]. split; [exact (F_mass_order lm0)|exact dbx_ok]. Qed.

(** C76.  Averages over the two uniform draws: elastic collisions are unbiased and
    isotropic, VSS keeps (1-al)/(1+al) of the relative velocity, and the products of a
    2->2 reaction move on average with the centre of mass. *)
Theorem C76_elastic_mean : forall m1 m2 (p1 p2 : rpart) i, 0 < m1 -> 0 < m2 ->
  mean_is (fun r r' => component i (fst (after (model_interact true (MElastic (ReducedMass (N:=RNum) m1 m2)) p1 p2 [] (two_draws r r') 0))))
    (cm_velocity m1 (p_vel p1) m2 (p_vel p2) i) /\
  mean_is (fun r r' => component i (snd (after (model_interact true (MElastic (ReducedMass (N:=RNum) m1 m2)) p1 p2 [] (two_draws r r') 0))))
    (cm_velocity m1 (p_vel p1) m2 (p_vel p2) i).
Proof. exact elastic_mean. Qed.
Print Assumptions C76_elastic_mean.
Theorem C76_elastic_isotropic : forall m1 m2 (p1 p2 : rpart) i j, 0 < m1 -> 0 < m2 -> (i < 3)%nat -> (j < 3)%nat ->
  let w := fun r r' => after (model_interact true (MElastic (ReducedMass (N:=RNum) m1 m2)) p1 p2 [] (two_draws r r') 0) in
  mean_is (fun r r' => (component i (fst (w r r')) - component i (snd (w r r'))) *
                       (component j (fst (w r r')) - component j (snd (w r r'))))
    (if Nat.eqb i j then dist2 (p_vel p1) (p_vel p2) / 3 else 0).
Proof. exact elastic_second. Qed.
Print Assumptions C76_elastic_isotropic.
Theorem C76_vss_mean : forall m1 m2 (al : R) (p1 p2 : rpart) i, 0 < m1 -> 0 < m2 -> 0 <= al ->
  (let v := relvel p1 p2 in let D := R_sqrt.sqrt (vy v ^ 2 + vz v ^ 2) in 1 / 1000000 < D \/ D = 0) ->
  let w := fun r r' => after (model_interact true (MVSS (ReducedMass (N:=RNum) m1 m2) al) p1 p2 [] (two_draws r r') 0) in
  mean_is (fun r r' => component i (fst (w r r')) - component i (snd (w r r')))
    ((1 - al) / (1 + al) * component i (relvel p1 p2)).
Proof. exact vss_mean_rel. Qed.
Print Assumptions C76_vss_mean.
Theorem C76_reaction_mean : forall db spf parse fcm fcq kec thrE (e : eqcore RNum) model mA mB M0 M1 inplace (p1 p2 : rpart) i,
  reaction (N:=RNum) (fun m : R => 0 < m) db e mA mB [M0; M1] ->
  hasExpressions (e_products e) = false ->
  inelastic_new_load db spf parse fcm fcq kec thrE e = Ok model ->
  mean_is (fun r r' => component i (fst (after2 (model_interact inplace model p1 p2 [] (two_draws r r') 0))))
    (cm_velocity mA (p_vel p1) mB (p_vel p2) i) /\
  mean_is (fun r r' => component i (snd (after2 (model_interact inplace model p1 p2 [] (two_draws r r') 0))))
    (cm_velocity mA (p_vel p1) mB (p_vel p2) i).
Proof. exact react22_mean. Qed.
Print Assumptions C76_reaction_mean.
Example C76_case : cm_velocity 1 (p_vel exA) 4 (p_vel exB) 2 = 4 / 5 /\ component 2 (relvel exA exB) = 4 /\
  reaction (N:=RNum) (fun m : R => 0 < m) exdb exeq 2 3 [1; 4] /\
  1 / 1000000 < R_sqrt.sqrt (vy (relvel exA exB) ^ 2 + vz (relvel exA exB) ^ 2).
Proof.
  split; [unfold cm_velocity; cbn; field|]. split; [unfold relvel; cbn; ring|]. split; [exact (proj1 C07_case)|exact C05_case].
Qed.

(** C77.  A loaded 2->3 reaction can produce every split of the available energy between
    the first product and the other two, with both directions independent of each other. *)
Theorem C77_reach : forall db spf parse fcm fcq kec thrE (e : eqcore RNum) model mA mB M0 M1 M2 inplace (p1 p2 : rpart) l (q : R) (d1 d2 : rvec),
  reaction (N:=RNum) (fun m : R => 0 < m) db e mA mB [M0; M1; M2] ->
  hasExpressions (e_products e) = false ->
  inelastic_new_load db spf parse fcm fcq kec thrE e = Ok model ->
  0 <= q <= 1 -> norm2 d1 = 1 -> norm2 d2 = 1 ->
  let dE := match kec with Some d => d | None => - thrE end in
  let E := mA * mB / (mA + mB) / 2 * dist2 (p_vel p1) (p_vel p2) + dE in
  0 <= E ->
  exists g q1 q2 q3 s1 s2, rng_ok g /\
    model_interact inplace model p1 p2 l g 0 = Ok (p1, p2, l ++ [q1; q2; q3], 5%nat) /\
    0 <= s1 /\ 0 <= s2 /\
    (forall i, component i (p_vel q1) - cm_velocity mA (p_vel p1) mB (p_vel p2) i = s1 * component i d1) /\
    (forall i, component i (p_vel q2) - component i (p_vel q3) = s2 * component i d2) /\
    M0 * (M0 + M1 + M2) / (M1 + M2) / 2 * s1 ^ 2 = q * E /\
    M1 * M2 / (M1 + M2) / 2 * s2 ^ 2 = (1 - q) * E.
Proof. exact react23_reach. Qed.
Print Assumptions C77_reach.
Example C77_case : reaction (N:=RNum) (fun m : R => 0 < m) exdb exeq3 2 3 [1; 1; 3] /\
  (exists model, inelastic_new_load exdb exspf (fun _ => Ok []) false false (Some 1%R) 0 exeq3 = Ok model) /\
  norm2 (V3 (N:=RNum) (3 / 5)%R 0%R (- (4 / 5))%R) = 1 /\ norm2 (V3 (N:=RNum) 0%R 1%R 0%R) = 1 /\
  0 <= 2 * 3 / (2 + 3) / 2 * dist2 (p_vel exA) (p_vel exB) + 1.
Proof.
  split; [exact (proj1 C09_case)|]. split; [exact (proj2 (proj2 (proj2 C09_case)))|]. split; [exact C04_case|].
  split; [unfold norm2; cbn [vx vy vz]; ring|]. unfold dist2; cbn. lra.
Qed.
