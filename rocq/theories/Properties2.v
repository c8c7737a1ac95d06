(** C18-C29: cross sections (real arithmetic). *)
From Coq Require Import Reals Lra Lia String List ZArith Bool.
From Verif Require Import Base Num ModelCollide ModelXsec SpecXsec ProofCollide ProofXsec ProofData.
Import ListNotations.
Local Open Scope R_scope.

(** Parameters of the examples: masses 4 and 4, so a reduced mass of 2. *)
Definition mu2 : reducedMass RNum := ReducedMass (N:=RNum) 4 4.
Lemma mu2_val : rm_value mu2 = 2. Proof. unfold mu2; rewrite rm_val. unR. field. Qed.
Lemma mu2_pos : 0 < rm_value mu2. Proof. rewrite mu2_val; lra. Qed.
Definition dsolve (f : R -> R) (a b : R) : R * R := (a, b).
Definition dtol (a b : R) : bool := Reqb a b.

(** C18.  A document with a negative threshold is rejected; otherwise sigma is the value
    exactly when the collision energy reaches the threshold, and the reported maximum
    bounds speed*sigma up to V and is attained. *)
Theorem C18_constant : forall K fuel allowed inf ninf tol solve (mu : reducedMass RNum) (value : R) t,
  0 < rm_value mu -> let E := declared_threshold mu t in
  (E < 0 -> xs_load (N:=RNum) fuel allowed inf ninf tol solve mu (DConstant value t) = Throw ExnRuntime) /\
  (0 <= E -> exists c, xs_load (N:=RNum) fuel allowed inf ninf tol solve mu (DConstant value t) = Ok c /\
     getThresholdEnergy c = Ok E /\
     (forall v, 0 <= v -> E <= rm_value mu * v ^ 2 / 2 -> sigma_is K c v value) /\
     (forall v, 0 <= v -> rm_value mu * v ^ 2 / 2 < E -> sigma_is K c v 0) /\
     (0 <= value -> forall V, 0 <= V -> exists M vm,
        findMaxSigmaV (N:=RNum) K c V = Ok (M, vm) /\ sv_bound K c V M /\
        0 <= vm <= V /\ exists s, sigma_is K c vm s /\ vm * s = M)).
Proof. exact constant_spec. Qed.
Print Assumptions C18_constant.
Example C18_case : exists c, xs_load (N:=RNum) 0 true 0 0 dtol dsolve mu2 (DConstant 5 (Some (QVelocity 2))) = Ok c /\
  sigma_is 1 c 3 5 /\ sigma_is 1 c 1 0.
Proof.
  destruct (C18_constant 1 0 true 0 0 dtol dsolve mu2 5 (Some (QVelocity (N:=RNum) 2)) mu2_pos) as [_ H].
  cbn [declared_threshold] in H. rewrite mu2_val in H. destruct H as (c & E & _ & A & B & _); [lra|].
  exists c. split; [exact E|]. split; [apply A|apply B]; lra.
Qed.

(** C19. *)
Theorem C19_inverse : forall K fuel allowed inf ninf tol solve (mu : reducedMass RNum) (vref : R) t,
  0 < rm_value mu -> let E := declared_threshold mu t in
  (E < 0 -> xs_load (N:=RNum) fuel allowed inf ninf tol solve mu (DInverse vref t) = Throw ExnRuntime) /\
  (0 <= E -> exists c, xs_load (N:=RNum) fuel allowed inf ninf tol solve mu (DInverse vref t) = Ok c /\
     getThresholdEnergy c = Ok E /\
     (forall v, 0 < v -> E <= rm_value mu * v ^ 2 / 2 -> exists s, sigma_is K c v s /\ v * s = vref) /\
     (forall v, 0 <= v -> rm_value mu * v ^ 2 / 2 < E -> sigma_is K c v 0) /\
     (0 <= vref -> forall V, 0 < V -> exists M vm,
        findMaxSigmaV (N:=RNum) K c V = Ok (M, vm) /\ sv_bound K c V M /\
        0 <= vm <= V /\ (exists s, sigma_is K c V s /\ V * s = M) /\
        (0 < E -> exists s, sigma_is K c vm s /\ vm * s = M))).
Proof. exact inverse_spec. Qed.
Print Assumptions C19_inverse.
Example C19_case : exists c, xs_load (N:=RNum) 0 true 0 0 dtol dsolve mu2 (DInverse 6 (Some (QEnergy 4))) = Ok c /\
  (exists s, sigma_is 1 c 3 s /\ 3 * s = 6) /\ sigma_is 1 c 1 0.
Proof.
  destruct (C19_inverse 1 0 true 0 0 dtol dsolve mu2 6 (Some (QEnergy (N:=RNum) 4)) mu2_pos) as [_ H].
  cbn [declared_threshold] in H. rewrite mu2_val in H. destruct H as (c & E & _ & A & B & _); [lra|].
  exists c. split; [exact E|]. split; [apply A|apply B]; lra.
Qed.

(** C20.  Exponent at most 1: the reported maximum is a tight bound.  Exponent above 1:
    from some speed on, every pair of speeds violates it. *)
Theorem C20_vhs : forall K fuel allowed inf ninf tol solve (mu : reducedMass RNum) (i : vhsInfo RNum) t,
  0 < rm_value mu -> 0 < K -> 0 < vhs_Tref i -> 0 < vhs_cs i -> 0 < vhs_ginv i ->
  let E := declared_threshold mu t in
  (E < 0 -> xs_load (N:=RNum) fuel allowed inf ninf tol solve mu (DVHS i t) = Throw ExnRuntime) /\
  (0 <= E -> exists c, xs_load (N:=RNum) fuel allowed inf ninf tol solve mu (DVHS i t) = Ok c /\
     getThresholdEnergy c = Ok E /\
     (forall v, 0 <= v -> E <= rm_value mu * v ^ 2 / 2 -> exists s, sigma_is K c v s /\ 0 < s) /\
     (forall v, 0 <= v -> rm_value mu * v ^ 2 / 2 < E -> sigma_is K c v 0) /\
     (vhs_visc i <= 1 -> forall V, 0 <= V -> exists M vm,
         findMaxSigmaV (N:=RNum) K c V = Ok (M, vm) /\ sv_bound K c V M /\
         0 <= vm <= V /\ exists s, sigma_is K c vm s /\ vm * s = M) /\
     (1 < vhs_visc i -> exists v0, 0 < v0 /\ forall v V, v0 <= v < V -> exists M vm s,
         findMaxSigmaV (N:=RNum) K c V = Ok (M, vm) /\ sigma_is K c v s /\ M < v * s)).
Proof. exact vhs_spec. Qed.
Print Assumptions C20_vhs.
Example C20_case : exists c, xs_load (N:=RNum) 0 true 0 0 dtol dsolve mu2 (DVHS (mkVHS (N:=RNum) 5 300 (3 / 4) 1) None) = Ok c /\
  exists M vm, findMaxSigmaV (N:=RNum) 1 c 7 = Ok (M, vm) /\ sv_bound 1 c 7 M.
Proof.
  destruct (C20_vhs 1 0 true 0 0 dtol dsolve mu2 (mkVHS (N:=RNum) 5 300 (3 / 4) 1) None mu2_pos) as [_ H]; cbn; try lra.
  cbn [declared_threshold] in H. destruct H as (c & E & _ & _ & _ & A & _); [lra|].
  exists c. split; [exact E|]. cbn in A. destruct (A ltac:(unR; lra) 7 ltac:(lra)) as (M & vm & F & B & _). eauto.
Qed.

(** C21.  The logarithmic fit: a bound up to the stationary speed, exceeded beyond it,
    and eventually negative. *)
Theorem C21_log : forall K fuel allowed inf ninf tol solve (mu : reducedMass RNum) (A B : R) t,
  0 < rm_value mu -> let E := declared_threshold mu t in
  (E < 0 -> xs_load (N:=RNum) fuel allowed inf ninf tol solve mu (DLog A B t) = Throw ExnRuntime) /\
  (0 <= E -> exists c, xs_load (N:=RNum) fuel allowed inf ninf tol solve mu (DLog A B t) = Ok c /\
     getThresholdEnergy c = Ok E /\
     (forall v, 0 < v -> E <= rm_value mu * v ^ 2 / 2 -> sigma_is K c v (A - B * (ln v / ln 10))) /\
     (forall v, 0 <= v -> rm_value mu * v ^ 2 / 2 < E -> sigma_is K c v 0) /\
     (0 < B ->
       (forall V, 0 < V -> ln V / ln 10 + 1 / ln 10 <= A / B -> exists M vm,
          findMaxSigmaV (N:=RNum) K c V = Ok (M, vm) /\ sv_bound K c V M) /\
       (forall v V, 0 < v < V -> E <= rm_value mu * v ^ 2 / 2 -> A / B <= ln v / ln 10 + 1 / ln 10 ->
          exists M vm s, findMaxSigmaV (N:=RNum) K c V = Ok (M, vm) /\ sigma_is K c v s /\ M < v * s) /\
       (exists v V, 0 < v < V /\ exists M vm s,
          findMaxSigmaV (N:=RNum) K c V = Ok (M, vm) /\ sigma_is K c v s /\ M < v * s) /\
       (forall v, 0 < v -> E <= rm_value mu * v ^ 2 / 2 -> A / B < ln v / ln 10 ->
          exists s, sigma_is K c v s /\ s < 0))).
Proof. exact log_spec. Qed.
Print Assumptions C21_log.
Example C21_case : exists c, xs_load (N:=RNum) 0 true 0 0 dtol dsolve mu2 (DLog 4 2 None) = Ok c /\
  sigma_is 1 c 10 2 /\ exists s, sigma_is 1 c 1000 s /\ s < 0.
Proof.
  destruct (C21_log 1 0 true 0 0 dtol dsolve mu2 4 2 None mu2_pos) as [_ H].
  cbn [declared_threshold] in H. rewrite mu2_val in H. destruct H as (c & E & _ & A & _ & B); [lra|].
  pose proof ln10_pos. exists c. split; [exact E|]. split.
  - replace 2 with (4 - 2 * (ln 10 / ln 10)) at 1 by (field; lra). apply A; lra.
  - destruct (B ltac:(lra)) as (_ & _ & _ & N). apply N; [lra|lra|].
    replace 1000 with (10 ^ 3) by lra. rewrite ln_pow by lra. cbn [INR].
    apply Rmult_lt_reg_r with (ln 10); [assumption|]. unfold Rdiv. rewrite (Rmult_assoc _ (/ ln 10)), Rinv_l by lra. lra.
Qed.

(** C22.  The rows of a document define the table of their first occurrences; the loaded
    cross section interpolates exactly that table, is 0 below it and non-negative when
    the rows are. *)
Theorem C22_table : forall K fuel allowed inf ninf tol solve (mu : reducedMass RNum) (rows : list (quantity RNum * R)),
  0 < rm_value mu -> (9900 <= Z.of_nat fuel)%Z ->
  exists t, increasing t /\ (forall v s, In (v, s) t <-> first_row mu rows v s) /\
  let load := xs_load (N:=RNum) fuel allowed inf ninf tol solve mu (DData rows) in
  (rows = [] -> load = Throw ExnRuntime) /\
  (rows <> [] -> (forall v s, first_row mu rows v s -> s = 0) -> load = UB) /\
  ((exists v s, first_row mu rows v s /\ s <> 0) -> exists c, load = Ok c /\
     (forall v s, first_row mu rows v s -> sigma_is K c v s) /\
     (forall e f v, neighbours t e f -> fst e <= v <= fst f ->
        sigma_is K c v (line e f v) /\ Rmin (snd e) (snd f) <= line e f v <= Rmax (snd e) (snd f)) /\
     (forall v, (forall w s, first_row mu rows w s -> v < w) -> sigma_is K c v 0) /\
     (Forall (fun r => 0 <= snd r) rows -> forall v w s, first_row mu rows w s -> v <= w ->
        exists x, sigma_is K c v x /\ 0 <= x)).
Proof. exact data_load_spec. Qed.
Print Assumptions C22_table.
Example C22_case : exists c,
  xs_load (N:=RNum) (Z.to_nat 9900) true 0 0 dtol dsolve mu2 (DData [(QVelocity 3, 10); (QEnergy 1, 4); (QVelocity 3, 99)]) = Ok c /\
  sigma_is 1 c 1 4 /\ sigma_is 1 c 3 10.
Proof.
  set (rows := [(QVelocity 3, 10); (QEnergy 1, 4); (QVelocity 3, 99)] : list (quantity RNum * R)).
  destruct (C22_table 1 (Z.to_nat 9900) true 0 0 dtol dsolve mu2 rows mu2_pos) as (t & _ & _ & _ & _ & H); [lia|].
  assert (F1 : first_row mu2 rows 3 10) by (exists [], (QVelocity (N:=RNum) 3), [(QEnergy 1, 4); (QVelocity 3, 99)]; repeat split; constructor).
  assert (F2 : first_row mu2 rows 1 4).
  { exists [(QVelocity 3, 10)], (QEnergy (N:=RNum) 1), [(QVelocity 3, 99)]. repeat split.
    - cbn [row_speed]. rewrite mu2_val. replace (2 * 1 / 2) with 1 by field. apply sqrt_1.
    - constructor; [cbn; lra|constructor]. }
  destruct H as (c & E & A & _); [exists 3, 10; split; [exact F1|lra]|].
  exists c. split; [exact E|]. split; apply A; assumption.
Qed.

(** C23.  The reported maximum dominates speed*sigma at every table node up to V and at V
    and is attained; it is a true bound when speed*sigma is monotone between neighbours,
    in particular when the values rise. *)
Theorem C23_max_nodes : forall (K : R) (d : data RNum) (V : R) l x,
  increasing (d_table d) -> d_table d = l ++ [x] -> 0 < V <= fst x ->
  exists M vm, findMaxSigmaV (N:=RNum) K (XData d) V = Ok (M, vm) /\
    (forall v s, In (v, s) (d_table d) -> v <= V -> sigma_is K (XData d) v s /\ v * s <= M) /\
    (exists sV, sigma_is K (XData d) V sV /\ V * sV <= M) /\
    ((M = 0 /\ vm = 0) \/ (vm <= V /\ exists s, sigma_is K (XData d) vm s /\ vm * s = M)) /\
    ((forall e f, neighbours (d_table d) e f -> fst e < V -> sv_monotone_between e f V) -> sv_bound K (XData d) V M).
Proof. exact data_max_spec. Qed.
Print Assumptions C23_max_nodes.
Theorem C23_rising : forall e f V, 0 <= fst e -> fst e < fst f -> 0 <= snd e <= snd f -> sv_monotone_between e f V.
Proof. exact rising_monotone. Qed.
Print Assumptions C23_rising.
Theorem C23_max_refuted : exists (d : data RNum) (v V M vm s : R),
  increasing (d_table d) /\ nonneg_values (d_table d) /\ 0 < v < V /\
  (exists l x, d_table d = l ++ [x] /\ V <= fst x) /\
  data_max (N:=RNum) d V = Ok (M, vm) /\ data_sigma (N:=RNum) d v = Ok s /\ M < v * s.
Proof. exact max_not_bound. Qed.
Print Assumptions C23_max_refuted.
Example C23_case : exists M vm, findMaxSigmaV (N:=RNum) 1 (XData (mkData (N:=RNum) [(1, 2); (2, 3); (4, 5)] 0 0 0 0 mu2)) 3 = Ok (M, vm) /\
  sv_bound 1 (XData (mkData (N:=RNum) [(1, 2); (2, 3); (4, 5)] 0 0 0 0 mu2)) 3 M.
Proof.
  destruct (C23_max_nodes 1 (mkData (N:=RNum) [(1, 2); (2, 3); (4, 5)] 0 0 0 0 mu2) 3 [(1, 2); (2, 3)] (4, 5)) as (M & vm & E & _ & _ & _ & H);
    [cbn; lra|reflexivity|cbn; lra|].
  exists M, vm. split; [exact E|]. apply H. intros e f (l & r & Hn) _. cbn in Hn.
  destruct l as [|a [|b [|c [|g l]]]]; cbn in Hn; try discriminate;
    repeat match goal with H : _ :: _ = _ :: _ |- _ => injection H; clear H; intros; subst end; try discriminate;
    try (apply C23_rising; cbn; lra).
Qed.

(** C24.  Construction drops exactly the leading zeros that precede another zero, keeps
    the rest of the table, and changes no value inside it. *)
Theorem C24_leading_zeros : forall (fuel : nat) allowed (t : table RNum) (mu : reducedMass RNum), (9900 <= Z.of_nat fuel)%Z ->
  (t = [] -> data_init (N:=RNum) fuel allowed t mu = Throw ExnRuntime) /\
  (t <> [] -> Forall (fun x => snd x = 0) t -> data_init (N:=RNum) fuel allowed t mu = UB) /\
  (~ Forall (fun x => snd x = 0) t -> increasing t ->
   exists zs d, data_init (N:=RNum) fuel allowed t mu = Ok d /\ d_mu d = mu /\
     t = zs ++ d_table d /\ Forall (fun x => snd x = 0) zs /\
     (zs <> [] -> exists x r, d_table d = x :: r /\ snd x = 0) /\
     match d_table d with x :: y :: _ => ~ (snd x = 0 /\ snd y = 0) | [x] => snd x <> 0 | [] => False end /\
     (forall v s, tab_gives t v s -> data_sigma (N:=RNum) d v = Ok s)).
Proof. exact init_spec. Qed.
Print Assumptions C24_leading_zeros.
Example C24_case : ~ Forall (fun x => snd x = 0) [(1, 0); (2, 0); (3, 0); (4, 7)] /\ increasing [(1, 0); (2, 0); (3, 0); (4, 7)] /\
  exists l, checkThreshold (N:=RNum) [(1, 0); (2, 0); (3, 0); (4, 7)] = Ok [(3, 0); (4, 7)] /\ l = [(3, 0); (4, 7)].
Proof.
  split; [|split].
  - intros H. rewrite Forall_forall in H. specialize (H (4, 7) ltac:(cbn; tauto)). cbn in H. lra.
  - cbn; lra.
  - eexists; split; [|reflexivity]. repeat (rewrite check_two; cbn [snd]; destruct (Reqb_spec 0 0); [|contradiction]; cbn [andb]).
    destruct (Reqb_spec 7 0); [lra|reflexivity].
Qed.

(** C25.  Beyond the last entry: 0 after a final zero; a positive strictly decreasing
    tail when extrapolation is allowed and the table is fittable; an exception
    otherwise. *)
Theorem C25_tail : forall (fuel : nat) allowed (t : table RNum) (mu : reducedMass RNum) d l x,
  data_init (N:=RNum) fuel allowed t mu = Ok d -> increasing t -> nonneg_values t ->
  Forall (fun y => 0 <= fst y) t -> d_table d = l ++ [x] ->
  (snd x = 0 -> forall v, fst x < v -> data_sigma (N:=RNum) d v = Ok 0) /\
  (snd x <> 0 -> allowed = true -> fittable (d_table d) ->
     forall v w, fst x < v -> v < w -> exists sv sw, data_sigma (N:=RNum) d v = Ok sv /\ data_sigma (N:=RNum) d w = Ok sw /\ 0 < sw < sv) /\
  (snd x <> 0 -> ~ (allowed = true /\ fittable (d_table d)) ->
     forall v, fst x < v -> data_sigma (N:=RNum) d v = Throw ExnRuntime).
Proof. exact tail_spec. Qed.
Print Assumptions C25_tail.
Example C25_case : exists d, data_init (N:=RNum) (Z.to_nat 9900) true [(1, 9); (2, 6); (3, 1)] mu2 = Ok d /\ fittable (d_table d) /\
  exists s, data_sigma (N:=RNum) d 4 = Ok s /\ 0 < s.
Proof.
  set (t := [(1, 9); (2, 6); (3, 1)] : table RNum).
  destruct (C24_leading_zeros (Z.to_nat 9900) true t mu2 ltac:(lia)) as (_ & _ & H).
  assert (Hi : increasing t) by (cbn; lra).
  destruct H as (zs & d & E & _ & Ht & Hz & _ & _ & _); [|exact Hi|].
  { intros H. rewrite Forall_forall in H. specialize (H (1, 9) ltac:(cbn; tauto)). cbn in H. lra. }
  assert (zs = []) as ->.
  { destruct zs as [|z zs]; [reflexivity|]. inversion Hz as [|? ? A _]; subst. injection Ht as Hz0 _. rewrite <- Hz0 in A. cbn in A. lra. }
  cbn [app] in Ht. exists d. split; [exact E|].
  assert (Hf : fittable (d_table d)).
  { rewrite <- Ht. exists [], (1, 9), (2, 6), (3, 1). repeat split; unfold mean_slope; cbn; lra. }
  split; [exact Hf|].
  destruct (C25_tail (Z.to_nat 9900) true t mu2 d [(1, 9); (2, 6)] (3, 1) E Hi) as (_ & H & _).
  { repeat constructor; cbn; lra. } { repeat constructor; cbn; lra. } { symmetry; exact Ht. }
  cbn [fst snd] in H. destruct (H ltac:(lra) eq_refl Hf 4 5 ltac:(lra) ltac:(lra)) as (sv & sw & A & _ & B). exists sv. split; [exact A|lra].
Qed.

(** C26. *)
Theorem C26_lotz_derivative : forall ps thr v, 0 < v -> thr < v ->
  Forall (fun p => 0 < lz_beta p /\ lz_P p <> 0) ps ->
  derivable_pt_lim (fun w => w * lotz_sigma (N:=RNum) ps thr w) v (DSigmaV (N:=RNum) ps v).
Proof. exact lotz_sigma_deriv. Qed.
Print Assumptions C26_lotz_derivative.
Definition exshell : lotzPar RNum := mkLotz (N:=RNum) 1 1 1 1 0 (1 / 2).
Definition exshell2 : lotzPar RNum := mkLotz (N:=RNum) 2 (1 / 2) 2 3 (1 / 4) (1 / 3).
Example C26_case : Forall (fun p => 0 < lz_beta p /\ lz_P p <> 0) [exshell; exshell2] /\ 1 < 2.
Proof. split; [repeat constructor; cbn; lra|lra]. Qed.

(** C27. *)
Theorem C27_lotz_nonneg : forall ps v, 0 < v -> Forall (fun p => lotz_ok p /\ 1 <= lz_beta p * v ^ 2) ps ->
  forall thr, 0 <= lotz_sigma (N:=RNum) ps thr v.
Proof. exact lotz_sigma_nonneg. Qed.
Print Assumptions C27_lotz_nonneg.
Theorem C27_lotz_one_shell : forall inf ninf tol solve (p : lotzPar RNum) (mu : reducedMass RNum) l K,
  lotz_ok p -> 0 < lz_a p -> 0 < lz_q p -> lz_b p = 0 ->
  ninf < 1 / R_sqrt.sqrt (lz_beta p) < inf -> (forall x, tol x x = true) ->
  (forall a b, 0 < a <= b -> 0 <= DSigmaV (N:=RNum) [p] a -> DSigmaV (N:=RNum) [p] b <= 0 ->
     a <= snd (solve (DSigmaV (N:=RNum) [p]) a b) /\ DSigmaV (N:=RNum) [p] (snd (solve (DSigmaV (N:=RNum) [p]) a b)) = 0) ->
  lotz_new (N:=RNum) inf ninf tol solve [p] mu = Ok l ->
  (forall v, 0 <= v -> v < 1 / R_sqrt.sqrt (lz_beta p) -> sigma_is K (XLotz l) v 0) /\
  (forall v, 1 / R_sqrt.sqrt (lz_beta p) < v -> exists s, sigma_is K (XLotz l) v s /\ 0 < s) /\
  forall V, 0 < V -> exists M vm, findMaxSigmaV (N:=RNum) K (XLotz l) V = Ok (M, vm) /\ sv_bound K (XLotz l) V M /\
     0 < vm <= V /\ exists s, sigma_is K (XLotz l) vm s /\ vm * s = M.
Proof. exact lotz_one_shell. Qed.
Print Assumptions C27_lotz_one_shell.
(** A root finder that meets the contract for this subshell: the root is e. *)
Definition esolve (f : R -> R) (a b : R) : R * R := (exp 1, exp 1).
Example C27_case :
  lotz_ok exshell /\ -1 < 1 / R_sqrt.sqrt (lz_beta exshell) < 100 /\
  (forall a b, 0 < a <= b -> 0 <= DSigmaV (N:=RNum) [exshell] a -> DSigmaV (N:=RNum) [exshell] b <= 0 ->
     a <= snd (esolve (DSigmaV (N:=RNum) [exshell]) a b) /\ DSigmaV (N:=RNum) [exshell] (snd (esolve (DSigmaV (N:=RNum) [exshell]) a b)) = 0) /\
  exists l, lotz_new (N:=RNum) 100 (-1) dtol esolve [exshell] mu2 = Ok l.
Proof.
  assert (HD : forall v : R, 0 < v -> DSigmaV (N:=RNum) [exshell] v = / (v * v) * (2 - 2 * ln v)).
  { intros v Hv. rewrite lz1_df; [|assumption|cbn; lra|cbn; lra|reflexivity]. cbn. unR.
    replace (v * v * 1) with (v * v) by ring; rewrite ln_mult by lra. field. lra. }
  split; [unfold lotz_ok; cbn; repeat split; lra|]. split; [cbn; rewrite sqrt_1; lra|]. split.
  - intros a b Ha H1 _. cbn [esolve snd]. split.
    + rewrite HD in H1 by lra. apply Rnot_lt_le. intros Hlt. pose proof (exp_pos 1).
      assert (1 < ln a) by (rewrite <- (ln_exp 1); apply ln_increasing; lra).
      assert (0 < / (a * a)) by (apply Rinv_0_lt_compat; nra). nra.
    + rewrite HD by apply exp_pos. rewrite ln_exp. change (@eq (T RNum)) with (@eq R); ring.
  - unfold lotz_new. cbn [lotz_range fold_left exshell lz_beta]. unR. rewrite sqrt_1.
    destruct (Rltb_spec (1 / 1) 100); [|lra]. destruct (Rltb_spec (-1) (1 / 1)); [|lra].
    unfold dtol. destruct (Reqb_spec (1 / 1) (1 / 1)); [|contradiction]. cbn [obind esolve fst snd].
    destruct (Reqb_spec (exp 1) (exp 1)); [|contradiction]. eexists; reflexivity.
Qed.

(** C28. *)
Theorem C28_average : forall K c0 c1,
  (forall v s0 s1, sigma_is K c0 v s0 -> sigma_is K c1 v s1 -> 0 <= s0 -> 0 <= s1 ->
     exists s, sigma_is K (XAvgEasy c0 c1) v s /\
       s = sphere ((diameter s0 + diameter s1) / 2) /\ Rmin s0 s1 <= s <= Rmax s0 s1) /\
  (forall V, 0 < V ->
    (forall c, c = c0 \/ c = c1 -> forall v, 0 < v <= V ->
        exists s t, sigma_is K c v s /\ sigma_is K c V t /\ 0 <= s /\ v * s <= V * t) ->
    exists M vm, findMaxSigmaV (N:=RNum) K (XAvgEasy c0 c1) V = Ok (M, vm) /\
      sv_bound K (XAvgEasy c0 c1) V M /\ 0 <= vm <= V /\
      (vm = V -> exists s, sigma_is K (XAvgEasy c0 c1) V s /\ V * s = M)).
Proof. exact avgeasy_spec. Qed.
Print Assumptions C28_average.
Definition exc (x : R) : xsec RNum := XConstant (N:=RNum) x 0 0.
Lemma exc_sigma K x v : 0 <= v -> sigma_is K (exc x) v x.
Proof. intros H. unfold sigma_is; cbn; unR. destruct (Rleb_spec 0 v); [reflexivity|contradiction]. Qed.
Example C28_case : exists M vm, findMaxSigmaV (N:=RNum) 1 (XAvgEasy (exc 1) (exc 9)) 2 = Ok (M, vm) /\ sv_bound 1 (XAvgEasy (exc 1) (exc 9)) 2 M.
Proof.
  destruct (C28_average 1 (exc 1) (exc 9)) as [_ H]. destruct (H 2 ltac:(lra)) as (M & vm & E & B & _).
  - intros c [->| ->] v Hv; [exists 1, 1|exists 9, 9]; (split; [apply exc_sigma; lra|]; split; [apply exc_sigma; lra|lra]).
  - eauto.
Qed.

(** C29. *)
Theorem C29_averaged_diameters : forall K allowed (c0 c1 : xsec RNum) (vmax dv : R) (mu : reducedMass RNum), 0 < vmax -> 0 < dv ->
  exists n, (0 < n)%nat /\ (forall k, (k < n)%nat <-> 0 < grid vmax dv k) /\
  forall s0 s1 : nat -> R,
  (forall k, (k < n)%nat -> sigma_is K c0 (grid vmax dv k) (s0 k) /\ sigma_is K c1 (grid vmax dv k) (s1 k) /\ 0 <= s0 k /\ 0 <= s1 k) ->
  forall fuel, (9900 <= Z.of_nat fuel)%Z -> (n < fuel)%nat ->
  ((forall k, (k < n)%nat -> s0 k = 0 /\ s1 k = 0) -> avg_diameters (N:=RNum) K fuel allowed c0 c1 vmax dv mu = UB) /\
  ((exists k, (k < n)%nat /\ (0 < s0 k \/ 0 < s1 k)) -> exists zs d,
     avg_diameters (N:=RNum) K fuel allowed c0 c1 vmax dv mu = Ok (XAvgDiam d c0 c1) /\
     map fst (zs ++ d_table d) = map (grid vmax dv) (rev (seq 0 n)) /\ Forall (fun x => snd x = 0) zs /\
     (forall k, (k < n)%nat -> sigma_is K (XAvgDiam d c0 c1) (grid vmax dv k) (sphere ((diameter (s0 k) + diameter (s1 k)) / 2))) /\
     (forall v, v < grid vmax dv (n - 1) -> sigma_is K (XAvgDiam d c0 c1) v 0)).
Proof. exact avg_diam_spec. Qed.
Print Assumptions C29_averaged_diameters.
Example C29_case : exists fuel d, avg_diameters (N:=RNum) 1 fuel true (exc 4) (exc 4) 10 3 mu2 = Ok (XAvgDiam d (exc 4) (exc 4)) /\
  sigma_is 1 (XAvgDiam d (exc 4) (exc 4)) (11 + 1 / 2 - 3) (sphere ((diameter 4 + diameter 4) / 2)) /\
  sigma_is 1 (XAvgDiam d (exc 4) (exc 4)) (1 / 4) 0 /\ sigma_is 1 (exc 4) (1 / 4) 4.
Proof.
  destruct (C29_averaged_diameters 1 true (exc 4) (exc 4) 10 3 mu2 ltac:(lra) ltac:(lra)) as (n & Hn & Hg & H).
  set (fuel := (n + Z.to_nat 9900 + 1)%nat).
  destruct (H (fun _ => 4) (fun _ => 4)) with (fuel := fuel) as [_ (zs & d & E & _ & _ & A & B)]; [|lia|lia| |].
  - intros k Hk. apply Hg in Hk. repeat split; try lra; apply exc_sigma; lra.
  - exists 0%nat. split; [assumption|lra].
  - exists fuel, d. split; [exact E|]. split; [|split; [|apply exc_sigma; lra]].
    + assert (H1 : (1 < n)%nat) by (apply Hg; unfold grid; cbn; lra).
      specialize (A 1%nat H1). replace (11 + 1 / 2 - 3) with (grid 10 3 1) by (unfold grid; cbn; lra). exact A.
    + apply B. assert (H3 : ~ (4 < n)%nat) by (intros Hc; apply Hg in Hc; unfold grid in Hc; cbn in Hc; lra).
      unfold grid. assert (INR (n - 1) <= 3) by (replace 3 with (INR 3) by (cbn; lra); apply le_INR; lia). lra.
Qed.
