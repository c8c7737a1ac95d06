(** C61-C63, C69, C70: property lists, options, the example's cell, thermal speeds and
    automatic elastic cross sections. *)
From Coq Require Import String List ZArith Bool Arith Lia Reals Lra.
From Verif Require Import Base Num ModelTerm ModelCollide ModelXsec ModelSet ModelEq ModelFilter ModelDB ModelMisc
  SpecTerm SpecEq SpecFilter SpecDB SpecMisc ProofOrder ProofDB ProofDB2 ProofDB3 ProofMisc ProofThermal
  Properties4 Properties5 Properties6.
From Coquelicot Require Import Coquelicot.
From Coq Require Import List.
Import ListNotations.
Local Open Scope string_scope.
Local Open Scope list_scope.

(** C61.  An Aggregate of any nesting is the plain list of the properties written in it. *)
Theorem C61_flat : forall f r k, denote (AAgg f r k) = plain_list (written (AAgg f r k)).
Proof. exact aggregate_flat. Qed.
Print Assumptions C61_flat.
Theorem C61_print : forall pr f r k, list_print pr (denote (AAgg f r k)) =
  Some (fold_right (fun a s => (pr a ++ s)%string) ""%string (written (AAgg f r k))).
Proof. exact print_order. Qed.
Print Assumptions C61_print.
(** Loading visits them in order, so the first failure decides the exception. *)
Theorem C61_load : forall (V : Type) (ld : string -> outcome V) f r k, list_load ld (denote (AAgg f r k)) =
  Some (omap (fun a => do v <- ld a; Ok (a, v)) (written (AAgg f r k))).
Proof. exact @load_order. Qed.
Print Assumptions C61_load.
(** A Null that is not trailing is kept as a member, which can not be printed. *)
Theorem C61_middle_null_refuted : exists n m t,
  aggregate (PLeaf n) [PNull; PLeaf m] = t /\ (forall l, t <> plain_list l) /\ (forall pr, list_print pr t = None).
Proof. exists "name", "mass". exact (middle_null "name" "mass"). Qed.
Print Assumptions C61_middle_null_refuted.
Example C61_case :
  let e := AAgg (AAgg (AProp "name") [AProp "mass"] 23) [AProp "charge"; AAgg (AProp "polarizability") [] 0; AAgg (AAgg (AProp "size") [] 1) [AProp "x"] 0] 2 in
  denote e = plain_list ["name"; "mass"; "charge"; "polarizability"; "size"; "x"] /\
  list_print (prop_print ", " "1") (denote e) =
    Some "name: 1, mass: 1, charge: 1, polarizability: 1, size: 1, x: 1, " /\
  list_load (fun a => prop_load (String.eqb a "size") 7 (if String.eqb a "mass" then Some (Ok 3) else None)) (denote e)
    = Some (Throw ExnNotFound).
Proof. split; [reflexivity|split; reflexivity]. Qed.

(** C62.  Chains of option modifiers. *)
Theorem C62_chain : forall (A B C : Type) (p : A) (q : B) (r : C) (ms : list (modifier A B C)),
  let o := fold_left modify ms (default_options p q r) in
  in_force pickParticle ms p (o_Particle o) /\ in_force pickProperties ms q (o_Properties o) /\
  in_force pickInplace ms true (o_inplace o) /\ in_force pickAuto ms false (o_auto_elastic o) /\
  in_force pickRNG ms r (o_RNG o) /\ in_force pickExtra ms true (o_extrapolation o).
Proof. exact @options_chain. Qed.
Print Assumptions C62_chain.
Example C62_case : fold_left modify
    [setRNG "mt"; setAutoCreateMissingElastic true; setRNG "kiss2"; setInplaceInteractions false; setInplaceInteractions true]
    (default_options "P" "DefaultSet" "Kiss")
  = mkOptions "P" "DefaultSet" true true "kiss2" true.
Proof. reflexivity. Qed.

(** C63.  The example's maximum relative speed. *)
Theorem C63_same_species : forall (vs : list (vec RNum)) u v, In u vs -> In v vs ->
  (rel_speed u v <= maxRelativeVelocity (cell_extrema vs) (cell_extrema vs))%R.
Proof. exact cell_same. Qed.
Print Assumptions C63_same_species.
Theorem C63_two_species : forall (us vs : list (vec RNum)) u v, In u us -> In v vs ->
  (rel_speed u v <= sqrt 2 * maxRelativeVelocity (cell_extrema us) (cell_extrema vs))%R.
Proof. exact cell_other. Qed.
Print Assumptions C63_two_species.
Theorem C63_two_species_refuted : exists us vs (u v : vec RNum), In u us /\ In v vs /\
  (rel_speed u v = sqrt 2 * maxRelativeVelocity (cell_extrema us) (cell_extrema vs))%R /\
  (maxRelativeVelocity (cell_extrema us) (cell_extrema vs) < rel_speed u v)%R.
Proof. exact cell_refuted. Qed.
Print Assumptions C63_two_species_refuted.
Example C63_case : In va [va; vb] /\ In vb [va; vb].
Proof. split; [left|right; left]; reflexivity. Qed.

(** C69.  Thermal speeds.  The distribution is normalised, so the averages mean
    something. *)
Local Open Scope R_scope.
Theorem C69_distribution : forall k T mu, 0 < k -> 0 < T -> 0 < mu -> average (maxwell (k * T) mu) (fun _ => 1) 1.
Proof. exact avg_one. Qed.
Print Assumptions C69_distribution.
(** avg_v_rel is the mean relative speed divided by sqrt 2. *)
Theorem C69_mean : forall k T mu, 0 < k -> 0 < T -> 0 < mu ->
  average (maxwell (k * T) mu) (fun v => v) (sqrt 2 * avg_v_rel (N:=RNum) k T mu).
Proof. intros k T mu Hk HT Hm. rewrite <- mean_model by assumption. exact (avg_mean k T mu Hk HT Hm). Qed.
Print Assumptions C69_mean.
(** calcStdVFromT is the root mean square relative speed divided by sqrt 2. *)
Theorem C69_rms : forall k T mu, 0 < k -> 0 < T -> 0 < mu ->
  average (maxwell (k * T) mu) (fun v => v * v)
    ((sqrt 2 * calcStdVFromT (N:=RNum) k T mu) * (sqrt 2 * calcStdVFromT (N:=RNum) k T mu)).
Proof. intros k T mu Hk HT Hm. rewrite <- rms_model by assumption. exact (avg_second k T mu Hk HT Hm). Qed.
Print Assumptions C69_rms.
(** It exceeds the standard deviation of the relative speed. *)
Theorem C69_deviation : forall k T mu, 0 < k -> 0 < T -> 0 < mu ->
  exists m var, average (maxwell (k * T) mu) (fun v => v) m /\
    average (maxwell (k * T) mu) (fun v => (v - m) * (v - m)) var /\ sqrt var < calcStdVFromT (N:=RNum) k T mu.
Proof.
  intros k T mu Hk HT Hm. exists (mean k T mu), (second k T mu - mean k T mu * mean k T mu).
  split; [exact (avg_mean k T mu Hk HT Hm)|]. split; [exact (avg_var k T mu Hk HT Hm)|exact (var_less k T mu Hk HT Hm)].
Qed.
Print Assumptions C69_deviation.
(** At least 99% of the pairs are slower than the estimated maximum. *)
Theorem C69_estimate : forall k T mu, 0 < k -> 0 < T -> 0 < mu ->
  exists p, is_RInt (maxwell (k * T) mu) 0 (estMaxVFromStdV (N:=RNum) (calcStdVFromT (N:=RNum) k T mu)) p /\ 99 / 100 <= p.
Proof. exact est_model. Qed.
Print Assumptions C69_estimate.
Example C69_case : 0 < 138 / 10 /\ 0 < 300 /\ 0 < 1 / 2.
Proof. lra. Qed.
Local Close Scope R_scope.

(** C70.  Databases whose options ask for automatic elastic cross sections. *)
Theorem C70_auto : forall (N : Num) (ok : N -> Prop) (K_B : N) fuel allowed (dvmax ddv v dd : N) reg (d : document N) f (props r : list (prop N)) s',
  mass_order ok -> masses_ok ok props -> unique_names props ->
  set_ok (x_inter d) -> plain_names props (x_inter d) -> speeds dvmax ddv n0 n0 v dd ->
  initBinaryOpt K_B fuel allowed true dvmax ddv reg d f props = Ok (r, s') ->
  exists s, initBinary reg d f props = Ok (r, s) /\
    (forall a b, a < length r -> b < length r ->
      (missing v dd s a b -> exists l q, cell_get s a b = Ok l /\ cell_get s' a b = Ok (l ++ [q]) /\
         made K_B fuel allowed v dd r s a b q /\ eq_isElastic q = true) /\
      (~ missing v dd s a b -> cell_get s' a b = cell_get s a b)).
Proof. exact @auto_on. Qed.
Print Assumptions C70_auto.
Theorem C70_off : forall (N : Num) (K_B : N) fuel allowed (dvmax ddv : N) reg d f (props : list (prop N)),
  initBinaryOpt K_B fuel allowed false dvmax ddv reg d f props = initBinary reg d f props.
Proof. exact @auto_off. Qed.
Print Assumptions C70_off.
Definition auto_view (auto : bool) :=
  match initBinaryOpt (fofZ 1 : F) 0 true auto (fofZ 0) (fofZ 0) reg0 docF FNull dbx with
  | Ok (_, s) => map (fun e => (fst e, length (snd e))) (List.filter (fun e => negb (Nat.eqb (length (snd e)) 0)) s)
  | _ => []
  end.
Example C70_case : auto_view true = [((0, 3), 1); ((1, 1), 1); ((1, 2), 1); ((2, 2), 1)] /\
  auto_view false = [((0, 3), 1); ((1, 1), 1); ((2, 2), 1)] /\
  mass_order okF /\ masses_ok okF dbx /\ unique_names dbx /\ set_ok (x_inter docF) /\ plain_names dbx (x_inter docF).
Proof.
  split; [vm_compute; reflexivity|]. split; [vm_compute; reflexivity|].
  split; [exact (F_mass_order lm0)|]. split; [exact dbx_ok|]. split; [exact dbx_unique|]. split; [exact docF_ok|exact docF_plain].
Qed.
