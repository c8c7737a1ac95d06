(** C50-C56, C67, C68: the runtime database. *)
From Coq Require Import String Ascii List ZArith Bool Arith Lia Sorted Permutation.
From Flocq Require Import IEEE754.BinarySingleNaN.
From Verif Require Import Base Num ModelTerm ModelCollide ModelFactories ModelXsec ModelSet ModelEq ModelFilter ModelDB
  SpecTerm SpecEq SpecFilter SpecDB ProofOrder ProofDB ProofDB2 ProofDB3 Properties4 Properties5.
From Coq Require Import List.
Import ListNotations.
Local Open Scope string_scope.
Local Open Scope list_scope.

(** C50.  Any sequence of additions to a database with unique names keeps the entries
    and appends, in order, the first definitions of new names. *)
Theorem C50_additions : forall (N : Num) (ps props : list (prop N)), unique_names props ->
  exists tail, fold_left addParticle ps props = props ++ tail /\ subseq tail ps /\
    unique_names (props ++ tail) /\ (forall q, In q (props ++ tail) <-> first_def (props ++ ps) q).
Proof. exact @add_all. Qed.
Print Assumptions C50_additions.
Theorem C50_lookup : forall (N : Num) (props : list (prop N)) i p, unique_names props ->
  nth_error props i = Some p ->
  findParticleIndx props (pr_name p) = Z.of_nat i /\ db_at props (pr_name p) = Ok (i, p).
Proof. exact @lookup_all. Qed.
Print Assumptions C50_lookup.
Theorem C50_unknown : forall (N : Num) (props : list (prop N)) name, ~ In name (map (pr_name (N:=N)) props) ->
  findParticleIndx props name = (-1)%Z /\ db_at props name = Throw ExnRuntime.
Proof. exact @lookup_unknown. Qed.
Print Assumptions C50_unknown.
(** Adding a model adds exactly its missing species and sets its filter. *)
Theorem C50_model : forall (N : Num) (d : document N) (props r : list (prop N)) name f, unique_names props ->
  (forall a p, x_particle d a = Ok p -> pr_name p = a) ->
  addModel d props name = Ok (r, f) ->
  x_filter d name = Ok f /\ unique_names r /\ (exists tail, r = props ++ tail) /\
  (forall a, In a (map (pr_name (N:=N)) r) <-> In a (map (pr_name (N:=N)) props) \/ In a (x_model d name)).
Proof. exact @add_model. Qed.
Print Assumptions C50_model.

Definition xc (id : nat) (xin xout : list xterm) : xinter F := mkXI (N:=F) id ["standard"] xin xout "" ""
  (Some (Some "constant", DConstant (N:=F) (fofZ 2) None)) None None None.
Definition docF : document F := mkDoc (N:=F)
  (fun a => match db_at dbx a with Ok (_, p) => Ok p | _ => Throw ExnNotFound end)
  (fun _ => ["A"; "e"; "A"; "Xe"]) (fun _ => Ok (FLabel "vss"))
  [xc 0 [xt 2 "A"] [xt 2 "A"]; xc 1 [xt 2 "B"] [xt 2 "B"]; xc 2 [xt 1 "e"; mkXT "Xe" None None None] [xt 1 "B"; xt 1 "A"];
   xc 3 [xt 1 "A"; xt 1 "A"] [xt 2 "A"]; xc 4 [xt 1 "A"; xt 1 "Xe"] [xt 1 "He"];
   mkXI (N:=F) 5 [] [xt 2 "A"] [xt 2 "A"] "" "" None None None None; xc 6 [xt 2 "Xe"] []].
Definition names (o : outcome (list (prop F))) : list string := match o with Ok l => map (pr_name (N:=F)) l | _ => [] end.
Lemma dbx_names : map (pr_name (N:=F)) dbx = ["Xe"; "B"; "e"; "A"].
Proof. reflexivity. Qed.
Lemma dbx_unique : unique_names dbx.
Proof.
  unfold unique_names. rewrite dbx_names.
  repeat (apply NoDup_cons; [cbn [In]; intros H; decompose [or] H; try discriminate; assumption|]). apply NoDup_nil.
Qed.
Example C50_case : unique_names dbx /\
  names (Ok (fold_left addParticle [mkProp (N:=F) "B" (fofZ 9) (fofZ 0); mkProp (N:=F) "He" (fofZ 3) (fofZ 0); mkProp (N:=F) "He" (fofZ 5) (fofZ 0)] dbx))
    = ["Xe"; "B"; "e"; "A"; "He"] /\
  (match addModel docF [] "m" with Ok (l, _) => map (pr_name (N:=F)) l | _ => [] end) = ["A"; "e"; "Xe"] /\
  findParticleIndx dbx "e" = 2%Z /\ findParticleIndx dbx "He" = (-1)%Z.
Proof. split; [exact dbx_unique|]. split; [|split; [|split]]; vm_compute; reflexivity. Qed.

(** C51.  The species are sorted. *)
Theorem C51_sorted : forall (N : Num) (ok : N -> Prop) reg d f (props r : list (prop N)) s, mass_order ok -> masses_ok ok props ->
  initBinary reg d f props = Ok (r, s) ->
  Permutation props r /\ forall i j p q, i < j -> nth_error r i = Some p -> nth_error r j = Some q ->
    nltb (pr_mass q) (pr_mass p) = false /\
    (neqb (pr_mass p) (pr_mass q) = true -> str_ltb (pr_name q) (pr_name p) = false) /\
    (unique_names props -> prop_ltb p q = true).
Proof. exact @init_sorted. Qed.
Print Assumptions C51_sorted.
Definition db_view (o : outcome (list (prop F) * sets F)) :=
  match o with
  | Ok (r, s) => Some (map (pr_name (N:=F)) r, map (fun e => (fst e, length (snd e))) (List.filter (fun e => negb (Nat.eqb (length (snd e)) 0)) s))
  | _ => None
  end.
Example C51_C52_case : db_view (initBinary reg0 docF FNull dbx) =
  Some (["e"; "A"; "B"; "Xe"], [((0, 3), 1); ((1, 1), 1); ((2, 2), 1)]).
Proof. vm_compute. reflexivity. Qed.

(** C52.  The interactions loaded for a pair. *)
Theorem C52_exact : forall (N : Num) reg (d : document N) f (props r : list (prop N)) s,
  unique_names props -> set_ok (x_inter d) -> plain_names props (x_inter d) ->
  initBinary reg d f props = Ok (r, s) ->
  forall A B, A <= B < length r -> exists m xs qs,
    set_ok m /\ (forall x, In x m <-> In x (x_inter d) /\ belongs r A B x) /\
    run_filter (x_inter d) f m = Ok xs /\ cell_get s A B = Ok qs /\ cell_get s B A = Ok qs /\
    List.Forall2 (fun x q => load_equation reg r x = Ok q) xs qs /\
    (pointwise f -> forall x, In x xs <-> In x (x_inter d) /\ belongs r A B x /\ keeps f x).
Proof. exact @init_exact. Qed.
Print Assumptions C52_exact.
Theorem C52_total : forall (N : Num) reg (d : document N) f (props : list (prop N)),
  unique_names props -> set_ok (x_inter d) -> plain_names props (x_inter d) ->
  (forall A B x, A <= B < length props -> In x (x_inter d) -> belongs (sort_props props) A B x ->
     exists q, load_equation reg (sort_props props) x = Ok q) ->
  exists s, initBinary reg d f props = Ok (sort_props props, s).
Proof. exact @init_total. Qed.
Print Assumptions C52_total.
Lemma docF_ok : set_ok (x_inter docF).
Proof. unfold set_ok, docF. cbn [x_inter]. repeat (apply SSorted_cons || apply SSorted_nil || apply Forall_cons || apply Forall_nil || (cbn; lia)). Qed.
Lemma docF_plain : plain_names dbx (x_inter docF).
Proof.
  split.
  - intros p Ip. apply (in_map (pr_name (N:=F))) in Ip. rewrite dbx_names in Ip. cbn [In] in Ip.
    decompose [or] Ip; try contradiction; (rewrite <- H || rewrite <- H0); split; try discriminate; cbn; intuition discriminate.
  - intros x t Ix It.
    assert (E : In (x_P t) (flat_map (fun x => map x_P (xi_out x)) (x_inter docF))).
    { apply in_flat_map. exists x. split; [assumption|]. now apply in_map. }
    change (In (x_P t) ["A"; "B"; "B"; "A"; "A"; "He"; "A"]) in E. cbn [In] in E.
    decompose [or] E; try contradiction; (rewrite <- H || rewrite <- H0); split; try discriminate; cbn; intuition discriminate.
Qed.
Example C52_hypotheses : unique_names dbx /\ set_ok (x_inter docF) /\ plain_names dbx (x_inter docF).
Proof. split; [exact dbx_unique|]. split; [exact docF_ok|exact docF_plain]. Qed.

(** C53.  Two separate terms of one species are never selected, for any pair, but load. *)
Theorem C53_never_selected : forall (N : Num) (d : document N) f (props : list (prop N)) A B xs (x : xinter N) t u,
  set_ok (x_inter d) -> unique_names props -> pair_interactions d f props A B = Ok xs ->
  xi_in x = [t; u] -> x_P t = x_P u -> ~ In x xs.
Proof. exact @separate_not_selected. Qed.
Print Assumptions C53_never_selected.
Theorem C53_would_load : forall (N : Num) (ok : N -> Prop) (props : list (prop N)) xin xout t u,
  mass_order ok -> masses_ok ok props ->
  xin = [t; u] -> x_P t = x_P u -> xt_n t = 1%Z -> xt_n u = 1%Z -> known props t ->
  List.Forall (known props) xout -> nonneg xout -> exists r, load_core props xin xout = Ok r.
Proof. exact @separate_loads. Qed.
Print Assumptions C53_would_load.
Example C53_case : (match pair_interactions docF FNull dbx 3 3 with Ok xs => map (xi_id (N:=F)) xs | _ => [] end) = [0] /\
  (match load_equation reg0 dbx (xc 3 [xt 1 "A"; xt 1 "A"] [xt 2 "A"]) with Ok q => eq_isElastic q | _ => false end) = true.
Proof. split; vm_compute; reflexivity. Qed.

(** C54.  The textual product test. *)
Theorem C54_plain : forall (N : Num) (props : list (prop N)) t,
  (forall p, In p props -> plain_name (pr_name p)) -> plain_name (x_P t) ->
  known_product props t = true <-> known props t.
Proof. exact @known_product_iff. Qed.
Print Assumptions C54_plain.
Definition dbxy : list (prop F) := [mkProp (N:=F) "X" (fofZ 1) (fofZ 0); mkProp (N:=F) "Y" (fofZ 2) (fofZ 0)].
(** An unknown product with colons, and an empty product name, are accepted. *)
Theorem C54_colon_refuted : exists (props : list (prop F)) t,
  (forall p, In p props -> plain_name (pr_name p)) /\ x_P t <> "" /\ known_product props t = true /\ ~ known props t.
Proof.
  exists dbxy, (xt 1 "X::Y"). split; [|split; [discriminate|split; [vm_compute; reflexivity|]]].
  - intros p Ip. apply (in_map (pr_name (N:=F))) in Ip. change (In (pr_name p) ["X"; "Y"]) in Ip. cbn [In] in Ip.
    decompose [or] Ip; try contradiction; (rewrite <- H || rewrite <- H0); split; try discriminate; cbn; intuition discriminate.
  - intros H. change (In "X::Y" ["X"; "Y"]) in H. cbn [In] in H. decompose [or] H; try discriminate; contradiction.
Qed.
Print Assumptions C54_colon_refuted.
Theorem C54_empty_refuted : exists (props : list (prop F)) t,
  (forall p, In p props -> plain_name (pr_name p)) /\ x_P t = "" /\ known_product props t = true /\ ~ known props t.
Proof.
  exists dbxy, (xt 1 ""). split; [|split; [reflexivity|split; [vm_compute; reflexivity|]]].
  - intros p Ip. apply (in_map (pr_name (N:=F))) in Ip. change (In (pr_name p) ["X"; "Y"]) in Ip. cbn [In] in Ip.
    decompose [or] Ip; try contradiction; (rewrite <- H || rewrite <- H0); split; try discriminate; cbn; intuition discriminate.
  - intros H. change (In "" ["X"; "Y"]) in H. cbn [In] in H. decompose [or] H; try discriminate; contradiction.
Qed.
Print Assumptions C54_empty_refuted.
Example C54_case : map (known_product dbx) [xt 1 "A"; xt 1 "X"; xt 1 "Xe"; xt 1 "He"] = [true; false; true; false].
Proof. vm_compute. reflexivity. Qed.

(** C55.  Missing elastic cross sections. *)
Theorem C55_created : forall (N : Num) (K_B : N) fuel allowed (dvmax ddv vmax dv v d : N) (props : list (prop N)) s i j s' k,
  complete (length props) s -> like_plain (length props) s -> speeds dvmax ddv vmax dv v d ->
  createMissing K_B fuel allowed dvmax ddv props s i j vmax dv = Ok (s', k) ->
  (forall a b, a < length props -> b < length props ->
     (missing v d s a b /\ asked i j a b ->
        exists l q, cell_get s a b = Ok l /\ cell_get s' a b = Ok (l ++ [q]) /\ made K_B fuel allowed v d props s a b q) /\
     (~ (missing v d s a b /\ asked i j a b) -> cell_get s' a b = cell_get s a b)) /\
  (exists ms, NoDup ms /\ k = Z.of_nat (length ms) /\
     forall a b, In (a, b) ms <-> a < b < length props /\ missing v d s a b /\ asked i j a b) /\
  createMissing K_B fuel allowed dvmax ddv props s' i j vmax dv = Ok (s', 0%Z).
Proof. exact @create_spec. Qed.
Print Assumptions C55_created.
(** The made equation is recognised as elastic. *)
Theorem C55_made_elastic : forall (N : Num) (K_B : N) fuel allowed (props : list (prop N)) v d s a b q, a <> b ->
  made K_B fuel allowed v d props s a b q -> eq_isElastic q = true.
Proof. exact @made_elastic. Qed.
Print Assumptions C55_made_elastic.
(** Nothing is thrown when all averages are of the easy kind. *)
Theorem C55_total : forall (N : Num) (K_B : N) fuel allowed (dvmax ddv vmax dv v d : N) (props : list (prop N)) s i j,
  complete (length props) s -> like_plain (length props) s -> speeds dvmax ddv vmax dv v d ->
  (forall a b la lb qa qb, missing v d s a b -> cell_get s a a = Ok la -> cell_get s b b = Ok lb ->
     first_elastic la qa -> first_elastic lb qb -> both_easy qa qb) ->
  exists r, createMissing K_B fuel allowed dvmax ddv props s i j vmax dv = Ok r.
Proof. exact @create_total. Qed.
Print Assumptions C55_total.
(** A freshly initialised database meets the hypotheses. *)
Theorem C55_initialised : forall (N : Num) (ok : N -> Prop) reg (d : document N) f (props r : list (prop N)) s,
  mass_order ok -> masses_ok ok props -> unique_names props ->
  set_ok (x_inter d) -> plain_names props (x_inter d) -> initBinary reg d f props = Ok (r, s) ->
  complete (length r) s /\ like_plain (length r) s.
Proof. exact @init_wf. Qed.
Print Assumptions C55_initialised.
Definition create_view (i j : Z) :=
  match initBinary reg0 docF FNull dbx with
  | Ok (r, s) =>
      match createMissing (fofZ 1 : F) 0 true (fofZ 0) (fofZ 0) r s i j (fofZ 0) (fofZ 0) with
      | Ok (s', k) =>
          match createMissing (fofZ 1 : F) 0 true (fofZ 0) (fofZ 0) r s' i j (fofZ 0) (fofZ 0) with
          | Ok (_, k') => Some (k, map (fun e => (fst e, length (snd e))) (List.filter (fun e => negb (Nat.eqb (length (snd e)) 0)) s'), k')
          | _ => None
          end
      | _ => None
      end
  | _ => None
  end.
Example C55_case : create_view (-1) (-1) = Some (1%Z, [((0, 3), 1); ((1, 1), 1); ((1, 2), 1); ((2, 2), 1)], 0%Z) /\
  create_view 2 1 = Some (1%Z, [((0, 3), 1); ((1, 1), 1); ((1, 2), 1); ((2, 2), 1)], 0%Z) /\
  create_view 0 (-1) = Some (0%Z, [((0, 3), 1); ((1, 1), 1); ((2, 2), 1)], 0%Z).
Proof. split; [|split]; vm_compute; reflexivity. Qed.

(** C56.  An unknown name acts as the wildcard, in either position. *)
Theorem C56_misspelt : forall (N : Num) (K_B : N) fuel allowed (dvmax ddv vmax dv : N) (props : list (prop N)) s i j,
  ~ In i (map (pr_name (N:=N)) props) ->
  createMissingNamed K_B fuel allowed dvmax ddv props s i j vmax dv =
    createMissing K_B fuel allowed dvmax ddv props s (-1) (findParticleIndx props j) vmax dv /\
  createMissingNamed K_B fuel allowed dvmax ddv props s j i vmax dv =
    createMissing K_B fuel allowed dvmax ddv props s (findParticleIndx props j) (-1) vmax dv.
Proof. exact @misspelt. Qed.
Print Assumptions C56_misspelt.
(** So a misspelt name changes pairs that were not asked for. *)
Theorem C56_unasked_refuted : exists (props : list (prop F)) s s' k,
  ~ In "a" (map (pr_name (N:=F)) props) /\
  createMissingNamed (fofZ 1 : F) 0 true (fofZ 0) (fofZ 0) props s "a" "a" (fofZ 0) (fofZ 0) = Ok (s', k) /\ k = 1%Z.
Proof.
  assert (H : (match initBinary reg0 docF FNull dbx with
               | Ok (r, s) => negb (existsb (String.eqb "a") (map (pr_name (N:=F)) r)) &&
                   match createMissingNamed (fofZ 1 : F) 0 true (fofZ 0) (fofZ 0) r s "a" "a" (fofZ 0) (fofZ 0) with
                   | Ok (_, k) => (k =? 1)%Z | _ => false end
               | _ => false end) = true) by (vm_compute; reflexivity).
  destruct (initBinary reg0 docF FNull dbx) as [[r s]| | |]; try discriminate.
  exists r, s. apply andb_true_iff in H as [H1 H].
  destruct (createMissingNamed (fofZ 1 : F) 0 true (fofZ 0) (fofZ 0) r s "a" "a" (fofZ 0) (fofZ 0)) as [[s' k]| | |]; try discriminate.
  exists s', k. split; [|split; [reflexivity|now apply Z.eqb_eq]].
  intros I. apply negb_true_iff in H1.
  assert (X : existsb (String.eqb "a") (map (pr_name (N:=F)) r) = true) by (apply existsb_exists; exists "a"; split; [assumption|reflexivity]).
  rewrite X in H1. discriminate.
Qed.
Print Assumptions C56_unasked_refuted.

(** C67.  Interaction sets by names. *)
Theorem C67_by_names : forall (N : Num) (props : list (prop N)) (s : sets N) i j pi pj, unique_names props ->
  nth_error props i = Some pi -> nth_error props j = Some pj ->
  cell_named props s (pr_name pi) (pr_name pj) = cell_get s i j /\
  cell_named props s (pr_name pj) (pr_name pi) = cell_get s i j.
Proof. exact @named_lookup. Qed.
Print Assumptions C67_by_names.
Theorem C67_unknown : forall (N : Num) (props : list (prop N)) (s : sets N) a b,
  ~ (In a (map (pr_name (N:=N)) props) /\ In b (map (pr_name (N:=N)) props)) ->
  cell_named props s a b = Throw ExnRuntime.
Proof. exact @named_unknown. Qed.
Print Assumptions C67_unknown.
Example C67_case : (match initBinary reg0 docF FNull dbx with
  | Ok (r, s) => map (fun n => match cell_named r s (fst n) (snd n) with Ok l => Some (length l) | _ => None end)
      [("e", "Xe"); ("Xe", "e"); ("A", "A"); ("A", "B"); ("A", "He")]
  | _ => [] end) = [Some 1; Some 1; Some 1; Some 0; None].
Proof. vm_compute. reflexivity. Qed.

(** C68.  The set of all product names. *)
Theorem C68_product_names : forall (N : Num) (ctxs : list (xset N)), str_sorted (findAllRHSParticles ctxs) /\
  forall a, In a (findAllRHSParticles ctxs) <-> exists xs x t, In xs ctxs /\ In x xs /\ In t (xi_out x) /\ x_P t = a.
Proof. exact @rhs_names. Qed.
Print Assumptions C68_product_names.
Example C68_case : findAllRHSParticles [x_inter docF; docx] = ["A"; "B"; "He"].
Proof. vm_compute. reflexivity. Qed.
