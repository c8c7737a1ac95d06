(** Proofs about changing all particles of a run at once. *)
From Coq Require Import Reals Lra Lia ZArith Bool Arith List.
From Verif Require Import Base Num ModelTerm ModelCollide ModelFactories ModelXsec ModelSet SpecTerm SpecPhys SpecSet SpecRun SpecFrame
  ProofCollide ProofInelastic ProofDriver ProofDriver2.
From Coq Require Import List.
Import ListNotations.

Lemma result_bind {A B C} (f : A -> B) (x : outcome A) (h : B -> outcome C) : obind (result_of f x) h = obind x (fun a => h (f a)).
Proof. now destruct x. Qed.
Lemma bind_result {A B C} (x : outcome A) (h : A -> outcome B) (f : B -> C) : result_of f (obind x h) = obind x (fun a => result_of f (h a)).
Proof. now destruct x. Qed.
Lemma bind_ext {A B} (x : outcome A) (h h' : A -> outcome B) : (forall a, x = Ok a -> h a = h' a) -> obind x h = obind x h'.
Proof. destruct x; cbn; auto. Qed.
Lemma oget_map {A B} (f : A -> B) l n : oget (map f l) n = result_of f (oget l n).
Proof. unfold oget. rewrite nth_error_map. now destruct (nth_error l n). Qed.
Lemma upd_map {A B} (f : A -> B) x l : forall n, upd n (f x) (map f l) = map f (upd n x l).
Proof. induction l as [|y l IH]; intros [|n]; cbn; try reflexivity. now rewrite IH. Qed.

Section Sim.
Context {N : Num}.
Variable K : N.
Variables (phi : particle N -> particle N) (psi : list (particle N) -> list (particle N)) (er0 : list nat).
Hypothesis phi_species : forall p, p_species (phi p) = p_species p.
Hypothesis phi_weight : forall p, p_weight (phi p) = p_weight p.
Hypothesis phi_speed : forall p q, vabs (vsub (p_vel (phi p)) (p_vel (phi q))) = vabs (vsub (p_vel p) (p_vel q)).
Hypothesis psi_app : forall l x, psi (l ++ x) = psi l ++ map phi x.

Definition pair4 (x : particle N * particle N * list (particle N) * nat) := let '(a, b, l, k) := x in (phi a, phi b, psi l, k).
Definition commutes (q : equation N) : Prop := forall i a b l g k,
  model_interact i (q_model q) (phi a) (phi b) (psi l) g k = result_of pair4 (model_interact i (q_model q) a b l g k).
Definition Phi (s : dstate N) : dstate N :=
  mkState (map phi (s_mem s)) (s_ranges s) (psi (s_res s)) (er0 ++ s_erase s) (s_pos s) (s_log s).

Lemma psi_length l : length (psi l) = (length (psi []) + length l)%nat.
Proof. rewrite <- (app_nil_l l) at 1. now rewrite psi_app, app_length, map_length. Qed.

Definition pair5 (x : (Z * N) * particle N * particle N * list (particle N) * nat) := let '(p, a, b, l, k) := x in (p, phi a, phi b, psi l, k).
Lemma set_commutes i rhs msv a b l g k : List.Forall commutes rhs ->
  set_interact K i rhs msv (phi a) (phi b) (psi l) g k = result_of pair5 (set_interact K i rhs msv a b l g k).
Proof.
  intros H. unfold set_interact. rewrite phi_speed, bind_result. apply bind_ext. intros [path k1] _. destruct (0 <=? fst path)%Z; [|reflexivity].
  rewrite bind_result. apply bind_ext. intros e He. rewrite !phi_species.
  assert (Ce : commutes e).
  { unfold oget in He. destruct (nth_error rhs _) as [e'|] eqn:E; [|discriminate]. injection He as <-. rewrite List.Forall_forall in H. apply H. eapply nth_error_In; exact E. }
  destruct (_ <? _)%Z; rewrite Ce, result_bind, bind_result; apply bind_ext; intros [[[a' b'] l'] k'] _; reflexivity.
Qed.

Lemma retval_commutes A B pr s : retval_inplace A B pr (Phi s) = result_of Phi (retval_inplace A B pr s).
Proof.
  unfold retval_inplace. cbn [s_ranges s_mem s_erase s_res s_pos s_log Phi]. rewrite bind_result. apply bind_ext. intros ra _. cbv zeta.
  destruct (Nat.eqb (snd pr) (snd ra - 1)).
  - destruct (Nat.eqb A B); [|reflexivity]. rewrite oget_map, result_bind, bind_result. apply bind_ext. intros p _. rewrite bind_result. apply bind_ext. intros rb _.
    cbn [result_of obind]. unfold Phi. cbn [s_ranges s_mem s_erase s_res s_pos s_log]. rewrite upd_map, !app_assoc. reflexivity.
  - rewrite oget_map, result_bind, bind_result. apply bind_ext. intros p _. rewrite bind_result. apply bind_ext. intros rb _. rewrite upd_map, oget_map, result_bind, bind_result. apply bind_ext. intros p' _.
    cbn [result_of obind]. unfold Phi. cbn [s_ranges s_mem s_erase s_res s_pos s_log]. rewrite upd_map, !app_assoc. reflexivity.
Qed.

Lemma test_commutes i sf rhs msv A B g s : List.Forall commutes rhs ->
  one_test K i sf rhs msv A B g (Phi s) = result_of Phi (one_test K i sf rhs msv A B g s).
Proof.
  intros H. unfold one_test. cbn [s_ranges s_mem s_erase s_res s_pos s_log Phi].
  rewrite bind_result. apply bind_ext. intros ra _. rewrite bind_result. apply bind_ext. intros rb _. rewrite bind_result. apply bind_ext. intros [[x y] k] _.
  rewrite oget_map, result_bind, bind_result. apply bind_ext. intros pA _. rewrite oget_map, result_bind, bind_result. apply bind_ext. intros pB _.
  rewrite set_commutes by exact H. rewrite result_bind, bind_result. apply bind_ext. intros [[[[path a] b] l] k'] _. cbn [pair5]. cbv zeta.
  rewrite !upd_map. rewrite (psi_length l), (psi_length (s_res s)).
  replace (Nat.leb (length (psi []) + length l) (length (psi []) + length (s_res s))) with (Nat.leb (length l) (length (s_res s)))
    by (destruct (Nat.leb_spec (length l) (length (s_res s))); destruct (Nat.leb_spec (length (psi []) + length l) (length (psi []) + length (s_res s))); try reflexivity; lia).
  destruct (_ || _)%bool; [reflexivity|]. exact (retval_commutes A B (x, y) (mkState (upd y b (upd x a (s_mem s))) (s_ranges s) l (s_erase s) k' (s_log s ++ [(A, B, (x, y), fst path)]))).
Qed.

Lemma loop_commutes i sf rhs msv A B g : List.Forall commutes rhs -> forall fuel x s,
  test_loop K fuel i sf rhs msv A B x g (Phi s) = result_of Phi (test_loop K fuel i sf rhs msv A B x g s).
Proof.
  intros H. induction fuel as [|fuel IH]; intros x s; cbn [test_loop]; [reflexivity|]. destruct (n1 <? x)%num; [|reflexivity].
  cbn [s_ranges Phi]. rewrite bind_result. apply bind_ext. intros ra _. rewrite bind_result. apply bind_ext. intros rb _. destruct (_ || _)%bool; [reflexivity|].
  rewrite test_commutes by exact H. rewrite result_bind, bind_result. apply bind_ext. intros s' _. apply IH.
Qed.

Lemma second_commutes i db g fuel l : (forall ct, In ct l -> List.Forall commutes (db (ct_A ct) (ct_B ct))) -> forall s,
  second_pass K fuel i db g l (Phi s) = result_of Phi (second_pass K fuel i db g l s).
Proof.
  unfold second_pass. induction l as [|ct l IH]; intros H s; cbn [ofold]; [reflexivity|].
  rewrite loop_commutes by (apply H; now left). rewrite result_bind, bind_result. apply bind_ext. intros s' _. apply IH. intros ct' Hc. apply H. now right.
Qed.

Lemma first_commutes db dt (c : cell N) mx g ps : (forall A B, In (A, B) ps -> mx A B = c_maxv c A B) -> forall k,
  first_pass K db dt (mkCell (map phi (c_mem c)) (c_ranges c) (c_volume c) mx) g k ps = first_pass K db dt c g k ps.
Proof.
  intros H. induction ps as [|[A B] ps IH]; intros k; cbn [first_pass]; [reflexivity|]. cbn [c_ranges c_mem c_volume c_maxv].
  assert (W : forall r, first_weight (map phi (c_mem c)) r = first_weight (c_mem c) r).
  { intros r. unfold first_weight. destruct (Nat.ltb _ _); [|reflexivity]. rewrite oget_map, result_bind. apply bind_ext. intros p _. now rewrite phi_weight. }
  apply bind_ext. intros ra _. apply bind_ext. intros rb _. assert (IH' : forall k, first_pass K db dt (mkCell (map phi (c_mem c)) (c_ranges c) (c_volume c) mx) g k ps = first_pass K db dt c g k ps).
  { apply IH. intros A' B' Hi. apply H. now right. }
  destruct (db A B) as [|e rhs]; [apply IH'|]. rewrite (H A B (or_introl eq_refl)). apply bind_ext. intros msv _. rewrite !W. apply bind_ext. intros wA _. apply bind_ext. intros wB _. cbv zeta. now rewrite IH'.
Qed.

Lemma driver_commutes fuel i dt (c : cell N) nprops db res er g k :
  (forall A B, (A <= B)%nat -> List.Forall commutes (db A B)) ->
  driver K fuel i dt (changed_cell phi c) nprops db (psi res) (er0 ++ er) g k = result_of Phi (driver K fuel i dt c nprops db res er g k).
Proof.
  intros H. unfold driver. cbv zeta. unfold changed_cell at 1 2. cbn [c_ranges]. rewrite first_commutes by reflexivity. rewrite bind_result. apply bind_ext. intros [l k'] E. cbn [changed_cell c_mem c_ranges].
  change (mkState (map phi (c_mem c)) (c_ranges c) (psi res) (er0 ++ er) k' []) with (Phi (mkState (c_mem c) (c_ranges c) res er k' [])).
  apply second_commutes. intros ct Hc. apply H. destruct (first_pass_ok K db dt c g _ _ _ _ E) as [Hm _].
  assert (Hp : In (ct_A ct, ct_B ct) (filter (has_eqs db) (species_pairs (Nat.min (length (c_ranges c)) nprops)))) by (rewrite <- Hm; apply in_map_iff; exists ct; auto).
  apply filter_In in Hp as [Hp _]. apply species_pairs_in in Hp. lia.
Qed.
End Sim.
