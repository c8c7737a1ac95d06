(** C104 for runs that remove particles. *)
From Coq Require Import Reals Lia ZArith Bool List String Permutation.
From Flocq Require Import Core.Core IEEE754.BinarySingleNaN.
From Verif Require Import Base Num ModelTerm ModelEq ModelCollide ModelXsec ModelSet SpecPhys SpecSet SpecNan SpecNan2
  ProofSelect ProofNan ProofNan2 Properties1 Properties3.
From Coq Require Import List.
Import ListNotations.

(** In place, reactions included: the particles with NaN velocities are all still there,
    unchanged and among the live particles of their species, after a run of any length.
    (Where exactly is another matter: removals move particles.) *)
Theorem C104_C43_reactions : forall lm (K : F64 lm) fuel dt (c : cell (F64 lm)) nprops db res er g k s,
  frng_ok g -> bounded (2 ^ 32) (c_ranges c) -> disjoint (c_ranges c) ->
  (forall A B, List.Forall (fun e => quiet (lm:=lm) (q_cs e)) (db A B)) ->
  (forall A B, List.Forall (fun e => appends (q_model e)) (db A B)) ->
  driver K fuel true dt c nprops db res er g k = Ok s ->
  forall C r0, nth_error (c_ranges c) C = Some r0 ->
  exists r rest, nth_error (s_ranges s) C = Some r /\ Permutation (live (s_mem s) r) (nans (c_mem c) r0 ++ rest).
Proof. intros lm K fuel dt c nprops db res er g k s Hg. apply run_nans, C42_positions, Hg. Qed.
Print Assumptions C104_C43_reactions.
(** So reactions cannot use up a species below the number of its NaN particles. *)
Theorem C104_C43_left : forall lm (K : F64 lm) fuel dt (c : cell (F64 lm)) nprops db res er g k s,
  frng_ok g -> bounded (2 ^ 32) (c_ranges c) -> disjoint (c_ranges c) ->
  (forall A B, List.Forall (fun e => quiet (lm:=lm) (q_cs e)) (db A B)) ->
  (forall A B, List.Forall (fun e => appends (q_model e)) (db A B)) ->
  driver K fuel true dt c nprops db res er g k = Ok s ->
  forall C r0 r, nth_error (c_ranges c) C = Some r0 -> nth_error (s_ranges s) C = Some r ->
  (length (nans (c_mem c) r0) <= rsize r)%nat.
Proof.
  intros lm K fuel dt c nprops db res er g k s Hg Hb Hd HQ Ha H C r0 r E0 E.
  destruct (C104_C43_reactions lm K fuel dt c nprops db res er g k s Hg Hb Hd HQ Ha H C r0 E0) as (r' & rest & E' & P).
  rewrite E in E'. injection E' as <-. apply Permutation_length in P. rewrite app_length in P.
  unfold live, others in P. rewrite map_length in P.
  assert (Q : (length (filter (fun p => negb (existsb (Nat.eqb p) [])) (seq (fst r) (rsize r))) <= rsize r)%nat).
  { pose proof (seq_length (rsize r) (fst r)) as Q. set (l := seq _ _) in *. clearbody l. rewrite <- Q. clear. induction l as [|x l IH]; cbn in *; lia. }
  lia.
Qed.
Print Assumptions C104_C43_left.

(** Two reactions 0 + 1 -> 2 + 3 in a cell whose third particle of species 0 has a NaN.
    The first one moves it to position 1, the test with it there does nothing, the second
    reaction moves it to position 0: it alone is left. *)
Definition fnan : particle F := mkParticle (N:=F) (V3 (N:=F) (fofZ 0) (fofZ 0) (fofZ 0)) (V3 (N:=F) (fofZ 1) (B754_nan : binary64) (fofZ 1)) 0%Z (fofZ 1).
Definition ncell : cell F := mkCell (N:=F) [fp 0 5 0; fp 1 4 0; fnan; fp 3 0 1; fp 4 1 1] [(0, 3); (3, 5)]%nat (fofZ 8) (fun _ _ => fofZ 5).
Definition fG3 : rng F := mkRng (N:=F) (fun _ => fhalf) (fun n => match Nat.modulo n 3 with 0%nat => fbelow1 | 1%nat => fhalf | _ => fofZ 0 end).
Definition nrun := driver (N:=F) (fofZ 1) 20 true (fofZ 1) ncell 2 fdbe [] [] fG3 0.
Definition nan_at (n : nat) (o : outcome (dstate F)) : bool :=
  match o with Ok s => match nth_error (s_mem s) n with Some p => has_nan p | None => false end | _ => false end.
Example C104_reactions_case : frng_ok fG3 /\ bounded (2 ^ 32) (c_ranges ncell) /\ disjoint (c_ranges ncell) /\
  (forall A B, List.Forall (fun e => quiet (lm:=exlm) (q_cs e)) (fdbe A B)) /\
  (forall A B, List.Forall (fun e => appends (q_model e)) (fdbe A B)) /\
  length (nans (c_mem ncell) (0, 3)%nat) = 1%nat /\
  skipn 14 (run_log nrun) = [(0, 1, (1, 3), 0%Z); (0, 1, (1, 3), (-1)%Z); (0, 1, (0, 3), 0%Z)]%nat /\
  run_ranges nrun = [(0, 1); (3, 3)]%nat /\ nan_at 0 nrun = true.
Proof.
  split.
  { intros n. cbn [fG3 g_rand g_exc]. destruct (Nat.modulo n 3) as [|[|m]]; (split; [|split; [|split]]); vm_compute; reflexivity. }
  destruct fcell_ok as (H1 & H2 & _). split; [exact H1|]. split; [exact H2|]. split.
  { intros [|A] [|[|B]]; cbn [fdbe]; repeat (apply Forall_cons || apply Forall_nil); cbn; exact I. }
  split; [exact fdbe_appends|]. split; [vm_compute; reflexivity|]. split; [vm_compute; reflexivity|]. split; vm_compute; reflexivity.
Qed.
