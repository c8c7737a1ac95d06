(** C105 for time steps that are not positive. *)
From Coq Require Import Reals Lia ZArith Arith Bool List String.
From Flocq Require Import Core.Core IEEE754.BinarySingleNaN.
From Verif Require Import Base Num ModelTerm ModelEq ModelCollide ModelXsec ModelSet SpecPhys SpecSet SpecNan SpecIdle SpecIdle2
  ProofIdle2 Properties1 Properties3 Properties33.
From Coq Require Import List.
Import ListNotations.

(** A time step that is zero, negative, minus infinity or NaN changes nothing and is not
    reported, whatever the draws, if volume and weights are positive and the largest sigma v
    not negative. *)
Theorem C105_backwards : forall lm (K : F64 lm) fuel inplace dt (c : cell (F64 lm)) nprops db res er g k s,
  ~ fpos dt -> fpos (c_volume c) -> (forall p, In p (c_mem c) -> fpos (p_weight p)) ->
  (forall A B msv, findMaxSigmaVProduct K (db A B) (c_maxv c A B) = Ok msv -> fnonneg msv) ->
  driver K fuel inplace dt c nprops db res er g k = Ok s ->
  s_mem s = c_mem c /\ s_ranges s = c_ranges c /\ s_res s = res /\ s_erase s = er /\ s_log s = [].
Proof. exact @run_backwards. Qed.
Print Assumptions C105_backwards.

(** The cell of C42 (both pairs tested for the time step 1) with the steps 0, -0 and -1. *)
Definition bmsv (A B : nat) : bool :=
  match findMaxSigmaVProduct (N:=F) (fofZ 1) (fdbe A B) (fofZ 5) with Ok m => Bleb (fofZ 0) (m : binary64) | _ => false end.
Lemma bmsv_ok A B : bmsv A B = true.
Proof. destruct A as [|A], B as [|[|B]]; vm_compute; reflexivity. Qed.
Example C105_backwards_case :
  map (fun t => loads (wrun t 5)) [fofZ 1; fofZ 0; B754_zero true; fofZ (-1)] = [true; true; true; true] /\
  map (fun t => pairs_of (wrun t 5)) [fofZ 1; fofZ 0; B754_zero true; fofZ (-1)] = [[(0, 0); (0, 1)]%nat; []; []; []] /\
  map (fun t => Bltb (fofZ 0) t) [fofZ 1; fofZ 0; B754_zero true; fofZ (-1)] = [true; false; false; false] /\
  fpos (c_volume (wcell 5)) /\ (forall p, In p (c_mem (wcell 5)) -> fpos (p_weight p)) /\
  (forall A B msv, findMaxSigmaVProduct (N:=F) (fofZ 1) (fdbe A B) (c_maxv (wcell 5) A B) = Ok msv -> fnonneg msv).
Proof.
  split; [vm_compute; reflexivity|]. split; [vm_compute; reflexivity|]. split; [vm_compute; reflexivity|]. split; [unfold fpos; vm_compute; reflexivity|]. split.
  { intros p H. assert (Q : forallb (fun p : particle F => Bltb (fofZ 0) (p_weight p : binary64)) (c_mem (wcell 5)) = true) by (vm_compute; reflexivity).
    rewrite forallb_forall in Q. exact (Q p H). }
  intros A B msv E. pose proof (bmsv_ok A B) as Q. unfold bmsv in Q. cbn [c_maxv wcell] in E. rewrite E in Q. exact Q.
Qed.
