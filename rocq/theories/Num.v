(** Arithmetic interface of the numerical code and its two instances: the real
    numbers and IEEE-754 binary64. *)
From Coq Require Import ZArith Reals Bool List.
From Flocq Require Import Core.Core IEEE754.BinarySingleNaN.
Import ListNotations.

(** The operations of C++ [double] used by the library. *)
Record Num : Type := mkNum {
  T :> Type;
  nadd : T -> T -> T;
  nsub : T -> T -> T;
  nmul : T -> T -> T;
  ndiv : T -> T -> T;
  nsqrt : T -> T;
  nabs : T -> T;
  nfloor : T -> T;
  ntrunc : T -> Z;           (* static_cast<int> *)
  nltb : T -> T -> bool;     (* < *)
  nleb : T -> T -> bool;     (* <= *)
  neqb : T -> T -> bool;     (* == *)
  ofZ : Z -> T;              (* integer to double; also integer literals *)
  nlog : T -> T;
  nlog10 : T -> T;
  nexp : T -> T;
  npow : T -> T -> T;
  nsin : T -> T;
  ncos : T -> T;
  npi : T;                   (* M_PI *)
  nM_E : T;                  (* M_E *)
  ndblmin : T                (* std::numeric_limits<double>::min() *)
}.

Arguments nadd {n}. Arguments nsub {n}. Arguments nmul {n}. Arguments ndiv {n}.
Arguments nsqrt {n}. Arguments nabs {n}. Arguments nfloor {n}. Arguments ntrunc {n}.
Arguments nltb {n}. Arguments nleb {n}. Arguments neqb {n}. Arguments ofZ {n}.
Arguments nlog {n}. Arguments nlog10 {n}. Arguments nexp {n}. Arguments npow {n}.
Arguments nsin {n}. Arguments ncos {n}. Arguments npi {n}. Arguments nM_E {n}.
Arguments ndblmin {n}.

Declare Scope num_scope.
Delimit Scope num_scope with num.
Bind Scope num_scope with T.
Infix "+" := nadd : num_scope.
Infix "-" := nsub : num_scope.
Infix "*" := nmul : num_scope.
Infix "/" := ndiv : num_scope.
Infix "<?" := nltb (at level 70) : num_scope.
Infix "<=?" := nleb (at level 70) : num_scope.
Infix "=?" := neqb (at level 70) : num_scope.

Section Literals.
Context {N : Num}.
(** Literals of the sources; quotients of small integers round to the nearest
    double, as the compiler's conversion of the decimal literal does. *)
Definition n0 : N := ofZ 0.
Definition n1 : N := ofZ 1.
Definition n2 : N := ofZ 2.
Definition nhalf : N := ndiv (ofZ 1) (ofZ 2).
Definition nquarter : N := ndiv (ofZ 1) (ofZ 4).
Definition nquot (a b : Z) : N := ndiv (ofZ a) (ofZ b).
(** xylose::SQR on scalars. *)
Definition sqr (x : N) : N := nmul x x.
(** std::min and std::max: [b < a ? b : a] and [a < b ? b : a]. *)
Definition nmin (a b : N) : N := if nltb b a then b else a.
Definition nmax (a b : N) : N := if nltb a b then b else a.
End Literals.

(** ** Three-component vectors (xylose::Vector<double,3>) *)
Section Vectors.
Context {N : Num}.
Record vec := V3 { vx : N; vy : N; vz : N }.
Definition vadd (a b : vec) := V3 (nadd (vx a) (vx b)) (nadd (vy a) (vy b)) (nadd (vz a) (vz b)).
Definition vsub (a b : vec) := V3 (nsub (vx a) (vx b)) (nsub (vy a) (vy b)) (nsub (vz a) (vz b)).
Definition vscale (s : N) (a : vec) := V3 (nmul s (vx a)) (nmul s (vy a)) (nmul s (vz a)).
(** xylose::SQR on vectors: scalar product with itself (summation order x,y,z). *)
Definition vsqr (a : vec) : N := nadd (nadd (sqr (vx a)) (sqr (vy a))) (sqr (vz a)).
(** Vector::abs(). *)
Definition vabs (a : vec) : N := nsqrt (vsqr a).
Definition vzero : vec := V3 n0 n0 n0.
End Vectors.
Arguments vec N : clear implicits.

(** ** Random number generators
    A generator is a pair of streams; the [k]-th draw is [g_rand k] when made by
    [rand()] and [g_exc k] when made by [randExc()]. *)
Record rng (N : Num) := mkRng { g_rand : nat -> N; g_exc : nat -> N }.
Arguments g_rand {N}. Arguments g_exc {N}. Arguments mkRng {N}.

(** ** Real numbers *)
Definition Rltb (a b : R) : bool := if Rlt_dec a b then true else false.
Definition Rleb (a b : R) : bool := if Rle_dec a b then true else false.
Definition Reqb (a b : R) : bool := if Req_EM_T a b then true else false.

(** [std::pow] for a non-negative base: [Rpower] except at base 0, where
    0^0 = 1 and 0^y = 0 for y > 0 (y < 0 at base 0 is infinite in C++ and is
    excluded by hypotheses wherever it could occur). *)
Definition Rpow (x y : R) : R :=
  if Req_EM_T x 0 then (if Req_EM_T y 0 then 1%R else 0%R) else Rpower x y.

Definition RNum : Num := {|
  T := R;
  nadd := Rplus; nsub := Rminus; nmul := Rmult; ndiv := Rdiv;
  nsqrt := R_sqrt.sqrt; nabs := Rabs;
  nfloor := fun x => IZR (Zfloor x);
  ntrunc := Ztrunc;
  nltb := Rltb; nleb := Rleb; neqb := Reqb;
  ofZ := IZR;
  nlog := ln;
  nlog10 := fun x => (ln x / ln 10)%R;
  nexp := exp; npow := Rpow; nsin := sin; ncos := cos;
  npi := PI; nM_E := exp 1;
  ndblmin := Raux.bpow radix2 (-1022)
|}.

(** ** IEEE-754 binary64, round to nearest, ties to even *)
Definition fprec : Z := 53%Z.
Definition femax : Z := 1024%Z.
Lemma fprec_gt_0 : Prec_gt_0 fprec. Proof. reflexivity. Qed.
Lemma fprec_lt_emax : Prec_lt_emax fprec femax. Proof. reflexivity. Qed.
Definition binary64 := binary_float fprec femax.

Definition fadd : binary64 -> binary64 -> binary64 := Bplus (prec_gt_0_ := fprec_gt_0) (prec_lt_emax_ := fprec_lt_emax) mode_NE.
Definition fsub : binary64 -> binary64 -> binary64 := Bminus (prec_gt_0_ := fprec_gt_0) (prec_lt_emax_ := fprec_lt_emax) mode_NE.
Definition fmul : binary64 -> binary64 -> binary64 := Bmult (prec_gt_0_ := fprec_gt_0) (prec_lt_emax_ := fprec_lt_emax) mode_NE.
Definition fdiv : binary64 -> binary64 -> binary64 := Bdiv (prec_gt_0_ := fprec_gt_0) (prec_lt_emax_ := fprec_lt_emax) mode_NE.
Definition fsqrt : binary64 -> binary64 := Bsqrt (prec_gt_0_ := fprec_gt_0) (prec_lt_emax_ := fprec_lt_emax) mode_NE.
Definition ffloor : binary64 -> binary64 := Bnearbyint (prec_lt_emax_ := fprec_lt_emax) mode_DN.
Definition fofZ (z : Z) : binary64 :=
  binary_normalize fprec femax fprec_gt_0 fprec_lt_emax mode_NE z 0 false.

(** The libm functions are not specified by IEEE-754: they are arbitrary. *)
Record libm := mkLibm {
  lm_log : binary64 -> binary64;
  lm_log10 : binary64 -> binary64;
  lm_exp : binary64 -> binary64;
  lm_pow : binary64 -> binary64 -> binary64;
  lm_sin : binary64 -> binary64;
  lm_cos : binary64 -> binary64;
  lm_pi : binary64;
  lm_e : binary64
}.

Definition F64 (lm : libm) : Num := {|
  T := binary64;
  nadd := fadd; nsub := fsub; nmul := fmul; ndiv := fdiv;
  nsqrt := fsqrt; nabs := Babs;
  nfloor := ffloor;
  ntrunc := Btrunc;
  nltb := Bltb; nleb := Bleb; neqb := Beqb;
  ofZ := fofZ;
  nlog := lm_log lm; nlog10 := lm_log10 lm; nexp := lm_exp lm;
  npow := lm_pow lm; nsin := lm_sin lm; ncos := lm_cos lm;
  npi := lm_pi lm; nM_E := lm_e lm;
  ndblmin := binary_normalize fprec femax fprec_gt_0 fprec_lt_emax mode_NE 1 (-1022) false
|}.

Definition finf : binary64 := B754_infinity false.
