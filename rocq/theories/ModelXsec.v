(** Cross sections: src/chimp/interaction/cross_section. *)
From Coq Require Import String List ZArith Bool.
From Verif Require Import Base Num ModelTerm ModelCollide.
Import ListNotations.

Section Xsec.
Context {N : Num}.
Local Open Scope num_scope.

(** physical::constant::si::K_B and m_e (constants of an external header). *)
Variable K_B : N.

(** Constant.h 105-114, Inverse.h 104-113, Log.h 103-112, VHS.h 106-115:
    setThresholdEnergy: (threshold_E, threshold_v). *)
Definition setThresholdEnergy (threshold : N) (mu : reducedMass N) : outcome (N * N) :=
  if threshold <? n0 then Throw ExnRuntime
  else Ok (threshold, nsqrt (threshold / (nhalf * rm_value mu))).

(** detail/generic.cpp 45-55: loadThreshold.  The element is absent, an energy or a
    velocity; unit conversion to SI is external. *)
Inductive quantity := QEnergy (e : N) | QVelocity (v : N).
Definition loadThreshold (q : option quantity) (mu : reducedMass N) (def : N) : N :=
  match q with
  | None => def
  | Some (QEnergy e) => e
  | Some (QVelocity v) => nhalf * rm_value mu * v * v
  end.

(** detail/VHSInfo.h 56-82 (gamma_visc_inv is a stored field). *)
Record vhsInfo := mkVHS { vhs_cs : N; vhs_Tref : N; vhs_visc : N; vhs_ginv : N }.

(** detail/LotzDetails.h 48-72. *)
Record lotzPar := mkLotz { lz_P : N; lz_beta : N; lz_q : N; lz_a : N; lz_b : N; lz_c : N }.
(** detail/LotzDetails.cpp 36-55: beta is cached from P and the electron mass. *)
Definition lotz_parse (m_e P q a b c : N) : lotzPar := mkLotz P (m_e / (n2 * P)) q a b c.

(** DATA.h 80-100: members of DATA (extraps_done only affects logging).  The table
    is a std::map, i.e. a list sorted by velocity. *)
Definition table := list (N * N).
Record data := mkData { d_table : table; d_C : N; d_a : N; d_b : N; d_v02 : N; d_mu : reducedMass N }.

(** std::map::insert as used by DATA.cpp 63 and AveragedDiameters.h 86: an entry
    with an equivalent key is not replaced. *)
Fixpoint table_insert (e : N * N) (t : table) : table :=
  match t with
  | [] => [e]
  | x :: t' => if fst e <? fst x then e :: t
               else if fst x <? fst e then x :: table_insert e t'
               else t
  end.

(** std::map::lower_bound: (entries with key < v in order, the rest). *)
Fixpoint lower_bound (t : table) (v : N) : table * table :=
  match t with
  | [] => ([], [])
  | x :: t' => if fst x <? v then let (l, r) := lower_bound t' v in (x :: l, r) else ([], t)
  end.

(** DATA.cpp 46-68: loadCrossSectionData; energies become velocities. *)
Definition loadCrossSectionData (mu : reducedMass N) (rows : list (quantity * N)) : table :=
  fold_left (fun t r =>
    let v := match fst r with QVelocity v => v | QEnergy e => nsqrt (e / (nhalf * rm_value mu)) end in
    table_insert (v, snd r) t) rows [].

(** DATA.h 232-265: checkThreshold.  With a single remaining zero entry the loop
    erases it and then increments ip1, which equals end(): undefined. *)
Fixpoint checkThreshold (t : table) : outcome table :=
  match t with
  | [] => Throw ExnRuntime
  | x :: t' =>
      match t' with
      | [] => if snd x =? n0 then UB else Ok t
      | y :: _ => if ((snd x =? n0) && (snd y =? n0))%bool then checkThreshold t' else Ok t
      end
  end.

(** detail/logE_E.h 43-49. *)
Definition logE_f (x C a b : N) : N :=
  let s := a * x + b in C * b * nlog s / s.

(** std::numeric_limits<double>::max(). *)
Definition ndblmax : N := ofZ (2 ^ 1024 - 2 ^ 971)%Z.

(** detail/logE_E.h 73-82: the refinement loop; [Diverge] when the fuel does not
    suffice. *)
Fixpoint refine_b (fuel : nat) (d2 x C a bi b err : N) : outcome N :=
  match fuel with
  | O => Diverge
  | S fuel =>
      if bi <=? ofZ 100 then
        let e := n1 - d2 / logE_f x C a bi in
        if nabs e <? nabs err
        then refine_b fuel d2 x C a (bi + nquot 1 100) bi e
        else refine_b fuel d2 x C a (bi + nquot 1 100) b err
      else Ok b
  end.

(** detail/logE_E.h 54-85: getCab_coeffs. *)
Definition getCab_coeffs (fuel : nat) (d0 d1 d2 : N * N) : outcome (N * N * N * N) :=
  let Fp := nhalf * ((snd d1 - snd d0) / (sqr (fst d1) - sqr (fst d0)) +
                     (snd d2 - snd d1) / (sqr (fst d2) - sqr (fst d1))) in
  if n0 <=? Fp then Ok (n0, n0, n0, n0) else
  let b := ofZ 30 in
  let C := snd d1 / nlog b in
  let a := b * Fp / (C * (n1 - nlog b)) in
  do b' <- refine_b fuel (snd d2) (sqr (fst d2) - sqr (fst d1)) C a nM_E b ndblmax;
  Ok (C, a, b', sqr (fst d1)).

(** DATA.h 271-276: whether extrapolation is allowed, from the environment variable
    CHIMP_CROSS_SECTION_EXTRAPOLATION and the option. *)
Definition extrap_allowed (env : option string) (opt : bool) : bool :=
  match env with
  | Some s => negb (String.eqb s "no")
  | None => opt
  end.

(** DATA.h 267-304: setCoeffs. *)
Definition setCoeffs (fuel : nat) (allowed : bool) (t : table) : outcome (N * N * N * N) :=
  if negb allowed then Ok (n0, n0, n0, n0) else
  match rev t with
  | d2 :: d1 :: d0 :: _ =>
      if snd d2 =? n0 then Ok (n0, n0, n0, n0) else getCab_coeffs fuel d0 d1 d2
  | _ => Ok (n0, n0, n0, n0)
  end.

(** DATA.h 116-120, 227-230 (and setTable 211-216): construction from a table. *)
Definition data_init (fuel : nat) (allowed : bool) (t : table) (mu : reducedMass N) : outcome data :=
  do t' <- checkThreshold t;
  do (C, a, b, v02) <- setCoeffs fuel allowed t';
  Ok (mkData t' C a b v02 mu).

(** DATA.h 309-352: eval, given the split of the table at lower_bound(v).  An empty
    table would dereference begin() == end(). *)
Definition data_eval (d : data) (split : table * table) (v : N) : outcome N :=
  match split with
  | ([], []) => UB
  | ([], f :: _) => if fst f =? v then Ok (snd f) else Ok n0
  | (l, []) =>
      match rev l with
      | [] => UB
      | i :: _ =>
          if snd i =? n0 then Ok n0
          else if d_C d =? n0 then Throw ExnRuntime
          else Ok (logE_f (sqr v - d_v02 d) (d_C d) (d_a d) (d_b d))
      end
  | (l, f :: _) =>
      match rev l with
      | [] => UB
      | i :: _ =>
          let L_inv := n1 / (fst f - fst i) in
          Ok (snd i * L_inv * (fst f - v) + snd f * L_inv * (v - fst i))
      end
  end.

(** DATA.h 137-140: operator(). *)
Definition data_sigma (d : data) (v : N) : outcome N :=
  data_eval d (lower_bound (d_table d) v) v.

(** DATA.h 165-194: findMaxSigmaV. *)
Definition max_step (m : N * N) (p v : N) : N * N := if fst m <? p then (p, v) else m.
Definition data_max (d : data) (V : N) : outcome (N * N) :=
  let s := lower_bound (d_table d) V in
  let m := fold_left (fun m i => max_step m (fst i * snd i) (fst i)) (fst s) (n0, n0) in
  do x <- data_eval d s V;
  Ok (max_step m (V * x) V).

(** Lotz.h 183-203 (without the threshold test) and detail/LotzDetails.h 101-121. *)
Definition lotz_term (v : N) (p : lotzPar) : N :=
  let v2Beta := v * v * lz_beta p in
  lz_a p * lz_q p * nlog v2Beta / (sqr (lz_P p) * v2Beta)
  * (n1 - lz_b p * nexp ((n0 - lz_c p) * (v2Beta - n1))).
Definition lotz_sum (ps : list lotzPar) (v : N) : N :=
  fold_left (fun s p => s + lotz_term v p) ps n0.
Definition lotz_sigma (ps : list lotzPar) (threshold v : N) : N :=
  if v <? threshold then n0 else lotz_sum ps v.
Definition lotz_dterm (v : N) (p : lotzPar) : N :=
  let v2Beta := v * v * lz_beta p in
  let l := nlog v2Beta in
  let cv2Beta := lz_c p * v2Beta in
  lz_a p * lz_q p * nexp (lz_c p - cv2Beta) / (sqr (lz_P p) * v2Beta)
  * (n2 * lz_b p * (l * (nhalf + cv2Beta) - n1)
     - nexp ((n0 - lz_c p) + cv2Beta) * (l - n2)).
Definition DSigmaV (ps : list lotzPar) (v : N) : N :=
  fold_left (fun s p => s + lotz_dterm v p) ps n0.

(** Members of Lotz (Lotz.h 77-96). *)
Record lotz := mkLotzCS { lo_pars : list lotzPar; lo_thr : N; lo_max : N; lo_vmax : N; lo_mu : reducedMass N }.

(** Lotz.h 119-137: range of single-shell thresholds; [inf] is +infinity, [ninf] its
    negation. *)
Definition lotz_range (inf ninf : N) (ps : list lotzPar) : N * N :=
  fold_left (fun '(lo, hi) p =>
    let vi := n1 / nsqrt (lz_beta p) in
    ((if vi <? lo then vi else lo), (if hi <? vi then vi else hi))) ps (inf, ninf).
(** Lotz.h 158-161: doubling search for a speed with non-positive derivative. *)
Fixpoint lotz_double (k : nat) (ps : list lotzPar) (v : N) : N :=
  match k with
  | O => v
  | S k => if n0 <? DSigmaV ps v then lotz_double k ps (v * n2) else v
  end.
(** Lotz.h 110-173: constructor.  [tol] is boost's eps_tolerance and [solve] its
    toms748_solve: arbitrary functions (their contract is a hypothesis where used). *)
Definition lotz_new (inf ninf : N) (tol : N -> N -> bool) (solve : (N -> N) -> N -> N -> N * N)
  (ps : list lotzPar) (mu : reducedMass N) : outcome lotz :=
  let '(lo, hi) := lotz_range inf ninf ps in
  do thr <- (if tol lo hi then Ok hi
             else let z := solve (lotz_sigma ps n0) lo hi in
                  if tol (fst z) (snd z) then Ok (snd z) else Throw ExnRuntime);
  let vmax := lotz_double 32 ps thr in
  let z := solve (DSigmaV ps) thr vmax in
  if tol (fst z) (snd z)
  then Ok (mkLotzCS ps thr (snd z * lotz_sigma ps thr (snd z)) (snd z) mu)
  else Throw ExnRuntime.

(** The cross-section classes.  [XOther] is any user-registered class. *)
Inductive xsec :=
| XConstant (value thrE thrv : N)
| XInverse (value_vref thrE thrv : N)
| XLog (A B thrE thrv : N)
| XVHS (i : vhsInfo) (mu : reducedMass N) (thrE thrv : N)
| XData (d : data)
| XLotz (l : lotz)
| XAvgEasy (cs0 cs1 : xsec)                       (* detail/AvgEasy.h *)
| XAvgDiam (d : data) (cs0 cs1 : xsec)            (* AveragedDiameters.h *)
| XOther (label : string) (sigma : N -> outcome N) (maxsv : N -> outcome (N * N)) (thrE : N).

(** VHS.h 121-141 after the threshold test (xylose::fast_pow as [npow]). *)
Definition vhs_sigma (i : vhsInfo) (mu : reducedMass N) (v : N) : N :=
  vhs_cs i * npow (n2 * K_B * vhs_Tref i / (rm_value mu * sqr v + ndblmin)) (vhs_visc i - nhalf)
  * vhs_ginv i.

(** The hard-sphere mean of AvgEasy.h 91-95 and AveragedDiameters.h 85. *)
Definition mean_sigma (s0 s1 : N) : N := nquarter * sqr (nsqrt s0 + nsqrt s1).

(** operator()(v): Constant.h 121-126, Inverse.h 118-126, Log.h 119-128, VHS.h 121-141,
    DATA.h 137-140, Lotz.h 183-203, AvgEasy.h 91-95. *)
Fixpoint sigma (c : xsec) (v : N) : outcome N :=
  match c with
  | XConstant value _ thrv => Ok (if thrv <=? v then value else n0)
  | XInverse vref _ thrv => Ok (if v <? thrv then n0 else vref / v)
  | XLog A B _ thrv => Ok (if v <? thrv then n0 else A - B * nlog10 v)
  | XVHS i mu _ thrv => Ok (if v <? thrv then n0 else vhs_sigma i mu v)
  | XData d => data_sigma d v
  | XLotz l => Ok (lotz_sigma (lo_pars l) (lo_thr l) v)
  | XAvgEasy c0 c1 => do s0 <- sigma c0 v; do s1 <- sigma c1 v; Ok (mean_sigma s0 s1)
  | XAvgDiam d _ _ => data_sigma d v
  | XOther _ f _ _ => f v
  end.

(** findMaxSigmaV(v): Constant.h 146-152, Inverse.h 138-147, Log.h 140-148,
    VHS.h 153-161, DATA.h 165-194, Lotz.h 222-229, AvgEasy.h 105-114. *)
Definition findMaxSigmaV (c : xsec) (V : N) : outcome (N * N) :=
  match c with
  | XConstant value _ thrv => Ok (if thrv <=? V then (value * V, V) else (n0, n0))
  | XInverse vref _ thrv => Ok (if thrv <=? V then (vref, thrv) else (n0, n0))
  | XLog _ _ _ thrv | XVHS _ _ _ thrv =>
      if thrv <=? V then do s <- sigma c V; Ok (s * V, V) else Ok (n0, n0)
  | XData d | XAvgDiam d _ _ => data_max d V
  | XLotz l =>
      Ok (if lo_vmax l <? V then (lo_max l, lo_vmax l)
          else (V * lotz_sigma (lo_pars l) (lo_thr l) V, V))
  | XAvgEasy _ _ => do s <- sigma c V; Ok (if n0 <? s then (s * V, V) else (n0, n0))
  | XOther _ _ m _ => m V
  end.

(** getThresholdEnergy(): Constant.h 131, Inverse.h 131, Log.h 133, VHS.h 146,
    DATA.h 145-148 (UB on an empty table), Lotz.h 208-211, AvgEasy.h 100-103. *)
Definition data_thrE (d : data) : outcome N :=
  match d_table d with
  | [] => UB
  | x :: _ => Ok (nhalf * rm_value (d_mu d) * sqr (fst x))
  end.
Fixpoint getThresholdEnergy (c : xsec) : outcome N :=
  match c with
  | XConstant _ e _ | XInverse _ e _ | XLog _ _ e _ | XVHS _ _ e _ => Ok e
  | XData d | XAvgDiam d _ _ => data_thrE d
  | XLotz l => Ok (nhalf * rm_value (lo_mu l) * sqr (lo_thr l))
  | XAvgEasy c0 c1 =>
      do e0 <- getThresholdEnergy c0; do e1 <- getThresholdEnergy c1; Ok (nmin e0 e1)
  | XOther _ _ _ e => Ok e
  end.

(** getLabel() of each class. *)
Definition xs_label (c : xsec) : string :=
  match c with
  | XConstant _ _ _ => "constant" | XInverse _ _ _ => "inverse" | XLog _ _ _ _ => "log"
  | XVHS _ _ _ _ => "vhs" | XData _ => "data" | XLotz _ => "lotz"
  | XAvgEasy _ _ => "averaged_diameters_easy" | XAvgDiam _ _ _ => "averaged_diameters"
  | XOther l _ _ _ => l
  end.

(** AvgEasy.h 141-152: the labels with an "easy" average. *)
Definition easy_label (s : string) : bool :=
  existsb (String.eqb s) ["vhs"; "log"; "constant"; "inverse"]%string.

(** AveragedDiameters.h 84-87: the loop building the table. *)
Fixpoint avg_table (fuel : nat) (c0 c1 : xsec) (v dv : N) (t : table) : outcome table :=
  match fuel with
  | O => Diverge
  | S fuel =>
      if n0 <? v then
        do s0 <- sigma c0 v; do s1 <- sigma c1 v;
        avg_table fuel c0 c1 (v - dv) dv (table_insert (v, mean_sigma s0 s1) t)
      else Ok t
  end.
(** AveragedDiameters.h 75-92. *)
Definition avg_diameters (fuel : nat) (allowed : bool) (c0 c1 : xsec) (vmax dv : N)
  (mu : reducedMass N) : outcome xsec :=
  do t <- avg_table fuel c0 c1 (vmax + nhalf * dv) dv [];
  do d <- data_init fuel allowed t mu;
  Ok (XAvgDiam d c0 c1).

(** The XML constructors: Constant.h 89-92, Inverse.h 90-95, Log.h 89-94, VHS.h 91-97,
    DATA.h 110-114, Lotz.h 110-173, as selected by the registry (RuntimeDB.cpp 61-95). *)
Inductive xs_doc :=
| DConstant (value : N) (thr : option quantity)
| DInverse (vref : N) (thr : option quantity)
| DLog (A B : N) (thr : option quantity)
| DVHS (i : vhsInfo) (thr : option quantity)
| DData (rows : list (quantity * N))
| DLotz (ps : list lotzPar).
Definition xs_load (fuel : nat) (allowed : bool) (inf ninf : N) (tol : N -> N -> bool)
  (solve : (N -> N) -> N -> N -> N * N) (mu : reducedMass N) (d : xs_doc) : outcome xsec :=
  match d with
  | DConstant v t => do (e, w) <- setThresholdEnergy (loadThreshold t mu n0) mu; Ok (XConstant v e w)
  | DInverse v t => do (e, w) <- setThresholdEnergy (loadThreshold t mu n0) mu; Ok (XInverse v e w)
  | DLog A B t => do (e, w) <- setThresholdEnergy (loadThreshold t mu n0) mu; Ok (XLog A B e w)
  | DVHS i t => do (e, w) <- setThresholdEnergy (loadThreshold t mu n0) mu; Ok (XVHS i mu e w)
  | DData rows => do d <- data_init fuel allowed (loadCrossSectionData mu rows) mu; Ok (XData d)
  | DLotz ps => do l <- lotz_new inf ninf tol solve ps mu; Ok (XLotz l)
  end.

(** Base.h 117-121: effectiveRadius. *)
Definition effectiveRadius (c : xsec) (v : N) : outcome N :=
  do s <- sigma c v; Ok (nhalf * nsqrt (s / npi)).

End Xsec.
Arguments quantity N : clear implicits.
Arguments vhsInfo N : clear implicits.
Arguments lotzPar N : clear implicits.
Arguments table N : clear implicits.
Arguments data N : clear implicits.
Arguments lotz N : clear implicits.
Arguments xsec N : clear implicits.
Arguments xs_doc N : clear implicits.
