(** Interaction sets, pair selection and the collision driver:
    src/chimp/interaction/{Set,selectRandomPair,Driver}.h, detail/DriverRetval.h. *)
From Coq Require Import List ZArith Bool Arith.
From Verif Require Import Base Num ModelTerm ModelCollide ModelXsec.
Import ListNotations.

Section SetDriver.
Context {N : Num}.
Local Open Scope num_scope.
Variable K_B : N.

(** Equation.h 88-140: an interaction equation with its cross section and model. *)
Record equation := mkEquation { q_core : eqcore N; q_cs : xsec N; q_model : imodel N }.

(** Set.h 95-103: findMaxSigmaVProduct. *)
Definition findMaxSigmaVProduct (rhs : list equation) (v_rel_max : N) : outcome N :=
  ofold (fun sum i => do m <- findMaxSigmaV K_B (q_cs i) v_rel_max; Ok (sum + fst m)) n0 rhs.

(** Set.h 124-135: the cross sections of all channels and their running sum (the
    unused cs_max is dropped). *)
Definition channel_cs (rhs : list equation) (v : N) : outcome (list N) :=
  omap (fun i => sigma K_B (q_cs i) v) rhs.
Definition cs_total (cs : list N) : N := fold_left (fun s c => s + c) cs n0.

(** Set.h 153-165: the second loop; [j] is the index, [tot] the running sum. *)
Fixpoint pick (cs : list N) (r tot : N) (j : Z) : Z * N :=
  match cs with
  | [] => ((-1)%Z, n0)
  | c :: cs => let tot := tot + c in
               if r <? tot then (j, c) else pick cs r tot (j + 1)%Z
  end.

(** Set.h 115-166: calculateOutPath; the third component is the generator position. *)
Definition calculateOutPath (rhs : list equation) (max v : N) (g : rng N) (k : nat)
  : outcome (Z * N * nat) :=
  do cs <- channel_cs rhs v;
  let cs_tot := cs_total cs in
  if cs_tot * v <? g_rand g k * max then Ok ((-1)%Z, n0, (k + 1)%nat)
  else let r := g_exc g (k + 1) * cs_tot in
       Ok (pick cs r n0 0%Z, (k + 2)%nat).

(** Set.h 168-198: interact.  Result: path, the two particles afterwards (in the order
    of the arguments), product list, generator position.  rhs[path.first] is an
    unchecked access. *)
Definition set_interact (inplace : bool) (rhs : list equation) (max : N) (pA pB : particle N)
  (l : list (particle N)) (g : rng N) (k : nat)
  : outcome ((Z * N) * particle N * particle N * list (particle N) * nat) :=
  let v_rel := vabs (vsub (p_vel pA) (p_vel pB)) in
  do (path, k) <- calculateOutPath rhs max v_rel g k;
  if (0 <=? fst path)%Z then
    do e <- oget rhs (Z.to_nat (fst path));
    if (p_species pB <? p_species pA)%Z then
      do (b, a, l, k) <- model_interact inplace (q_model e) pB pA l g k; Ok (path, a, b, l, k)
    else
      do (a, b, l, k) <- model_interact inplace (q_model e) pA pB l g k; Ok (path, a, b, l, k)
  else Ok (path, pA, pB, l, k).

(** static_cast<int>(double): undefined outside the range of int (and for NaN). *)
Definition to_int (x : N) : outcome Z :=
  if ((ofZ (-2147483649) <? x) && (x <? ofZ 2147483648))%bool then Ok (ntrunc x) else UB.

(** Ranges of particles: [begin, end) positions in the particle storage. *)
Definition range := (nat * nat)%type.
Definition rsize (r : range) : nat := snd r - fst r.

(** selectRandomPair.h 68-73 (sizes are stored in unsigned int): one random position. *)
Definition rand_pos (r : range) (g : rng N) (k : nat) : outcome nat :=
  do i <- to_int (ofZ (u32 (Z.of_nat (rsize r))) * g_exc g k);
  Ok (Z.to_nat (Z.of_nat (fst r) + i)).
(** selectRandomPair.h 84-85. *)
Fixpoint pick_other (fuel : nat) (pA : nat) (r : range) (g : rng N) (k : nat) : outcome (nat * nat) :=
  match fuel with
  | O => Diverge
  | S fuel => do pB <- rand_pos r g k;
              if Nat.eqb pA pB then pick_other fuel pA r g (k + 1) else Ok (pB, (k + 1)%nat)
  end.
(** selectRandomPair.h 64-89 with allowSelfSelections = false, the variant the driver
    uses; the other one draws pB once. *)
Definition selectRandomPair (fuel : nat) (a b : range) (g : rng N) (k : nat) : outcome (nat * nat * nat) :=
  do pA <- rand_pos a g k;
  do (pB, k) <- pick_other fuel pA b g (k + 1);
  Ok (pA, pB, k).
Definition selectRandomPair_self (a b : range) (g : rng N) (k : nat) : outcome (nat * nat * nat) :=
  do pA <- rand_pos a g k;
  do pB <- rand_pos b g (k + 1);
  Ok (pA, pB, (k + 2)%nat).

(** ** Driver *)

(** What the driver reads from the cell (Driver.h 169-201): per-species ranges, volume
    and the maximum relative velocity of two species. *)
Record cell := mkCell { c_mem : list (particle N); c_ranges : list range; c_volume : N;
                        c_maxv : nat -> nat -> N }.

(** Driver state in the second phase.  [s_log] records what the monitor sees: species
    pair, positions and path of each test. *)
Record dstate := mkState {
  s_mem : list (particle N); s_ranges : list range; s_res : list (particle N);
  s_erase : list nat; s_pos : nat; s_log : list (nat * nat * (nat * nat) * Z) }.

(** Driver.h 176-178, 229-232: the pairs A <= B < n in loop order. *)
Definition species_pairs (n : nat) : list (nat * nat) :=
  flat_map (fun A => map (fun B => (A, B)) (seq A (n - A))) (seq 0 n).

(** Driver.h 196-210: the estimate; wA, wB are the weights of the first particles. *)
Definition estimate (same : bool) (wA wB : N) (sa sb : nat) (dt msv vol : N) : N :=
  let x := wA * wB * ofZ (Z.of_nat sa) * ofZ (Z.of_nat sb) * dt * msv / (vol * nmin wA wB) in
  if same then x * nhalf else x.
(** Driver.h 212-218: promotion of the fraction. *)
Definition promote (x draw : N) : N := if draw <? x - nfloor x then x + n1 else x.

(** Reading the first particle of a range: undefined for an empty range. *)
Definition first_weight (mem : list (particle N)) (r : range) : outcome N :=
  if Nat.ltb (fst r) (snd r) then do p <- oget mem (fst r); Ok (p_weight p) else UB.

(** CollisionTestData of one pair with equations (Driver.h 109-112). *)
Record ctdata := mkCT { ct_A : nat; ct_B : nat; ct_tests : N; ct_msv : N }.

(** Driver.h 174-222: the first double loop. *)
Fixpoint first_pass (db : nat -> nat -> list equation) (dt : N) (c : cell) (g : rng N) (k : nat)
  (ps : list (nat * nat)) : outcome (list ctdata * nat) :=
  match ps with
  | [] => Ok ([], k)
  | (A, B) :: ps =>
      do ra <- oget (c_ranges c) A;
      do rb <- oget (c_ranges c) B;
      match db A B with
      | [] => first_pass db dt c g k ps
      | rhs =>
          do msv <- findMaxSigmaVProduct rhs (c_maxv c A B);
          do wA <- first_weight (c_mem c) ra;
          do wB <- first_weight (c_mem c) rb;
          let x := estimate (Nat.eqb A B) wA wB (rsize ra) (rsize rb) dt msv (c_volume c) in
          let x := promote x (g_rand g k) in
          do (l, k) <- first_pass db dt c g (k + 1) ps;
          Ok (mkCT A B x msv :: l, k)
      end
  end.

(** detail/DriverRetval.h 57-101: in-place variant (37-51: the other does nothing).
    SpeciesRange is not declared in that scope in the source; it is read as the range
    constructor.  A failing assert is undefined behaviour. *)
Definition retval_inplace (A B : nat) (pr : nat * nat) (s : dstate) : outcome dstate :=
  do ra <- oget (s_ranges s) A;
  let last := (snd ra - 1)%nat in
  let er := s_erase s ++ [last] in
  if Nat.eqb (snd pr) last then
    if Nat.eqb A B then
      let last := (last - 1)%nat in
      do p <- oget (s_mem s) last;
      do rb <- oget (s_ranges s) B;
      Ok (mkState (upd (fst pr) p (s_mem s)) (upd B (fst rb, last) (s_ranges s)) (s_res s)
                  (er ++ [last]) (s_pos s) (s_log s))
    else UB
  else
    do p <- oget (s_mem s) last;
    let mem := upd (fst pr) p (s_mem s) in
    let rs := upd A (fst ra, last) (s_ranges s) in
    do rb <- oget rs B;
    let last := (snd rb - 1)%nat in
    do p <- oget mem last;
    Ok (mkState (upd (snd pr) p mem) (upd B (fst rb, last) rs) (s_res s)
                (er ++ [last]) (s_pos s) (s_log s)).

(** Driver.h 254-270: one collision test. *)
Definition one_test (inplace : bool) (sfuel : nat) (rhs : list equation) (msv : N) (A B : nat)
  (g : rng N) (s : dstate) : outcome dstate :=
  do ra <- oget (s_ranges s) A;
  do rb <- oget (s_ranges s) B;
  do (i, j, k) <- selectRandomPair sfuel ra rb g (s_pos s);
  do pA <- oget (s_mem s) i;
  do pB <- oget (s_mem s) j;
  do (path, a, b, l, k) <- set_interact inplace rhs msv pA pB (s_res s) g k;
  let s' := mkState (upd j b (upd i a (s_mem s))) (s_ranges s) l (s_erase s) k
                    (s_log s ++ [(A, B, (i, j), fst path)]) in
  if (negb inplace || (fst path <? 0)%Z || Nat.leb (length l) (length (s_res s)))%bool
  then Ok s'
  else retval_inplace A B (i, j) s'.

(** Driver.h 242-274: the while loop for one pair. *)
Fixpoint test_loop (fuel : nat) (inplace : bool) (sfuel : nat) (rhs : list equation) (msv : N)
  (A B : nat) (x : N) (g : rng N) (s : dstate) : outcome dstate :=
  match fuel with
  | O => Diverge
  | S fuel =>
      if n1 <? x then
        do ra <- oget (s_ranges s) A;
        do rb <- oget (s_ranges s) B;
        if ((Nat.eqb A B && Nat.ltb (rsize ra) 2) || (Nat.eqb (rsize ra) 0 || Nat.eqb (rsize rb) 0))%bool
        then Ok s
        else do s <- one_test inplace sfuel rhs msv A B g s;
             test_loop fuel inplace sfuel rhs msv A B (x - n1) g s
      else Ok s
  end.

(** Driver.h 229-276: the second double loop (pairs without equations have no entry). *)
Definition second_pass (fuel : nat) (inplace : bool) (db : nat -> nat -> list equation)
  (g : rng N) (l : list ctdata) (s : dstate) : outcome dstate :=
  ofold (fun s c => test_loop fuel inplace fuel (db (ct_A c) (ct_B c)) (ct_msv c)
                              (ct_A c) (ct_B c) (ct_tests c) g s) s l.

(** Driver.h 157-277: operator().  [nprops] is the number of species in the database. *)
Definition driver (fuel : nat) (inplace : bool) (dt : N) (c : cell) (nprops : nat)
  (db : nat -> nat -> list equation) (res : list (particle N)) (er : list nat) (g : rng N) (k : nat)
  : outcome dstate :=
  let n := Nat.min (length (c_ranges c)) nprops in
  do (l, k) <- first_pass db dt c g k (species_pairs n);
  second_pass fuel inplace db g l (mkState (c_mem c) (c_ranges c) res er k []).

End SetDriver.
Arguments equation N : clear implicits.
Arguments cell N : clear implicits.
Arguments dstate N : clear implicits.
Arguments ctdata N : clear implicits.
