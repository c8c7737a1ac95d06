(** Species properties, term loading and equation loading:
    src/chimp/property/Comparator.h, interaction/detail/sort_terms.h,
    interaction/Equation.cpp and the lookup functions of RuntimeDB.cpp. *)
From Coq Require Import String List ZArith Bool Arith.
From Verif Require Import Base Num ModelTerm ModelCollide ModelXsec ModelSet.
Import ListNotations.

(** A <T> element of an equation: child P, optional child n, attributes @from and
    @ops (sort_terms.h 87-91).  Texts that do not parse as an integer are not
    modelled. *)
Record xterm := mkXT { x_P : string; x_n : option Z; x_from : option Z; x_ops : option string }.
Definition xt_n (t : xterm) : Z := match x_n t with Some n => n | None => 1%Z end.
Definition xt_from (t : xterm) : Z := match x_from t with Some f => f | None => (-1)%Z end.
Definition xt_ops (t : xterm) : string := match x_ops t with Some s => s | None => ""%string end.

Section Eq.
Context {N : Num}.
Local Open Scope num_scope.

(** The properties of a species that the code reads: property/name.h, mass.h,
    charge.h.  Other properties are carried along unread and not modelled. *)
Record prop := mkProp { pr_name : string; pr_mass : N; pr_charge : N }.

(** std::string operator<: lexicographic on unsigned bytes. *)
Definition str_ltb (a b : string) : bool :=
  match String.compare a b with Lt => true | _ => false end.

(** property/Comparator.h 38-45. *)
Definition prop_ltb (l r : prop) : bool :=
  (pr_mass l <? pr_mass r) || ((pr_mass l =? pr_mass r) && str_ltb (pr_name l) (pr_name r)).

(** RuntimeDB.cpp 192-219: findParticle, as the first position with that name. *)
Fixpoint findParticle (props : list prop) (name : string) : option nat :=
  match props with
  | [] => None
  | p :: props => if String.eqb name (pr_name p) then Some O
                  else option_map S (findParticle props name)
  end.
(** RuntimeDB.cpp 222-229. *)
Definition findParticleIndx (props : list prop) (name : string) : Z :=
  match findParticle props name with Some i => Z.of_nat i | None => (-1)%Z end.
(** RuntimeDB.cpp 288-307: operator[](name); a pointer into props is its position
    together with the element. *)
Definition db_at (props : list prop) (name : string) : outcome (nat * prop) :=
  match findParticle props name with
  | None => Throw ExnRuntime
  | Some i => do p <- oget props i; Ok (i, p)
  end.
(** RuntimeDB.h 281-286: operator[](int), an unchecked vector access. *)
Definition db_get (props : list prop) (i : Z) : outcome prop :=
  if (i <? 0)%Z then UB else oget props (Z.to_nat i).
(** Mass and charge of a species, as the models read them. *)
Definition db_mq (props : list prop) (i : Z) : outcome (N * N) :=
  do p <- db_get props i; Ok (pr_mass p, pr_charge p).

(** sort_terms.h 49-55: TermInfo. *)
Record tinfo := mkTI { ti_n : Z; ti_from : list Z; ti_ops : list string }.
(** sort_terms.h 65-71: the std::map, as a list sorted by [prop_ltb] of the keys. *)
Definition tmap := list ((nat * prop) * tinfo).

(** sort_terms.h 98-107 for n >= 0: find or insert, add the multiplicity, append n
    copies of from and ops. *)
Definition ti_add (i : tinfo) (n from : Z) (ops : string) : tinfo :=
  mkTI (ti_n i + n) (ti_from i ++ repeat from (Z.to_nat n)) (ti_ops i ++ repeat ops (Z.to_nat n)).
Fixpoint tmap_add (k : nat * prop) (n from : Z) (ops : string) (m : tmap) : tmap :=
  match m with
  | [] => [(k, ti_add (mkTI 0 [] []) n from ops)]
  | (x, i) :: m' =>
      if prop_ltb (snd k) (snd x) then (k, ti_add (mkTI 0 [] []) n from ops) :: m
      else if prop_ltb (snd x) (snd k) then (x, i) :: tmap_add k n from ops m'
      else (x, ti_add i n from ops) :: m'
  end.

(** sort_terms.h 86-108: one iteration.  A negative n is converted to a huge
    size_type by vector::insert, which throws std::length_error. *)
Definition term_step (props : list prop) (s : tmap * Z) (t : xterm) : outcome (tmap * Z) :=
  do k <- db_at props (x_P t);
  if (xt_n t <? 0)%Z then Throw ExnLength
  else Ok (tmap_add k (xt_n t) (xt_from t) (xt_ops t) (fst s), (snd s + xt_n t)%Z).
(** sort_terms.h 110-116. *)
Definition ti_ok (e : (nat * prop) * tinfo) : bool :=
  (ti_n (snd e) =? Z.of_nat (length (ti_from (snd e))))%Z &&
  (ti_n (snd e) =? Z.of_nat (length (ti_ops (snd e))))%Z.
(** sort_terms.h 79-119. *)
Definition loadAndSortTerms (props : list prop) (xl : list xterm) : outcome (tmap * Z) :=
  do s <- ofold (term_step props) ([], 0%Z) xl;
  if forallb ti_ok (fst s) then Ok s else Throw ExnRuntime.

(** std::map operator==: same size and pairwise equal pairs, the keys being compared
    as pointers and TermInfo by sort_terms.h 57-62. *)
Fixpoint tmap_eqb (a b : tmap) : bool :=
  match a, b with
  | [], [] => true
  | (k, i) :: a, (k', i') :: b =>
      Nat.eqb (fst k) (fst k') &&
      ((ti_n i =? ti_n i')%Z && listZ_eqb (ti_from i) (ti_from i') && liststr_eqb (ti_ops i) (ti_ops i')) &&
      tmap_eqb a b
  | _, _ => false
  end.

(** An <Interaction> element, as far as the modelled code reads it:
    - [xi_id]: identity of the node (xml::Context order; document order);
    - [xi_path]: the names of its ancestors below /ParticleDB (Section filter);
    - [xi_in], [xi_out]: Eq/In/T and Eq/Out/T; [xi_intext], [xi_outtext]: the XPath
      string values of Eq/In and Eq/Out;
    - [xi_cs]: the cross_section child (@model and content), if there is exactly one;
    - [xi_model]: attribute @model;
    - [xi_kec]: KineticEnergyChange, [xi_vss]: vss_param_inv. *)
Record xinter := mkXI {
  xi_id : nat; xi_path : list string;
  xi_in : list xterm; xi_out : list xterm; xi_intext : string; xi_outtext : string;
  xi_cs : option (option string * xs_doc N);
  xi_model : option string; xi_kec : option N; xi_vss : option N }.

(** RuntimeDB.h 143-152: the registries of loaders. *)
Record registry := mkReg {
  r_cs : string -> option (xs_doc N -> eqcore N -> outcome (xsec N));
  r_im : string -> option (list prop -> xinter -> eqcore N -> xsec N -> outcome (imodel N)) }.

(** Equation.cpp 84-92: the two reactants from the sorted inputs ([n_in] = 2).
    An empty map would dereference end(). *)
Definition load_inputs (props : list prop) (m : tmap) : outcome input :=
  match m with
  | [] => UB
  | (k, i) :: m' =>
      let A := term_sp (findParticleIndx props (pr_name (snd k))) in
      if (ti_n i - 1 =? 0)%Z then
        match m' with
        | [] => UB
        | (k', _) :: _ => Ok (mkInput A (term_sp (findParticleIndx props (pr_name (snd k')))))
        end
      else Ok (mkInput A A)
  end.

(** Equation.cpp 98-109. *)
Definition load_product (props : list prop) (e : (nat * prop) * tinfo) : outcome term :=
  do t <- term_full (findParticleIndx props (pr_name (snd (fst e))))
                    (ti_from (snd e)) (ti_ops (snd e)) (ti_n (snd e));
  if (t_species t =? -1)%Z then Throw ExnXml else Ok t.

(** Equation.cpp 60-109: the part before cross section and model, together with
    whether the sorted inputs equal the sorted outputs (145). *)
Definition load_core (props : list prop) (xin xout : list xterm) : outcome (eqcore N * bool) :=
  do i <- loadAndSortTerms props xin;
  do o <- loadAndSortTerms props xout;
  if negb (snd i =? 2)%Z then Throw ExnXml else
  do inp <- load_inputs props (fst i);
  do pA <- db_get props (t_species (in_A inp));
  do pB <- db_get props (t_species (in_B inp));
  do prods <- omap (load_product props) (fst o);
  Ok (mkEq inp prods (ReducedMass (pr_mass pA) (pr_mass pB)), tmap_eqb (fst i) (fst o)).

(** Equation.cpp 111-133. *)
Definition load_cs (reg : registry) (x : xinter) (e : eqcore N) : outcome (xsec N) :=
  match xi_cs x with
  | None | Some (None, _) => Throw ExnNotFound
  | Some (Some l, d) =>
      match r_cs reg l with
      | None => Throw ExnXml
      | Some load => load d e
      end
  end.

(** Equation.cpp 144-148. *)
Definition model_label (x : xinter) (same : bool) : string :=
  match xi_model x with
  | Some l => l
  | None => if same then "elastic"%string else "inelastic"%string
  end.

(** Equation.cpp 60-165. *)
Definition load_equation (reg : registry) (props : list prop) (x : xinter) : outcome (equation N) :=
  do (e, same) <- load_core props (xi_in x) (xi_out x);
  do cs <- load_cs reg x e;
  match r_im reg (model_label x same) with
  | None => Throw ExnXml
  | Some load => do m <- load props x e cs; Ok (mkEquation e cs m)
  end.

(** RuntimeDB.cpp 69-91: the library's registries.  A cross_section element whose
    content does not fit its @model fails to load in the respective constructor
    (missing child element). *)
Definition default_reg (fuel : nat) (allowed : bool) (inf ninf : N) (tol : N -> N -> bool)
  (solve : (N -> N) -> N -> N -> N * N)
  (spf : list (massCharge N) -> list (massCharge N) -> outcome (list factory))
  (parse : string -> outcome (list (expr N))) (fcm fcq : bool) : registry :=
  let cs := xs_load fuel allowed inf ninf tol solve in
  mkReg
    (fun l =>
       let case (ok : xs_doc N -> bool) :=
         Some (fun d (e : eqcore N) => if ok d then cs (e_mu e) d else Throw ExnNotFound) in
       if String.eqb l "vhs" then case (fun d => match d with DVHS _ _ => true | _ => false end)
       else if String.eqb l "log" then case (fun d => match d with DLog _ _ _ => true | _ => false end)
       else if String.eqb l "data" then case (fun d => match d with DData _ => true | _ => false end)
       else if String.eqb l "lotz" then case (fun d => match d with DLotz _ => true | _ => false end)
       else if String.eqb l "inverse" then case (fun d => match d with DInverse _ _ => true | _ => false end)
       else if String.eqb l "constant" then case (fun d => match d with DConstant _ _ => true | _ => false end)
       else None)
    (fun l =>
       if String.eqb l "elastic" then Some (fun _ _ e _ => Ok (MElastic (e_mu e)))
       else if String.eqb l "inelastic" then
         Some (fun props x e c => do th <- getThresholdEnergy c;
           inelastic_new_load (db_mq props) spf parse fcm fcq (xi_kec x) th e)
       else if String.eqb l "vss_elastic" then
         Some (fun _ x e _ => match xi_vss x with
                              | None => Throw ExnNotFound
                              | Some v => Ok (MVSS (e_mu e) v)
                              end)
       else None).

(** Equation.cpp 231-257. *)
Definition eq_isElastic (q : equation N) : bool :=
  isElastic (e_A (q_core q)) (e_B (q_core q)) (e_products (q_core q)).
Definition hasElastic (l : list (equation N)) : bool := existsb eq_isElastic l.
Definition getElastic (l : list (equation N)) : option (equation N) := find eq_isElastic l.

End Eq.
Arguments prop N : clear implicits.
Arguments tmap N : clear implicits.
Arguments xinter N : clear implicits.
Arguments registry N : clear implicits.
