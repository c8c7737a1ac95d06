# Formal model of CHIMP (afrl-quantum/chimp) in Rocq

## 1. What is modelled

The C++ sources under `/repo/src/chimp` (plus `examples/simtest/Cell.h`,
`examples/simtest/cellMeasurements.h` and, for C100, `main.cpp`, `Particle.h` and
`sortSpecies.h` there) are transcribed function by function into total
Gallina functions.  Every definition has a comment with file and lines.  The shipped data
(`data/standard/particles.xml`, `data/standard/interactions.xml`) are translated element by
element into `ModelShipped.v` and `ModelShippedTables.v`.

### Conventions

* **Outcomes.** `outcome A := Ok a | Throw | UB | Diverge`.  Undefined behaviour (out of
  bounds read, dereferencing `begin()` of an empty range, `++` past the end) is its own
  constructor, never a default value.  Loops without a syntactic bound take fuel; running
  out of fuel is `Diverge`, never a value.  Termination claims are "there is a fuel for which
  the result is Ok"; non-termination claims are "for all fuel the result is Diverge".
* **Numbers.** Numerical code is written once over a plain record `Num` (carrier, + - * /,
  sqrt, floor, comparisons, libm functions) and instantiated twice: `RNum` (real numbers of
  the Coq standard library; used for physical identities, where the claim is about the
  algorithm) and `F64` (IEEE-754 binary64, round to nearest even, from Flocq's
  `BinarySingleNaN`; used for claims about rounding, NaN, termination).  On `R`, division by 0
  and square roots of negatives are totalised by the library (the root of a negative is 0).
  Every statement about energy carries the hypotheses that exclude those cases.  Statements
  about momentum and mean velocity (C09, C76) hold on `R` without them; C11 says what binary64
  does when the energy does not suffice.
* **Random numbers.** A generator is an arbitrary stream (`nat -> T`) for `rand()` (values in
  [0,1]) and one for `randExc()` (values in [0,1)), with a position counter in the state.
  Theorems quantify over all streams, i.e. over all generators and seeds.
* **XML.** The document is an abstract list of `Interaction` records (identity, section
  path, model attribute, In/Out terms with `P`, optional `n`, `@from`, `@ops`, cross
  section).  The fixed XPath queries the code builds are modelled by the predicate each
  query denotes.  libxml2/xylose XPath evaluation is trusted to have that meaning.
* **Containers.** `std::set`/`std::map` are sorted lists without equivalent keys; `std::vector`
  is a list; iterators are positions.

### Simplifications

* **Failed assertions are undefined behaviour** (`UB`), and so is reading through an iterator
  of an empty range.
* **`std::sort`** is insertion sort; the theorems about sorted species only use that the result
  is an ordered permutation, and names are unique.
* **`xml::Context::set`** is ordered by node; the model uses the node identity `xi_id`
  as the order and never compares node contents.
* **XPath.** Names containing quotes, which would break the query texts, are outside the model.
  `contains(':a::b:', ':x:')` is modelled as substring search on the same texts, because the
  textual trick is what C52-C54 and C68 are about.
* **Initialisation.** `initBinaryInteractions` is modelled for a database whose matrix
  is empty (`initBinary`, its first call) and for a repeated call with the same number of
  species (`initBinaryAgain`, C72); resizing a filled matrix to another size is not modelled.
* **Unsigned arithmetic** (`unsigned int n`, `size_t`) is modelled by `Z`/`nat`, with the wrap-around written out
  where the code can reach it.
* **'ops'.** The collision models take any action on the product as an expression; C80 is about
  the expression trees of `ModelOps.v`, arguments evaluated left to right.  A product term with
  fewer `ops` entries than copies, which the loader never builds, would be undefined behaviour in
  the code and is an exception in the model.
* **Shipped data.** Values of physical constants, the gamma function, section paths and texts of
  the elements are arbitrary; expressions such as `2*element::F::mass + m_e` are read as real
  arithmetic in SI units.
* **Aggregate** has no limit of 25 arguments in the model.
* Each remaining simplification is stated at the definition it concerns.

### Not modelled

Logging text, the runtime physical-unit calculator (`runtime::physical`): parsing of `ops` texts,
printing of expressions (the search for the texts `CM()`, `CQ()`) and its own functions and
operators are arbitrary, while the functions CHIMP adds to it are modelled (`ModelOps.v`); number parsing (the filter
documents use an arbitrary integer reader/printer pair),
memory management, the arithmetic of `Quantity` (only its final unit checks are modelled, `ModelUnits.v`), `boost::toms748_solve` (an arbitrary function
constrained by its documented post-condition where used), `std::pow/log/exp/sin/cos/tgamma` in
binary64 (arbitrary functions), the test programs, the NSort code of the example, the Python
wrappers' C++ glue, `InElastic_nXn.h` (does not compile in the repository),
`AveragedDiameters::print` (would not compile if instantiated).

### Trusted base

* The Coq 8.16.1 kernel (including `vm_compute`, used in examples and in computed
  floating-point witnesses).
* Axioms printed by `Print Assumptions` under every theorem in `Properties*.v`.  Theorems
  over `R` use the axioms of the standard library's real numbers and classical logic:
  `ClassicalDedekindReals.sig_forall_dec`, `ClassicalDedekindReals.sig_not_dec`,
  `FunctionalExtensionality.functional_extensionality_dep`, `Classical_Prop.classic`
  (the last through Flocq and Coquelicot, which add no axioms of their own).  All other theorems are closed under the
  global context.  No axioms are added.
* Libraries whose definitions occur in statements: Flocq (binary64 in `Num.v`) and Coquelicot (derivatives and
  integrals in the cross-section and thermal-speed statements).
* Fidelity of the transcription, by inspection: every definition cites file and lines.
* The meaning of the XPath queries and of libxml2/xylose, as stated above.

## 2. Layout (`rocq/theories`)

| file | content |
|---|---|
| `Base.v` | outcomes, list helpers |
| `Num.v` | `Num` record, `RNum`, `F64`, vectors, generators |
| `ModelCollide.v` | ReducedMass, Elastic, VSS, InElastic 2X2 / 2X3, product factories |
| `ModelFactories.v` | `setParticleFactories` |
| `ModelXsec.v` | cross sections |
| `ModelSet.v` | `Set`, `selectRandomPair`, `Driver`, `DriverRetval` |
| `ModelTerm.v`, `ModelEq.v` | Term, Input, Equation, term and equation loading |
| `ModelFilter.v` | filters, their XML form, equation texts |
| `ModelDB.v` | RuntimeDB |
| `ModelMisc.v` | property lists, options, thermal speeds, example cell, automatic elastic sets |
| `ModelMore.v` | repeated initialisation |
| `Spec*.v` | vocabulary of the statements, independent of the model's helpers |
| `Proof*.v` | lemmas |
| `Properties1.v` | C01-C11, C13-C17: collision mechanics |
| `Properties2.v` | C18-C29: cross sections |
| `Properties3.v` | C12, C30-C44, C64: sets, pair selection, driver |
| `Properties4.v` | C45-C49: orders, equation loading |
| `Properties5.v` | C57-C60, C65, C66: filters, equation texts |
| `Properties6.v` | C50-C56, C67, C68: runtime database |
| `Properties7.v` | C61-C63, C69, C70: property lists, options, example cell, thermal speeds |
| `SpecRun.v`, `ProofRun*.v` | totals over live particles and products; whole in-place runs |
| `Properties8.v` | C71, C72, C76, C77: table tails, repeated initialisation, averages over draws |
| `ModelOps.v`, `SpecOps.v`, `ProofOps*.v`, `Properties10.v` | 'ops' expressions (C79, C80) |
| `Properties9.v` | C78, in-place termination (C38), rejected source assignments (C16) |
| `SpecInit.v`, `ProofInit*.v`, `Properties11.v` | C73: equations of an initialised database, runs over it |
| `ProofBig.v`, `Properties12.v` | C74: effective radii; C75: pair selection from very large ranges |
| `SpecLoad.v`, `ProofLoad2.v`, `Properties13.v` | C65: meaning of filter elements; C61: required properties |
| `ModelCalc.v`, `SpecCalc.v`, `ProofCalc.v`, `Properties14.v` | C81: the process-wide calculator |
| `ModelUnits.v`, `SpecUnits.v`, `ProofUnits.v`, `Properties15.v` | C82-C84: documents with units |
| `ModelShipped*.v`, `SpecShipped.v`, `SpecLoadable.v`, `ProofShipped*.v`, `ProofLoadable.v`, `ProofNever.v`, `Properties16.v` | C85-C88: the shipped data, documents that load |
| `SpecRate.v`, `ProofRate*.v`, `Properties17.v` | C89-C91: expected numbers of tests and interactions |
| `Properties18.v` | supplements to C06, C20 and C36 |
| `SpecRound.v`, `ProofRound*.v`, `Properties19.v`, `Properties20.v` | C92-C95: rounding errors of collisions in binary64 |
| `SpecGas.v`, `ProofGas.v`, `Properties22.v` | C96: a gas over many time steps in binary64 |
| `SpecDouble.v`, `ProofDouble*.v`, `Properties23.v` | C97, C98: cross sections, acceptance and choice of a channel in binary64 |
| `ProofTests.v`, `Properties24.v` | C99: number of tests of a run in binary64 |
| `ModelSim.v`, `SpecSim.v`, `ProofSim*.v`, `Properties25.v`, `Properties26.v` | C100: examples/simtest |
| `SpecOut.v`, `ProofOut.v`, `Properties26.v` | C101: results of out-of-place runs |
| `SpecFrame.v`, `ProofFrame*.v`, `Properties27.v` | C102: frames of reference, positions, earlier results |
| `SpecDraws.v`, `ProofDraws*.v`, `Properties28.v` | C103: draws of a run |
| `SpecMean3.v`, `ProofMean3.v`, `Properties29.v` | C76 for collisions with three products |
| `SpecMean4.v`, `ProofMean4.v`, `Properties31.v` | C76: mean energies after binary collisions, shares of two products |
| `SpecNan2.v`, `ProofNan2.v`, `Properties32.v` | C104 for in-place runs with reactions |
| `SpecIdle.v`, `ProofIdle.v`, `Properties33.v` | C105: runs whose estimate is not a number |
| `SpecIdle2.v`, `ProofIdle2.v`, `Properties34.v` | C105: time steps that are not positive |
| `SpecNan.v`, `ProofNan.v`, `Properties30.v` | C104: velocities that are not numbers |
| `Properties21.v` | supplements to C25, C28 found by seeded bugs |

`seeded/LOG.jsonl` records bugs that were put into a copy of the model and the theorems that
stopped proving.

## 3. Plan per property

| id | modelled by | proof |
|---|---|---|
| C01,C02,C04 | Elastic over RNum | ring/field after trigonometric identity; surjectivity via acos/polar angle |
| C03 | Elastic, VSS interact on product list | unfolding over any Num |
| C05,C06 | VSS over RNum | case split on D; field; counterexample in the cone |
| C07-C10 | InElastic_2X2/2X3 over RNum | field with mass balance hypothesis, sqrt identities |
| C11,C12 | same functions over F64 | NaN propagation lemmas; computed witness |
| C13 | new_load dispatch | case analysis over any count |
| C14 | ParticleFactory.create, Scratch | lemmas over any Num |
| C15,C16 | setParticleFactories over any Num with ordered scores | induction on candidates; UB reachability |
| C17 | ReducedMass over RNum | field |
| C18-C21 | cross sections over RNum | monotonicity of power/log; derivative sign |
| C22-C25 | DATA over RNum | induction on the sorted table |
| C26,C27 | Lotz over RNum | derivable_pt_lim; sign of derivative |
| C28,C29 | AvgEasy, AveragedDiameters | algebra, induction on grid |
| C30-C33 | Set over RNum | induction on channels |
| C34 | Set over F64 | Flocq error bounds, computed witnesses |
| C35 | Set.interact | case analysis |
| C36,C37 | selectRandomPair over F64/RNum | Flocq rounding; fuel induction |
| C38,C39 | driver loop over RNum and F64 | induction; exact subtraction (Sterbenz-like) |
| C40,C41,C42 | Driver | invariant over the two double loops |
| C43,C44 | DriverRetval, Driver in-place | permutation reasoning; invariant over all steps |
| C45 | comparators | order lemmas |
| C46-C49 | ModelEq | induction on term lists |
| C50,C51 | ModelDB | invariant over histories; sort specification |
| C52-C54 | ModelDB + string `contains` | string lemmas, equivalence of query predicate and specification |
| C55,C56 | createMissing | invariant over the double loop |
| C57-C60 | ModelFilter | structural induction on filter trees; injectivity by parsing back |
| C61,C62 | ModelMisc | induction on type expressions / modifier chains |
| C63 | example cell | max/min induction |
| C64 | composition | from C18-C20, C30, C32 |
| C65,C66 | ModelFilter | structural induction; computed witnesses |
| C67,C68 | ModelDB | lookup lemmas; string lemmas |
| C69 | ModelMisc over RNum | Gaussian integral, moments by primitives (Coquelicot) |
| C70 | initBinaryOpt | composition of C52 and C55 |
| C71 | DATA over RNum | induction on the search for b; bounds on ln |
| C72 | initBinaryAgain | cell lookup after omap; linearity of the sums |
| C76 | Elastic, VSS, InElastic_2X2, InElastic_2X3 over RNum | iterated integrals (Coquelicot) |
| C77 | InElastic_2X3 over RNum | surjectivity via acos/polar angle |
| C79 | InElastic models over any Num | the same load with and without 'ops', case by case |
| C80 | ModelOps | induction on expression trees; from C79 and C07-C10 |
| C73 | initBinary, load_equation, default_reg, driver (in place) over RNum | pair by pair: loaded equation = document interaction; gas channels of C78 follow |
| C74 | effectiveRadius, sigma of XAvgEasy, avg_diameters over RNum; sign in binary64 | algebra of sqrt; C28/C29 give the averaged cross section |
| C75 | rand_pos, selectRandomPair in binary64, sizes 2^31 and more | rounding is monotone and exact at 2^31; size 0 mod 2^32 always gives the first position |
| C78 | driver (in place), set interaction, loaded models over RNum | invariant over the run: totals of species quantities, momentum, kinetic energy |
| C81 | ModelCalc | induction over histories; fold over commands |
| C82 | ModelUnits over any Num | case analysis on labels, children and units |
| C83 | ModelUnits, xs_load over RNum | square root of a square; fold over rows |
| C84 | loadCrossSectionData, data_sigma, ReducedMass in binary64 | comparisons with NaN are false; NaN propagation |
| C85 | ModelShipped, initBinary, driver (in place) over RNum | coefficients of the constants compared by computation; then C73 |
| C86 | same, with xs_load and threshold energies | shipped tables and values are non-negative (computed); C73 |
| C87 | driver, model_interact of InElastic | count of log entries as a quantity that every step keeps 0 |
| C88 | initBinary, load_equation, setParticleFactories, xs_load over RNum | each loader step succeeds; side conditions on the shipped file computed |
| C89 | driver (calculateOutPath, selectRandomPair, promote) over RNum | average over the draws of one test, then of the loop and the pairs of species by induction; iterated Riemann integrals |
| C90 | as C89 | the two orders of a pair add up; redraws of an equal index give a geometric series in the fuel |
| C91 | as C89 | average of the number of tests; average of one test is uniform over pairs |
| C92 | elastic_collide, model_interact over F64, arbitrary libm | absolute error bounds of every operation (Flocq), monotonicity of rounding for the direction |
| C93 | vss_collide over F64, arbitrary libm | as C92; the bracket divided by the perpendicular speed is bounded by that speed |
| C94 | inelastic_new_load, model_interact over F64, arbitrary libm | relative error of the scale sqrt(mu/mu'), of the remaining energy and of the speed; then one push along a near-unit direction as in C92 |
| C95 | as C94, three products | two pushes; the split of the energy loses at most its rounding |
| C96 | histories of in-place driver calls with transport in between | energy bounds every speed by V, so each collision meets C92/C93; induction over tests, pairs, steps |
| C97 | sigma, findMaxSigmaV, findMaxSigmaVProduct over F64 and RNum; numbers 0 or within 2^-150..2^150, tables not extrapolated; for VHS the libm power function is assumed accurate to p roundings (`pow64`) | agreement up to k roundings, closed under *, /, +, sqrt, powers up to 1/2; comparisons agree exactly because inputs are equal |
| C98 | calculateOutPath over F64 and RNum, up to 2^20 channels | C97; Bernoulli's inequality turns k roundings into a factor 1-d |
| C99 | driver over F64, estimate and maximum over RNum; weights, volume, time step 0 or within 2^-150..2^150, estimate up to 2^52 | C97 for the maximum; rounding of the estimate, its fraction and of x+1; the loop count of C39 |
| C100 | `createRandomParticles`, `sortBySpecies`, `sim_cell`, `sim_database`, `sim_run`; distributions and xylose's NSort by contract; `texts_agree` is a fact about the data file whose texts are not modelled | C85-C88 for the database, inspection of the shipped interactions for the four pairs, C42 and the totality of the driver |
| C101 | driver, set_interact, model_interact out of place over RNum | induction over the tests: each appends what its channel produces, from unchanged partners; C04-C10 for each channel, sums over the log |
| C102 | driver, set_interact, model_interact, over RNum (frames) and any Num (positions, earlier results); sim_cell | a map of particles that keeps species, weight and relative speed and commutes with every model's interact commutes with the driver; each library model checked once; counterexamples in binary64 and for the extrema |
| C103 | driver, selectRandomPair, calculateOutPath, model_interact over any Num | each function with equal next draws gives the same result and moves the position by the same amount; sums over the log |
| C104 | `sigma` of all classes, `calculateOutPath`, `set_interact`, the four collision models and the driver over F64; what `log10` and `pow` do with NaN is a hypothesis | NaN and non-finite values are absorbed by +, -, *, sqrt; sums of zeros and NaNs stay such; invariant over the tests of a run |
| C105 | driver over F64: estimate, promotion, test loop | 0 or NaN times anything is 0 or NaN, their quotient is NaN; NaN fails every comparison, so the loop of the pair ends before its first test; signs of products and quotients, and x + 1 rounds to at most 1 for x <= 0 |
