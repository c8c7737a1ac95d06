{"id": "C01", "title": "Elastic collisions conserve momentum", "statement": "For every pair of particles and positive masses m1,m2, after an elastic collision m1*v1'+m2*v2' equals m1*v1+m2*v2 in every component (exact real arithmetic), whatever the random numbers are.", "quantifier": "all masses>0, all pre-collision velocities, all random draws", "why_tests_cant": "The velocities, masses and random draws range over a continuum; a test samples finitely many and compares with a tolerance.", "anchors": [{"file": "src/chimp/interaction/model/Elastic.h", "symbols": ["Elastic::interact"]}, {"file": "src/chimp/interaction/ReducedMass.h", "symbols": ["ReducedMass"]}]}
{"id": "C02", "title": "Elastic collisions conserve kinetic energy and relative speed", "statement": "For every pair of particles, positive masses and draws in [0,1], an elastic collision leaves |v1-v2| and m1|v1|^2+m2|v2|^2 unchanged.", "quantifier": "all masses>0, all velocities, all draws in [0,1]", "why_tests_cant": "Continuum of inputs; an error term that vanishes for equal masses or axis-aligned velocities escapes sampled tests.", "anchors": [{"file": "src/chimp/interaction/model/Elastic.h", "symbols": ["Elastic::interact"]}]}
{"id": "C03", "title": "Out-of-place and in-place elastic collisions agree and touch only velocities", "statement": "With the same random stream, colliding out of place appends exactly two particles to the product list which are the particles in-place collision would produce; the earlier content of the list, positions, species and weights are unchanged; exactly two random numbers are consumed.", "quantifier": "all particles, all product lists, all random streams", "why_tests_cant": "Requires comparing two code paths on every list and stream.", "anchors": [{"file": "src/chimp/interaction/model/Elastic.h", "symbols": ["Elastic::interact"]}, {"file": "src/chimp/interaction/model/VSSElastic.h", "symbols": ["VSSElastic::interact"]}]}
{"id": "C04", "title": "Isotropic scattering can reach every direction and stays on the sphere", "statement": "For every unit direction d there are draws in [0,1] for which the elastic post-collision relative velocity is |v1-v2|*d, and for all draws its length is |v1-v2|.", "quantifier": "all unit vectors, all relative velocities, all draws in [0,1]", "why_tests_cant": "A surjectivity claim over a continuum.", "anchors": [{"file": "src/chimp/interaction/model/Elastic.h", "symbols": ["Elastic::interact"]}]}
{"id": "C05", "title": "VSS collisions conserve momentum and, off the narrow cone, energy", "statement": "VSS scattering conserves momentum for all inputs; it conserves relative speed whenever the transverse relative speed D=sqrt(vy^2+vz^2) is >1e-6 or exactly 0; for 0<D<=1e-6 it does not (some inputs lose energy) but the lost squared speed never exceeds 1e-12.", "quantifier": "all masses>0, velocities, exponents, draws in [0,1]", "why_tests_cant": "The failing region is a cone of width 1e-6 that random tests never hit.", "anchors": [{"file": "src/chimp/interaction/model/VSSElastic.h", "symbols": ["VSSElastic::interact"]}]}
{"id": "C06", "title": "VSS deflection angle follows the drawn cosine", "statement": "When D>1e-6 (or D=0) the scalar product of pre- and post-collision relative velocities is |v|^2*(2*r^(1/alpha)-1) with r the first draw, independent of the azimuth draw; for alpha=1 the law of the cosine is that of the isotropic model.", "quantifier": "all velocities, exponents >0, draws in [0,1]", "why_tests_cant": "Continuum of directions and angles.", "anchors": [{"file": "src/chimp/interaction/model/VSSElastic.h", "symbols": ["VSSElastic::interact"]}]}
{"id": "C07", "title": "2->2 inelastic collisions conserve momentum exactly when the equation balances mass", "statement": "For products without 'ops' expressions: if the product masses sum to the reactant masses then total momentum is conserved for all velocities and draws; in general the total momentum is scaled by (product mass)/(reactant mass).", "quantifier": "all masses>0, velocities, draws, energy changes", "why_tests_cant": "Mass-unbalanced equations only show for moving centres of mass; needs all inputs.", "anchors": [{"file": "src/chimp/interaction/model/InElastic_2X2.h", "symbols": ["InElastic_2X2::interact"]}]}
{"id": "C08", "title": "2->2 inelastic collisions release exactly the stated energy", "statement": "For products without 'ops' expressions: if masses balance and the incident relative energy plus dE is non-negative, total kinetic energy after equals that before plus dE.", "quantifier": "all masses>0, velocities, draws in [0,1], dE with non-negative final relative energy", "why_tests_cant": "Exact identity over a continuum with redistributed masses.", "anchors": [{"file": "src/chimp/interaction/model/InElastic_2X2.h", "symbols": ["InElastic_2X2::interact"]}, {"file": "src/chimp/interaction/model/detail/inelastic_helpers.h", "symbols": ["CalculateVRelImpl"]}]}
{"id": "C09", "title": "2->3 inelastic collisions conserve momentum", "statement": "For products without 'ops' expressions: if the three product masses sum to the reactant masses total momentum is conserved; in general it is scaled by the mass ratio.", "quantifier": "all masses>0, velocities, draws, energy changes", "why_tests_cant": "Continuum of inputs incl. five random draws.", "anchors": [{"file": "src/chimp/interaction/model/InElastic_2X3.h", "symbols": ["InElastic_2X3::interact"]}]}
{"id": "C10", "title": "2->3 inelastic collisions release exactly the stated energy", "statement": "For products without 'ops' expressions: if masses balance and the final relative energy is non-negative then kinetic energy after = before + dE for every energy split drawn.", "quantifier": "all masses>0, velocities, draws in [0,1], dE", "why_tests_cant": "Continuum of inputs incl. five random draws.", "anchors": [{"file": "src/chimp/interaction/model/InElastic_2X3.h", "symbols": ["InElastic_2X3::interact"]}]}
{"id": "C11", "title": "Below-threshold inelastic collisions yield NaN velocities in double precision", "statement": "In IEEE binary64, if |v1-v2|^2+dV2 evaluates to a negative number then every velocity component of every product (without 'ops' expressions) is NaN, whatever the draws.", "quantifier": "all binary64 inputs and draws", "why_tests_cant": "NaN propagation for all bit patterns.", "anchors": [{"file": "src/chimp/interaction/model/detail/inelastic_helpers.h", "symbols": ["CalculateVRelImpl"]}, {"file": "src/chimp/interaction/model/InElastic_2X2.h", "symbols": ["interact"]}]}
{"id": "C12", "title": "A channel with the default energy change is only taken when it is affordable (real arithmetic), but not in binary64", "statement": "In exact arithmetic, when an equation uses a threshold cross section and dE is minus the threshold energy, any selected collision has |v|^2+dV2>=0. In binary64 there are finite inputs at the threshold where the channel is selected and the product velocities are NaN.", "quantifier": "all velocities, thresholds, masses>0, draws; existence for binary64", "why_tests_cant": "The failing inputs are one-ulp coincidences at the threshold.", "anchors": [{"file": "src/chimp/interaction/model/InElastic.h", "symbols": ["InElastic::new_load"]}, {"file": "src/chimp/interaction/cross_section/Constant.h", "symbols": ["Constant"]}, {"file": "src/chimp/interaction/Set.h", "symbols": ["calculateOutPath"]}]}
{"id": "C13", "title": "Product count decides the inelastic model; unsupported counts fail only at collision time", "statement": "Loading an inelastic equation with total product count 2 or 3 gives the matching model (with energy change iff dE != 0); with any other count loading succeeds (only a log entry) and every later collision through it throws.", "quantifier": "all equations and all numbers of products", "why_tests_cant": "Unbounded product counts.", "anchors": [{"file": "src/chimp/interaction/model/InElastic.h", "symbols": ["InElastic::new_load"]}, {"file": "src/chimp/interaction/model/Base.h", "symbols": ["Base::interact"]}]}
{"id": "C14", "title": "Inelastic products have the declared species and copy a reactant", "statement": "A 2->2 or 2->3 collision without 'ops' expressions appends exactly as many particles as the equation declares, in declared order, with the declared species; each product's other attributes (weight and, unless placed at the centre of mass/charge, position) are those of one of the two reactants; reactants and earlier results are untouched.", "quantifier": "all equations, particles, result lists, draws", "why_tests_cant": "Quantifies over all factories, lists and particles.", "anchors": [{"file": "src/chimp/interaction/model/detail/inelastic_helpers.h", "symbols": ["ParticleFactory::create", "Scratch"]}]}
{"id": "C15", "title": "Source assignment picks a candidate with minimal displacement score and honours 'from'", "statement": "For two reactants and any number of products, when no throw or UB occurs the chosen assignment has one entry per product with the declared species and a source index below 2, honours every explicit 'from' in range, and its score is <= that of every other assignment compatible with the explicit 'from's.", "quantifier": "all masses/charges, all product lists of any length", "why_tests_cant": "Optimality over an exponential candidate set for all inputs.", "anchors": [{"file": "src/chimp/interaction/model/detail/inelastic_helpers.cpp", "symbols": ["setParticleFactories"]}]}
{"id": "C16", "title": "Source assignment reads out of bounds for three products placed at CM/CQ", "statement": "For two reactants, evaluation with at least three products reads massChargeIn past its end as soon as the third product's mass equals a reactant mass for a CM/CQ candidate; with at most two products it never does. Where it is defined, the assignment is rejected (exception) exactly when the products' total mass vanishes and the reactants' mass centre is finite or the reverse, or likewise for charge.", "quantifier": "all two-reactant inputs", "why_tests_cant": "Out-of-bounds reads may go unnoticed in a test run; the absence claim is universal.", "anchors": [{"file": "src/chimp/interaction/model/detail/inelastic_helpers.cpp", "symbols": ["setParticleFactories"]}]}
{"id": "C17", "title": "Reduced-mass factors are consistent", "statement": "For positive masses value=m1*m2/(m1+m2), over_m1*m1=over_m2*m2=value, over_m1+over_m2=1, swapping arguments swaps the factors, and value < min(m1,m2).", "quantifier": "all masses>0", "why_tests_cant": "Identity over a continuum.", "anchors": [{"file": "src/chimp/interaction/ReducedMass.h", "symbols": ["ReducedMass"]}]}
{"id": "C18", "title": "Constant cross section: reported maximum of sigma*v is a tight bound", "statement": "For value>=0, findMaxSigmaV(V).first bounds v*sigma(v) for all 0<=v<=V and is attained at the reported velocity; below threshold sigma is 0, at or above it is the value; negative threshold energies throw.", "quantifier": "all values, thresholds, masses>0, all velocities", "why_tests_cant": "sup over a continuum.", "anchors": [{"file": "src/chimp/interaction/cross_section/Constant.h", "symbols": ["Constant"]}]}
{"id": "C19", "title": "Inverse cross section: reported maximum is a tight bound", "statement": "For value_vref>=0 and V>=threshold, v*sigma(v)=value_vref for all positive v>=threshold and findMaxSigmaV bounds v*sigma(v) on (0,V].", "quantifier": "all parameters and velocities", "why_tests_cant": "sup over a continuum.", "anchors": [{"file": "src/chimp/interaction/cross_section/Inverse.h", "symbols": ["Inverse"]}]}
{"id": "C20", "title": "VHS cross section: sigma*v is maximal at the top speed iff the viscosity exponent is <=1", "statement": "At and above the threshold sigma(v) is value*ginv*(K T_ref/(E+tiny))^(visc_T_law-1/2), E the collision energy (ginv the loaded gamma factor, tiny half the smallest normal number). For positive parameters and visc_T_law<=1, v*sigma(v)<=findMaxSigmaV(V).first for all 0<=v<=V; for every visc_T_law>1 there are 0<v<V with v*sigma(v) greater than the reported maximum.", "quantifier": "all positive parameters, all velocities", "why_tests_cant": "sup over a continuum; failure depends on exponent.", "anchors": [{"file": "src/chimp/interaction/cross_section/VHS.h", "symbols": ["VHS"]}]}
{"id": "C21", "title": "Log cross section: the reported maximum is not an upper bound in general", "statement": "For B>0, v*sigma(v) is a bound at V only up to the stationary speed: findMaxSigmaV(V).first bounds v*sigma(v) on [threshold,V] when log10(V)+1/ln 10 <= A/B, and for every A,B>0 there are threshold<v<V for which it is exceeded; sigma is negative beyond 10^(A/B).", "quantifier": "all A,B>0, all velocities", "why_tests_cant": "Unbounded velocity range.", "anchors": [{"file": "src/chimp/interaction/cross_section/Log.h", "symbols": ["Log"]}]}
{"id": "C22", "title": "Tabulated cross section: interpolation agrees with the table and stays between neighbours", "statement": "Evaluating at a table velocity returns the table value; between two neighbours the value is on the straight line and between the two table values; below the first entry it is 0; results are non-negative for non-negative tables.", "quantifier": "all finite tables with increasing velocities, all speeds", "why_tests_cant": "All tables of any length.", "anchors": [{"file": "src/chimp/interaction/cross_section/DATA.h", "symbols": ["DATA::operator()", "eval"]}]}
{"id": "C23", "title": "Tabulated cross section: reported maximum is a bound only at table nodes and the end speed", "statement": "findMaxSigmaV(V).first is >= v*sigma(v) at every table node v<=V and at V, is attained at the reported speed, but there is a table and v<V for which v*sigma(v) exceeds it; if sigma*v is monotone on each table interval it is a true bound.", "quantifier": "all tables, all speeds within the table", "why_tests_cant": "sup over a continuum and all tables.", "anchors": [{"file": "src/chimp/interaction/cross_section/DATA.h", "symbols": ["findMaxSigmaV"]}]}
{"id": "C24", "title": "Tabulated cross section: superfluous leading zeros are dropped without changing values", "statement": "Constructing from a table whose values are not all zero removes all but the last of the leading zero entries and changes neither sigma at any speed inside the table nor the remaining entries; an empty table throws; an all-zero table increments an iterator past the end (undefined behaviour).", "quantifier": "all tables", "why_tests_cant": "All tables of any length and all speeds.", "anchors": [{"file": "src/chimp/interaction/cross_section/DATA.h", "symbols": ["checkThreshold"]}]}
{"id": "C25", "title": "Extrapolated tail is positive and strictly decreasing", "statement": "Beyond the last entry sigma is 0 if the last value is 0; otherwise, if coefficients could be fitted, sigma is >0 and strictly decreasing in speed, and if not the evaluation throws. The environment variable CHIMP_CROSS_SECTION_EXTRAPOLATION set to 'no' forbids fitting, any other text allows it, and when unset the compiled option decides.", "quantifier": "all tables with at least three entries and positive final values, all speeds beyond the table", "why_tests_cant": "Unbounded speed range, all tables.", "anchors": [{"file": "src/chimp/interaction/cross_section/detail/logE_E.h", "symbols": ["f", "getCab_coeffs"]}, {"file": "src/chimp/interaction/cross_section/DATA.h", "symbols": ["setCoeffs", "eval"]}]}
{"id": "C26", "title": "Lotz derivative used for the maximum search is the derivative of v*sigma(v)", "statement": "For all subshell parameter lists and all v>0 above threshold the derivative functor equals d/dv (v*sigma(v)).", "quantifier": "all parameter lists of any length, all v>0", "why_tests_cant": "Derivative identity over a continuum; the source itself marks it FIXME.", "anchors": [{"file": "src/chimp/interaction/cross_section/detail/LotzDetails.h", "symbols": ["DSigmaVFunctor"]}, {"file": "src/chimp/interaction/cross_section/Lotz.h", "symbols": ["operator()"]}]}
{"id": "C27", "title": "Lotz reported maximum is a bound for one subshell with b=0", "statement": "With one subshell, b=0 and the stored maximum located at a zero of the derivative, findMaxSigmaV(V).first >= v*sigma(v) for all 0<v<=V; sigma is >=0 for all parameter lists with 0<=b<=1, c>=0 above every subshell threshold.", "quantifier": "all positive parameters, all v", "why_tests_cant": "sup over a continuum.", "anchors": [{"file": "src/chimp/interaction/cross_section/Lotz.h", "symbols": ["findMaxSigmaV", "operator()"]}]}
{"id": "C28", "title": "Averaged 'easy' cross section is the hard-sphere mean and keeps a valid maximum", "statement": "sigma_avg is the cross section of the arithmetic mean of the two diameters; it lies between the two cross sections; if both parents' v*sigma(v) are non-negative and non-decreasing then findMaxSigmaV bounds v*sigma_avg(v) for all v<=V. Its threshold energy is the lower of the two; below it sigma_avg is 0 if the parents vanish below theirs, and sigma_avg is positive wherever a parent is.", "quantifier": "all parents, all speeds", "why_tests_cant": "sup over a continuum and over arbitrary parents.", "anchors": [{"file": "src/chimp/interaction/cross_section/detail/AvgEasy.h", "symbols": ["AvgEasy"]}]}
{"id": "C29", "title": "Averaged-diameter tables sample the mean diameter at the grid and vanish below it", "statement": "For vmax,dv>0 construction terminates and the table contains exactly the grid vmax+dv/2-k*dv>0 with the mean-diameter cross section; below the smallest grid speed sigma is 0 even if both parents are positive.", "quantifier": "all parents, all vmax,dv>0", "why_tests_cant": "All grid sizes.", "anchors": [{"file": "src/chimp/interaction/cross_section/AveragedDiameters.h", "symbols": ["AveragedDiameters"]}]}
{"id": "C30", "title": "Set maximum bounds the total of its channels", "statement": "If each channel's findMaxSigmaV is a bound then findMaxSigmaVProduct(V) >= v*sum of sigma_i(v) for all v<=V, so the acceptance probability never exceeds 1.", "quantifier": "all channel lists, all v<=V", "why_tests_cant": "All numbers of channels.", "anchors": [{"file": "src/chimp/interaction/Set.h", "symbols": ["findMaxSigmaVProduct"]}]}
{"id": "C31", "title": "Chosen channel index is valid and has positive cross section", "statement": "calculateOutPath returns either -1 or an index below the number of channels whose cross section at that speed is positive and equals the returned value (non-negative cross sections, randExc in [0,1)).", "quantifier": "all channel lists, speeds, draws", "why_tests_cant": "All lists and draws.", "anchors": [{"file": "src/chimp/interaction/Set.h", "symbols": ["calculateOutPath"]}]}
{"id": "C32", "title": "Acceptance happens exactly when the draw is below sigma_tot*v/max and some channel is then always chosen", "statement": "In exact arithmetic with positive total cross section, a channel is returned iff rand*max <= sigma_tot*v; the 'invalid return' branch is unreachable unless the total is 0.", "quantifier": "all channel lists with non-negative sigma, speeds, draws", "why_tests_cant": "Unreachability claim.", "anchors": [{"file": "src/chimp/interaction/Set.h", "symbols": ["calculateOutPath"]}]}
{"id": "C33", "title": "Channels are chosen with probability proportional to their cross section", "statement": "For an accepted test, channel j is chosen iff randExc lies in the half-open interval [S_{j}/S, S_{j+1}/S) of prefix sums; these intervals partition [0,1) and have length sigma_j/S.", "quantifier": "all channel lists with positive total, all draws", "why_tests_cant": "Measure statement over a continuum.", "anchors": [{"file": "src/chimp/interaction/Set.h", "symbols": ["calculateOutPath"]}]}
{"id": "C34", "title": "The 'never get here' return is unreachable in binary64 for finite totals above the smallest normal number, reachable below and for infinite totals", "statement": "In binary64, if the accumulated total is finite and greater than 2^-1022 and randExc<1 an accepted test always returns a channel; for the total 2^-1022 itself, for subnormal totals and for infinite totals there are draws for which it returns -1 through the error path.", "quantifier": "all binary64 channel values and draws", "why_tests_cant": "Rounding behaviour over all bit patterns.", "anchors": [{"file": "src/chimp/interaction/Set.h", "symbols": ["calculateOutPath"]}]}
{"id": "C35", "title": "Reactants are handed to the model in species order", "statement": "Set::interact calls the chosen channel's model with the particle of smaller species index first for either order of the selected pair; if no channel is chosen nothing changes.", "quantifier": "all pairs and draws", "why_tests_cant": "All pairs, both orders.", "anchors": [{"file": "src/chimp/interaction/Set.h", "symbols": ["interact"]}]}
{"id": "C36", "title": "Random pair selection stays in range and never pairs a particle with itself", "statement": "Whenever selectRandomPair returns, both iterators lie inside their ranges and differ; this holds in binary64 for all sizes up to 2^31-1 and every randExc in [0,1). The variant that may select a particle twice takes two draws, stays in range, and can produce every pair.", "quantifier": "all range sizes, all draw sequences", "why_tests_cant": "Rounding over all sizes and draws; unbounded rejection loop.", "anchors": [{"file": "src/chimp/interaction/selectRandomPair.h", "symbols": ["selectRandomPair"]}]}
{"id": "C37", "title": "Pair selection loops forever on a single-particle range and can produce every pair otherwise", "statement": "If both ranges are the same one-particle range no stream lets the call return; if the ranges differ (disjoint) it returns after exactly two draws; for every admissible ordered pair some draws select it.", "quantifier": "all streams", "why_tests_cant": "Non-termination cannot be observed by a test.", "anchors": [{"file": "src/chimp/interaction/selectRandomPair.h", "symbols": ["selectRandomPair"]}]}
{"id": "C38", "title": "Number of tests performed matches the NTC estimate unless the estimate is a whole number", "statement": "In exact arithmetic, with enough particles remaining, a pair type with estimate x>=0 performs floor(x)+1 tests if the draw is below frac(x), else floor(x), provided x is not a positive integer; for a positive integer x it performs x-1. Runs of either mode finish when draws over (what is left of) a range do not stick to one position.", "quantifier": "all estimates, all draws", "why_tests_cant": "Quantifies over all reals; off-by-one only at whole numbers.", "anchors": [{"file": "src/chimp/interaction/Driver.h", "symbols": ["Driver::operator()"]}]}
{"id": "C39", "title": "In binary64 the test loop counts exactly up to 2^53 and never ends from 2^54", "statement": "For every finite double x<=2^53 the while(x>1) x-=1 loop runs exactly ceil(x)-1 times (0 if x<=1); for every double x>=2^54 (including infinity) it never terminates; NaN runs 0 times.", "quantifier": "all doubles", "why_tests_cant": "2^64 inputs; non-termination.", "anchors": [{"file": "src/chimp/interaction/Driver.h", "symbols": ["Driver::operator()"]}]}
{"id": "C40", "title": "The pair-count estimate is symmetric and follows the formula", "statement": "The estimate equals max(wA,wB)*|A|*|B|*dt*msv/V (half of it for A=B) for positive weights, hence does not depend on the order of species.", "quantifier": "all sizes, weights, volumes", "why_tests_cant": "Identity over a continuum.", "anchors": [{"file": "src/chimp/interaction/Driver.h", "symbols": ["Driver::operator()"]}]}
{"id": "C41", "title": "An empty species range with known interactions is dereferenced", "statement": "The driver reads the first particle of every species that has an interaction equation before checking for emptiness: given channels and models that have no undefined behaviour of their own, a run (either mode) has undefined behaviour iff some such species range is empty.", "quantifier": "all cells", "why_tests_cant": "Universal absence claim plus UB that tests may not notice.", "anchors": [{"file": "src/chimp/interaction/Driver.h", "symbols": ["Driver::operator()"]}]}
{"id": "C42", "title": "A driver run touches only pairs with equations and keeps particles in out-of-place mode", "statement": "For every cell, database and stream, a terminating out-of-place run leaves every particle and range unchanged, extends the result list, and every monitored test concerns two distinct particles of species (A,B), A<=B, with a non-empty equation set.", "quantifier": "all cells, databases, random streams", "why_tests_cant": "All schedules of random draws and any number of tests.", "anchors": [{"file": "src/chimp/interaction/Driver.h", "symbols": ["Driver::operator()"]}, {"file": "src/chimp/interaction/detail/DriverRetval.h", "symbols": ["DriverRetval<false>"]}]}
{"id": "C43", "title": "In-place removal deletes exactly the two reactants", "statement": "After an in-place interaction that created products, the surviving particles of the two ranges are exactly (as a multiset) the previous ones minus the two reactants and the two slots past the new range ends are queued for erasure; also when both are of the same species and when either or both sit at the end of the range.", "quantifier": "all ranges, all pair positions", "why_tests_cant": "Aliasing corner cases for all sizes and positions.", "anchors": [{"file": "src/chimp/interaction/detail/DriverRetval.h", "symbols": ["DriverRetval<true>"]}]}
{"id": "C44", "title": "Over a whole in-place run no slot is queued twice and live ranges plus queued slots tile the original ranges", "statement": "At every point of an in-place driver run each species' original slots are the disjoint union of the live range and the queued slots of that species; the number of live plus queued slots is constant.", "quantifier": "all cells, databases, streams, any number of tests", "why_tests_cant": "Invariant over all executions.", "anchors": [{"file": "src/chimp/interaction/detail/DriverRetval.h", "symbols": ["DriverRetval<true>"]}, {"file": "src/chimp/interaction/Driver.h", "symbols": ["Driver::operator()"]}]}
{"id": "C45", "title": "Orderings used as map/set keys are strict weak orders", "statement": "Property comparison (mass, then name), Term order and EqTerm order are irreflexive and transitive with transitive incomparability; the property order is total on (mass,name); the Input order is such an order on inputs without 'from' data, but on inputs with differing 'from' data incomparability is not transitive.", "quantifier": "all values (finite masses)", "why_tests_cant": "Order laws over all triples.", "anchors": [{"file": "src/chimp/property/Comparator.h", "symbols": ["Comparator"]}, {"file": "src/chimp/interaction/Term.h", "symbols": ["operator<"]}, {"file": "src/chimp/interaction/Input.h", "symbols": ["operator<"]}, {"file": "src/chimp/interaction/filter/EqIO.h", "symbols": ["operator<"]}]}
{"id": "C46", "title": "Loading terms merges repeated species and preserves totals", "statement": "Loading a term list yields one entry per distinct species ordered by (mass,name), with multiplicity the sum of that species' multiplicities and the per-copy 'from'/'ops' in document order; the returned count is the sum; unknown names throw.", "quantifier": "all term lists and databases", "why_tests_cant": "All list lengths and permutations.", "anchors": [{"file": "src/chimp/interaction/detail/sort_terms.h", "symbols": ["loadAndSortTerms"]}]}
{"id": "C47", "title": "Loaded equations have exactly two reactants ordered by mass then name, else loading throws", "statement": "Equation loading throws unless reactant multiplicities sum to 2; otherwise A and B are the two reactants in (mass,name) order, each product term has a known species, and the number of products is the sum of the output multiplicities.", "quantifier": "all equations, all databases with sorted species", "why_tests_cant": "All documents.", "anchors": [{"file": "src/chimp/interaction/Equation.cpp", "symbols": ["Equation::load"]}]}
{"id": "C48", "title": "Elastic recognition is correct for loaded equations without 'from', and wrong in general", "statement": "For a loaded equation with no 'from' attributes isElastic holds iff products are the same multiset as reactants; with explicit 'from' or hand-built duplicate terms it can be false for elastic or true for non-elastic equations.", "quantifier": "all equations", "why_tests_cant": "Equivalence over all term lists.", "anchors": [{"file": "src/chimp/interaction/Equation.cpp", "symbols": ["isElastic"]}]}
{"id": "C49", "title": "Product lookup by position respects multiplicities", "statement": "getTermForProduct(i) returns the term covering position i of the expanded product list for i below the total count and throws otherwise; numberProducts is the total.", "quantifier": "all product lists with positive multiplicities, all i", "why_tests_cant": "All lists and indices.", "anchors": [{"file": "src/chimp/interaction/Equation.cpp", "symbols": ["getTermForProduct"]}, {"file": "src/chimp/interaction/Term.h", "symbols": ["countComponents"]}]}
{"id": "C50", "title": "Species names stay unique in the database", "statement": "After any sequence of particle additions names are pairwise distinct, the first definition wins, order is that of first addition, and lookup by name returns the added entry, -1/throw otherwise.", "quantifier": "all sequences of additions", "why_tests_cant": "All histories.", "anchors": [{"file": "src/chimp/RuntimeDB.cpp", "symbols": ["addParticleType", "findParticle", "findParticleIndx", "operator[]"]}]}
{"id": "C51", "title": "Initialisation sorts species by mass then name without losing any", "statement": "After initBinaryInteractions the species list is a permutation of the added one, sorted by (mass,name), and species index order agrees with mass order.", "quantifier": "all species lists", "why_tests_cant": "All lists.", "anchors": [{"file": "src/chimp/RuntimeDB.cpp", "symbols": ["initBinaryInteractions"]}]}
{"id": "C52", "title": "Binary interactions loaded for a pair are exactly the matching ones", "statement": "For a database whose names contain no ':' or quotes, an interaction of the document is loaded for species pair (A,B) iff it has a cross section, its inputs are written as that pair (one term 'n=2' for A=B, two terms otherwise), it has at least one product, all its products are loaded species, and the filter keeps it.", "quantifier": "all documents, all species lists", "why_tests_cant": "All documents.", "anchors": [{"file": "src/chimp/RuntimeDB.cpp", "symbols": ["findAllLHSRelatedInteractionCtx", "initBinaryInteractions"]}, {"file": "src/chimp/interaction/filter/EqIO.h", "symbols": ["getXpathQuery"]}]}
{"id": "C53", "title": "Reactants written as two separate equal terms are silently ignored", "statement": "An interaction whose input is written as two single terms of the same species is never selected for that pair although loading it directly would accept it.", "quantifier": "all documents", "why_tests_cant": "Absence claim over all documents.", "anchors": [{"file": "src/chimp/interaction/filter/EqIO.h", "symbols": ["getXpathQuery"]}, {"file": "src/chimp/interaction/detail/sort_terms.h", "symbols": ["loadAndSortTerms"]}]}
{"id": "C54", "title": "Product filtering by name list is sound only if names contain no colon", "statement": "If no species or product name is empty or contains ':' the textual product test accepts exactly known names; otherwise there are names (containing ':', or empty) for which an unknown product is accepted.", "quantifier": "all name lists", "why_tests_cant": "All strings.", "anchors": [{"file": "src/chimp/RuntimeDB.cpp", "symbols": ["initBinaryInteractions"]}]}
{"id": "C55", "title": "Creating missing elastic cross sections is complete, counted, idempotent and conservative", "statement": "Requesting all pairs adds one elastic equation to exactly the pairs i!=j without one for which both like-pairs have one and an average can be built, returns the number added, changes nothing else, and a second call adds none.", "quantifier": "all databases with consistent elastic equations", "why_tests_cant": "All database contents.", "anchors": [{"file": "src/chimp/RuntimeDB.cpp", "symbols": ["createMissingElasticCrossSections"]}]}
{"id": "C56", "title": "Requesting a misspelt species creates all missing pairs", "statement": "The by-name variant with an unknown name behaves exactly as if that argument were the wildcard.", "quantifier": "all databases and unknown names", "why_tests_cant": "All names.", "anchors": [{"file": "src/chimp/RuntimeDB.cpp", "symbols": ["createMissingElasticCrossSections"]}]}
{"id": "C57", "title": "Filter combinators are set algebra", "statement": "And/Or/Not/Null trees return the intersection, union, difference and identity of their sub-filters on every input set; every filter returns a subset of its input and is idempotent for the pointwise ones.", "quantifier": "all filter trees of any depth, all interaction sets", "why_tests_cant": "All trees.", "anchors": [{"file": "src/chimp/interaction/filter/And.h", "symbols": ["And"]}, {"file": "src/chimp/interaction/filter/Or.h", "symbols": ["Or"]}, {"file": "src/chimp/interaction/filter/Not.h", "symbols": ["Not"]}, {"file": "src/chimp/interaction/filter/Null.h", "symbols": ["Null"]}, {"file": "src/chimp/interaction/filter/Base.h", "symbols": ["Base::filter"]}]}
{"id": "C58", "title": "Preferred-section filter keeps exactly one interaction per equation text", "statement": "The preferred Section filter returns for each distinct equation text among its sub-filter's results exactly one interaction, from the section if any is there, else from standard, else another; required keeps exactly the section's; an empty section name returns the input unfiltered, even by its sub-filter.", "quantifier": "all interaction sets and sections", "why_tests_cant": "All sets.", "anchors": [{"file": "src/chimp/interaction/filter/Section.h", "symbols": ["Section::filter"]}]}
{"id": "C59", "title": "Equation text is unique per equation for simple names", "statement": "For non-empty species names without blanks and brackets (other than '+') and multiplicities of at least 1, two equations have the same text iff their input and output term sequences agree in name, multiplicity and 'from' (all negative 'from' being alike); with multiplicity 0 or blanks in names distinct equations can share a text.", "quantifier": "all term sequences", "why_tests_cant": "Injectivity over all strings.", "anchors": [{"file": "src/chimp/interaction/Equation.h", "symbols": ["formatUniqueEqString"]}]}
{"id": "C60", "title": "EqIO filter: first duplicate term wins and empty term set matches nothing", "statement": "Building an EqIO filter from a term list keeps for each species the first term (contrary to the documented override); an EqIO filter with no terms matches nothing; a wildcard term matches any multiplicity; a matched side has exactly the species of the terms, one term each.", "quantifier": "all term lists, all interactions", "why_tests_cant": "All lists.", "anchors": [{"file": "src/chimp/interaction/filter/EqIO.h", "symbols": ["EqTermSet", "getXpathQuery"]}]}
{"id": "C61", "title": "Property list composition keeps every property", "statement": "An Aggregate of properties and other aggregates, nested to any depth and followed by any number of Null arguments, is the flat list of the properties written in it from left to right; printing and loading visit them in that order; loading succeeds exactly when every entry found converts and every required property has one, the others getting their default. A Null between other arguments is not dropped and makes the list unprintable.", "quantifier": "all nestings, all argument lists", "why_tests_cant": "All type-level expressions.", "anchors": [{"file": "src/chimp/property/detail/list.h", "symbols": ["List", "Concat"]}, {"file": "src/chimp/property/aggregate.h", "symbols": ["Aggregate"]}]}
{"id": "C62", "title": "Option modifiers change only their own field", "statement": "Any chain of option modifiers results, per field, in the last value set for that field, or the default.", "quantifier": "all chains of modifiers", "why_tests_cant": "All chains.", "anchors": [{"file": "src/chimp/make_options.h", "symbols": ["make_options", "setParticle", "setInplaceInteractions"]}]}
{"id": "C63", "title": "Example cell's maximum relative velocity is a bound for one species only", "statement": "For A=B the example's maxRelativeVelocity bounds the relative speed of every pair in the cell; for A!=B it can be smaller than an actual relative speed (but never by more than a factor sqrt(2)). The same holds for the maxima that simtest's doCellMeasurements computes from the sorted particles.", "quantifier": "all particle velocity lists", "why_tests_cant": "sup over all ranges.", "anchors": [{"file": "examples/simtest/Cell.h", "symbols": ["maxRelativeVelocity"]}, {"file": "examples/simtest/cellMeasurements.h", "symbols": ["doCellMeasurements"]}]}
{"id": "C64", "title": "End to end: acceptance probability is a probability", "statement": "For sets of Constant, Inverse and VHS(<=1) channels and a speed bound that holds for the selected pair, sigma_tot*v <= the maximum used by the driver, so each tested pair collides with probability exactly sigma_tot*v/max (up to the inclusive draw).", "quantifier": "all such sets, speeds, draws", "why_tests_cant": "Composition over a continuum.", "anchors": [{"file": "src/chimp/interaction/Set.h", "symbols": ["findMaxSigmaVProduct", "calculateOutPath"]}, {"file": "src/chimp/interaction/Driver.h", "symbols": ["DefaultMaxSigmaVProduct"]}]}
{"id": "C65", "title": "Filter documents read back as the filters they describe", "statement": "An element loads as a filter exactly when it has that meaning (two operands for combinations; a Section is 'standard' and 'preferred' unless it says otherwise; an EqIO needs a direction and at least one term, a term without count counts once and the first term of a name wins). Writing any filter tree (with non-empty, name-sorted EqIO term sets) as XML and loading it yields the same tree; loading only yields such trees; an unknown element throws invalid_argument and And/Or/Not with other than two children throw; but any 'preference' text containing 'required', such as 'not required', selects the required mode.", "quantifier": "all filter trees of any depth, all filter documents", "why_tests_cant": "All trees and documents.", "anchors": [{"file": "src/chimp/interaction/filter/Base.cpp", "symbols": ["lookup", "load"]}, {"file": "src/chimp/interaction/filter/And.h", "symbols": ["load"]}, {"file": "src/chimp/interaction/filter/EqIO.h", "symbols": ["load"]}, {"file": "src/chimp/interaction/filter/Section.h", "symbols": ["load"]}]}
{"id": "C66", "title": "The Elastic filter compares texts, not equations", "statement": "Interactions whose two sides are written identically are kept; an elastic interaction whose products are written in another order is dropped, and a non-elastic one whose sides read the same when concatenated (A + B -> AB) is kept.", "quantifier": "all documents; existence of the failing cases", "why_tests_cant": "Equality of texts over all documents.", "anchors": [{"file": "src/chimp/interaction/filter/Elastic.h", "symbols": ["Elastic"]}]}
{"id": "C67", "title": "Interaction sets can be looked up by species names in either order", "statement": "operator()(a,b) with the names of two loaded species returns the set of that pair, the same for both orders of the arguments and the same as by index; with any unknown name it throws runtime_error.", "quantifier": "all databases, all pairs of names", "why_tests_cant": "All name pairs.", "anchors": [{"file": "src/chimp/RuntimeDB.cpp", "symbols": ["operator()"]}]}
{"id": "C68", "title": "The list of possible products is exact", "statement": "findAllRHSParticles returns, in ascending order and without repetition, exactly the names that occur as a product of one of the given interactions.", "quantifier": "all lists of interaction sets", "why_tests_cant": "All documents.", "anchors": [{"file": "src/chimp/RuntimeDB.cpp", "symbols": ["findAllRHSParticles"]}]}
{"id": "C69", "title": "Thermal speeds are too small by sqrt(2)", "statement": "For relative speeds in thermal equilibrium (Maxwell distribution with the reduced mass), avg_v_rel is the mean relative speed divided by sqrt(2), and calcStdVFromT is the root mean square relative speed divided by sqrt(2), which exceeds the standard deviation of the speed; at least 99% of pairs are slower than estMaxVFromStdV(calcStdVFromT).", "quantifier": "all positive temperatures and reduced masses", "why_tests_cant": "Improper integrals over the distribution for a continuum of parameters.", "anchors": [{"file": "src/chimp/interaction/v_rel_fnc.h", "symbols": ["avg_v_rel", "calcStdVFromT", "estMaxVFromStdV"]}]}
{"id": "C70", "title": "Automatic elastic cross sections complete the database", "statement": "With auto_create_missing_elastic, initBinaryInteractions leaves the loaded sets as without it, except that each pair lacking an elastic equation which can be made from its like pairs gets exactly one, appended and recognised as elastic; without the option nothing is added.", "quantifier": "all documents, filters and species", "why_tests_cant": "All documents and species sets.", "anchors": [{"file": "src/chimp/RuntimeDB.cpp", "symbols": ["initBinaryInteractions", "createMissingElasticCrossSections"]}]}
{"id": "C71", "title": "Extrapolated cross sections are the best fit tried, but do not join the table", "statement": "Beyond the last entry of a fittable table the cross section is C b ln(ax+b)/(ax+b), x = v^2 - v1^2, with C and a fitted to the last but one entry; b is the value on the searched grid (steps of 0.01 from e to 100) with the smallest relative mismatch at the last entry, or 30 if every mismatch overflows. The curve need not pass through the last entry: for every factor K there is a table where the cross section jumps up by more than K just beyond it.", "quantifier": "all tables, all speeds beyond the table, all K", "why_tests_cant": "Optimality over the whole search grid for a continuum of tables.", "anchors": [{"file": "src/chimp/interaction/cross_section/DATA.h", "symbols": ["setCoeffs", "operator()"]}]}
{"id": "C72", "title": "Initialising a database twice doubles every collision rate", "statement": "Calling initBinaryInteractions again on an initialised database of the same species appends a second copy of every equation to every set, so the maximum of sigma*v and the total cross section of every pair double exactly.", "quantifier": "all documents, filters, species lists, speeds", "why_tests_cant": "All documents; the second call is never tested.", "anchors": [{"file": "src/chimp/RuntimeDB.cpp", "symbols": ["initBinaryInteractions"]}, {"file": "src/chimp/interaction/Set.h", "symbols": ["findMaxSigmaVProduct", "calculateOutPath"]}]}
{"id": "C73", "title": "A simulation conserves what its XML document conserves", "statement": "After initBinaryInteractions the j-th equation of a pair of species comes from the j-th interaction of the document selected for that pair; its reactants are that pair, lighter first, its reduced mass is theirs and its products are the species named. Consequently, if no interaction among the database's species has 'ops': over any finished in-place run, any quantity attached to species names changes by exactly what the document's equations of the reported reactions say; a quantity that every interaction among these species balances is conserved; if they balance mass, momentum is conserved and kinetic energy changes by the KineticEnergyChange values (or minus the threshold energies) of the reported reactions, less at most the VSS cone loss.", "quantifier": "all documents, filters, species lists, cells, random streams, numbers of collisions", "why_tests_cant": "End-to-end over all documents and arbitrarily long runs.", "anchors": [{"file": "src/chimp/RuntimeDB.cpp", "symbols": ["initBinaryInteractions"]}, {"file": "src/chimp/interaction/Equation.cpp", "symbols": ["Equation::load"]}, {"file": "src/chimp/interaction/Driver.h", "symbols": ["Driver::operator()"]}]}
{"id": "C74", "title": "The effective radius is that of hard spheres, and averaged cross sections add radii", "statement": "For a non-negative cross section s at speed v, effectiveRadius(v) is the r>=0 with s = pi*(r+r)^2. The averaged cross section of two species (on the fly, and at every node of an averaged table) is pi*(r0+r1)^2 where r0 and r1 are the effective radii of the like-species cross sections; its own effective radius is their mean. In binary64 a negative cross section gives NaN.", "quantifier": "all cross sections, all speeds", "why_tests_cant": "Identity over a continuum of speeds and cross-section types.", "anchors": [{"file": "src/chimp/interaction/cross_section/Base.h", "symbols": ["effectiveRadius"]}, {"file": "src/chimp/interaction/cross_section/detail/AvgEasy.h", "symbols": ["operator()"]}, {"file": "src/chimp/interaction/cross_section/AveragedDiameters.h", "symbols": ["AveragedDiameters"]}]}
{"id": "C75", "title": "Pair selection narrows range sizes to 32 bits", "statement": "Each selected position lies among the first max(1, size mod 2^32) of its range, so the last particle of a range of 2^32 or more particles is never selected; selecting two particles from one range whose size is a multiple of 2^32 never returns; when size mod 2^32 exceeds 2^31 some draws make the conversion to int undefined, exactly those whose product with the size reaches 2^31.", "quantifier": "all range sizes, all draw sequences", "why_tests_cant": "Ranges of 2^31 and more particles do not fit in a test.", "anchors": [{"file": "src/chimp/interaction/selectRandomPair.h", "symbols": ["selectRandomPair"]}]}
{"id": "C76", "title": "Random collisions are unbiased and isotropic on average", "statement": "Averaged over independent uniform draws: both particles of an elastic collision leave with the centre-of-mass velocity and the second moments of the relative velocity are |v|^2/3 times the identity; VSS keeps (1-alpha)/(1+alpha) of the relative velocity where alpha is the exponent applied to the draw (outside the small cone); both products of a 2->2 reaction and all three of a 2->3 reaction leave on average with the centre-of-mass velocity, even when masses do not balance. Of the available energy each product of a 2->3 reaction carries on average half of the mass fraction of the two others, whatever its place in the list; but the spread does depend on the place: for three equal masses the mean square is 4/27 of the squared available energy for the first product and 5/36 for the others (refuting that the order of equal products is immaterial). Mean energies: an elastic collision moves mu*V_cm.(v1-v2) from the first particle to the second, a VSS collision 2*alpha/(1+alpha) of that; so equal masses leave with equal mean energies and a target at rest takes 2*m1*m2/(m1+m2)^2 of the energy. The two products of a 2->2 reaction share the available energy in inverse ratio of their masses for every draw.", "quantifier": "all masses, velocities, exponents >= 0, all loaded 2->2 and 2->3 reactions", "why_tests_cant": "Exact integrals over the draws for a continuum of inputs.", "anchors": [{"file": "src/chimp/interaction/model/Elastic.h", "symbols": ["interact"]}, {"file": "src/chimp/interaction/model/VSSElastic.h", "symbols": ["interact"]}, {"file": "src/chimp/interaction/model/InElastic_2X2.h", "symbols": ["interact"]}, {"file": "src/chimp/interaction/model/InElastic_2X3.h", "symbols": ["interact"]}]}
{"id": "C77", "title": "2->3 reactions reach every energy split and pair of directions", "statement": "For a loaded 2->3 reaction with affordable energy, every fraction of the available energy in the first product's recoil, every direction of the first product and, independently, every direction of the relative velocity of the other two occur for some draws in [0,1].", "quantifier": "all loaded reactions, velocities, fractions, pairs of directions", "why_tests_cant": "Surjectivity onto a continuum.", "anchors": [{"file": "src/chimp/interaction/model/InElastic_2X3.h", "symbols": ["interact"]}]}
{"id": "C78", "title": "A whole in-place run conserves what its equations conserve", "statement": "For every finished in-place run over a cell whose particles are stored by species: for every additive quantity of the species (mass, charge, particle number, number of one species) the total over live particles and products changes by exactly the sum, over the collisions reported, of products minus reactants of the selected equation; if all equations balance mass, every momentum component is conserved; total kinetic energy changes by the sum of the energy changes of the reported reactions, less at most 5e-13*mu per VSS collision.", "quantifier": "all cells, databases of elastic, VSS and inelastic interactions without 'ops', random streams, any number of collisions", "why_tests_cant": "Induction over arbitrarily long runs with removal and compaction.", "anchors": [{"file": "src/chimp/interaction/Driver.h", "symbols": ["Driver::operator()"]}, {"file": "src/chimp/interaction/detail/DriverRetval.h", "symbols": ["DriverRetval<true>"]}, {"file": "src/chimp/interaction/Set.h", "symbols": ["interact"]}]}
{"id": "C79", "title": "'ops' expressions act on their own product only, after the collision", "statement": "Loading a reaction with 2 or 3 products and 'ops' implies that the same equation without 'ops' loads. Every collision creates the products of the equation without 'ops' (same draws, species, origins, velocities) and then applies to each product its own expressions in the order written, reading the reactants as they were before and the centre of mass/charge; a centre that neither an expression nor an origin asked for reads as zero. If an expression throws, the collision throws.", "quantifier": "all equations, expressions, particles, random streams", "why_tests_cant": "All expression lists and collisions.", "anchors": [{"file": "src/chimp/interaction/model/detail/inelastic_helpers.h", "symbols": ["Process<true>", "setFactories", "ParticleFactory::Scratch"]}, {"file": "src/chimp/interaction/model/InElastic_2X2.h", "symbols": ["interact"]}, {"file": "src/chimp/interaction/model/InElastic_2X3.h", "symbols": ["interact"]}]}
{"id": "C80", "title": "What 'ops' expressions can and cannot change", "statement": "Evaluating an expression never changes the product's species, and changes its velocity, position, weight only through setVelocity, setPosition, setWeight; its value and whether it throws do not depend on the product. setVelocity/setPosition throw unless given 3 arguments; P(n,item) reads position, velocity, weight or species charge of reactant n=0,1 and throws otherwise; CM(i), CQ(i) throw unless i is 0,1,2. Hence products have the declared species whatever the 'ops', and reactions whose 'ops' never call setVelocity obey the momentum and energy laws of reactions without 'ops'.", "quantifier": "all expression trees, particles, reactions", "why_tests_cant": "All expression trees (unbounded nesting).", "anchors": [{"file": "src/chimp/interaction/model/detail/inelastic_helpers.h", "symbols": ["InElasticExpressions::QsetVelocity", "InElasticExpressions::QsetPosition", "InElasticExpressions::QsetWeight", "InElasticExpressions::QP", "InElasticExpressions::QCM", "InElasticExpressions::QCQ"]}]}
{"id": "C81", "title": "The calculator is shared by the whole process", "statement": "Constructing a database leaves the calculator with exactly the library symbols plus the commands of its document, executed in order up to the first that fails, whatever happened before; hence two databases do not keep their own commands (the last one constructed wins). The functions of 'ops' texts are defined whenever such a text is read if no database is constructed after the first one that needed them; a database constructed later removes them for good, and then no reaction whose 'ops' call one of them can be initialised. The first 'ops' text also shadows document symbols named P, X, ... in later texts.", "quantifier": "all histories of constructions, document additions and texts read; all calculators", "why_tests_cant": "Histories of a process-wide singleton of any length; the test programs open one database each.", "anchors": [{"file": "src/chimp/physical_calc.cpp", "symbols": ["prepareCalculator", "execCalcCommands"]}, {"file": "src/chimp/RuntimeDB.cpp", "symbols": ["RuntimeDB::RuntimeDB"]}, {"file": "src/chimp/interaction/model/detail/inelastic_helpers.h", "symbols": ["addInteractionHelpers"]}]}
{"id": "C82", "title": "A document element is read exactly as its units say", "statement": "A cross_section element with @model l is accepted with content d exactly when the children required for l are there in the required units (value, A, B in area, value_vref in area*speed, T_ref in temperature, visc_T_law dimensionless, threshold absent or an energy or a speed, table rows an energy or a speed and an area, Lotz shells with P an energy, a in area*energy^2); otherwise an exception, never undefined behaviour. The registry then builds that kind of cross section. Children under other names (a misspelt threshold) are ignored. KineticEnergyChange is absent or an energy; vss_param_inv must be dimensionless; a Particle needs a name, its mass and charge are 0 if absent and rejected in other units.", "quantifier": "all elements, labels, units", "why_tests_cant": "All combinations of children and units.", "anchors": [{"file": "src/chimp/interaction/cross_section/detail/generic.cpp", "symbols": ["loadThreshold"]}, {"file": "src/chimp/interaction/cross_section/DATA.cpp", "symbols": ["loadCrossSectionData"]}, {"file": "src/chimp/interaction/cross_section/Constant.cpp", "symbols": ["loadConstantValue"]}, {"file": "src/chimp/interaction/cross_section/detail/VHSInfo.cpp", "symbols": ["VHSInfo::load"]}, {"file": "src/chimp/interaction/cross_section/detail/LotzDetails.cpp", "symbols": ["parse_item"]}, {"file": "src/chimp/interaction/model/detail/inelastic_helpers.cpp", "symbols": ["loadKineticEnergyChange"]}, {"file": "src/chimp/interaction/model/detail/vss_helpers.cpp", "symbols": ["loadVSSParamInv"]}, {"file": "src/chimp/property/detail/check.h", "symbols": ["parse_item"]}]}
{"id": "C83", "title": "Energies and relative speeds are interchangeable in documents", "statement": "For a positive reduced mass, two documents of the same kind whose thresholds (or table rows) are the same points, one written as a collision energy and the other as the speed with that energy, load to the same cross section.", "quantifier": "all documents, reduced masses (real arithmetic)", "why_tests_cant": "Equality over a continuum of documents.", "anchors": [{"file": "src/chimp/interaction/cross_section/detail/generic.cpp", "symbols": ["loadThreshold"]}, {"file": "src/chimp/interaction/cross_section/DATA.cpp", "symbols": ["loadCrossSectionData"]}]}
{"id": "C84", "title": "Some useless data is accepted silently (binary64)", "statement": "A table whose first row has a negative energy loads, whatever its other rows, to a cross section that is 0 at every speed with maximum 0 and threshold energy NaN (undefined behaviour if the first value is 0). Elastic and VSS collisions of two species whose Particle elements have no mass give both particles NaN velocities for all velocities and draws.", "quantifier": "all tables starting with a negative energy, all speeds; all particles and draws", "why_tests_cant": "Needs NaN keys in a sorted map for arbitrary further rows.", "anchors": [{"file": "src/chimp/interaction/cross_section/DATA.cpp", "symbols": ["loadCrossSectionData"]}, {"file": "src/chimp/interaction/cross_section/DATA.h", "symbols": ["checkThreshold", "eval"]}, {"file": "src/chimp/interaction/ReducedMass.h", "symbols": ["ReducedMass"]}, {"file": "src/chimp/property/detail/check.h", "symbols": ["parse_item"]}]}
{"id": "C85", "title": "The shipped data conserve mass, charge and momentum", "statement": "Every interaction of data/standard/interactions.xml whose species are all in particles.xml has the same total charge and the same total mass before and after, for all values of the physical constants (hence the same number of nuclei of every element). Hence any in-place run over a database of shipped species conserves these totals and every momentum component.", "quantifier": "all choices of shipped species and filters, values of constants, cells, random streams, lengths of runs", "why_tests_cant": "The shipped file is fixed, but the databases, constants and runs over it are not.", "anchors": [{"file": "data/standard/interactions.xml", "symbols": ["Interaction"]}, {"file": "data/standard/particles.xml", "symbols": ["Particle"]}, {"file": "src/chimp/RuntimeDB.cpp", "symbols": ["RuntimeDB::initBinaryInteractions"]}, {"file": "src/chimp/interaction/Driver.h", "symbols": ["Driver::operator()"]}]}
{"id": "C86", "title": "Energy in gases of shipped species; shipped excitation energies heat the gas", "statement": "For shipped species other than the pairs Xe/Xe^+ and Cu/Cu^+ (whose cross sections can be negative) kinetic energy changes over an in-place run by exactly the sum over the reported reactions of -threshold or of the KineticEnergyChange. All 25 shipped KineticEnergyChange values are positive, so these excitations and ionisations add their energy to the particles; a run in which all reported collisions have one raises the kinetic energy (that an excitation takes energy away is refuted).", "quantifier": "all choices of shipped species and filters, positive eV and m_e, cells, random streams, lengths of runs", "why_tests_cant": "Sum over arbitrarily many collisions; the sign error is invisible to tests that compare conserved totals only.", "anchors": [{"file": "data/standard/interactions.xml", "symbols": ["KineticEnergyChange"]}, {"file": "src/chimp/interaction/model/detail/inelastic_helpers.cpp", "symbols": ["loadKineticEnergyChange"]}, {"file": "src/chimp/interaction/model/InElastic_2X2.h", "symbols": ["interact"]}, {"file": "src/chimp/interaction/Driver.h", "symbols": ["Driver::operator()"]}]}
{"id": "C87", "title": "Reactions with one or more than three products never complete", "statement": "In a completed in-place run over an initialised database, every reported reaction comes from an interaction of the document among the species, and it has two or three products (for example the shipped e^- + SF6 -> SF6^- loads but is never reported).", "quantifier": "all documents without 'ops' among the species, filters, cells, random streams", "why_tests_cant": "Absence of an event in all runs.", "anchors": [{"file": "src/chimp/interaction/model/InElastic.h", "symbols": ["InElastic::interact", "InElastic::new_load"]}, {"file": "src/chimp/interaction/Driver.h", "symbols": ["Driver::operator()"]}]}
{"id": "C88", "title": "Which documents load", "statement": "initBinaryInteractions succeeds with every filter if the species have distinct plain names and positive masses and every interaction among them with a cross section and two reactants has: non-negative multiplicities, no 'ops', a known model label (and its parameter), a known cross section class that loads for all masses, and, for two or three products, 'from' below 4, charge totals that vanish on both sides or on neither with a centre of charge that is not the 'nowhere' marker, and (three products) a heaviest product of neither reactant's mass. The shipped data meet this for every choice of species if electrons are lighter than the other species (but positrons), given a converging root finder.", "quantifier": "all documents, filters, species lists, masses, constants", "why_tests_cant": "Totality of the loader over all documents of this class and all subsets of 167 species.", "anchors": [{"file": "src/chimp/RuntimeDB.cpp", "symbols": ["RuntimeDB::initBinaryInteractions"]}, {"file": "src/chimp/interaction/Equation.h", "symbols": ["Equation::load"]}, {"file": "src/chimp/interaction/model/detail/inelastic_helpers.h", "symbols": ["setParticleFactories"]}, {"file": "src/chimp/interaction/cross_section/DATA.cpp", "symbols": ["loadCrossSectionData"]}]}
{"id": "C89", "title": "Expected number of interactions of two unlike particles in a run", "statement": "For independent uniform draws, two particles of different species with relative speed v interact through a channel of cross section s, in a run that keeps no results in place, an expected number of max(wA,wB)*dt*s*v/V times (the kinetic rate) if the reported maximum is at least v times the total cross section, and that reduced by maximum/(v*total) otherwise; the elastic, VSS and (without 'ops') two- and three-product models qualify. This holds if the number x of tests computed is not an integer; if it is the integer z>0 the expected number is smaller by the factor 1-1/z.", "quantifier": "all cells with non-empty disjoint ranges, databases with non-negative cross sections, time steps, maxima", "why_tests_cant": "An exact expectation over all random streams; a run samples one.", "anchors": [{"file": "src/chimp/interaction/Driver.h", "symbols": ["Driver::operator()"]}, {"file": "src/chimp/interaction/selectRandomPair.h", "symbols": ["selectRandomPair"]}, {"file": "src/chimp/interaction/Set.h", "symbols": ["calculateOutPath", "findMaxSigmaVProduct"]}, {"file": "src/chimp/interaction/Equation.h", "symbols": ["Equation"]}]}
{"id": "C90", "title": "Interactions of like particles are too frequent by n/(n-1)", "statement": "For independent uniform draws, two particles of the same species, of which the cell holds n, interact through a channel of cross section s an expected number of w*dt*s*v/V * n/(n-1) times per run (maximum at least v times the total cross section, number of tests not an integer; factor 1-1/z for an integer z>0): the estimate counts n^2/2 pairs where there are n(n-1)/2.", "quantifier": "all cells, databases, time steps as in C89", "why_tests_cant": "Bias of an expectation, of relative size 1/n.", "anchors": [{"file": "src/chimp/interaction/Driver.h", "symbols": ["Driver::operator()"]}, {"file": "src/chimp/interaction/selectRandomPair.h", "symbols": ["selectRandomPair"]}, {"file": "src/chimp/interaction/Set.h", "symbols": ["calculateOutPath"]}]}
{"id": "C91", "title": "Expected number of tests; all pairs are tested equally often", "statement": "The expected number of tests of a pair of species is the computed number x if that is not an integer and z-1 if it is an integer z>0; every ordered pair of distinct particles of the two species is tested the same expected number of times, the number of tests over the number of pairs.", "quantifier": "all cells, databases, time steps as in C89; all pairs", "why_tests_cant": "Uniformity over all random streams, with redraws when a particle is drawn twice.", "anchors": [{"file": "src/chimp/interaction/Driver.h", "symbols": ["Driver::operator()"]}, {"file": "src/chimp/interaction/selectRandomPair.h", "symbols": ["selectRandomPair"]}]}
{"id": "C92", "title": "Elastic collisions in double precision stay finite and conserve momentum and energy up to rounding", "statement": "In binary64, for masses between 2^-300 and 2^300 and two particles whose velocity components are at most V (2^-400<=V<=2^400), every in-place or out-of-place elastic collision with draws in [0,1] gives finite velocities with components at most 6V; each momentum component changes by at most 2^-47*(m1+m2)*V and kinetic energy by at most (2^-43+2*kappa)*(m1+m2)*V^2, where kappa bounds the library's |sin^2+cos^2-1| on [0,8].", "quantifier": "all binary64 masses, velocities in range, draws, math libraries with |sin|,|cos|<=1", "why_tests_cant": "Worst-case rounding over about 2^600 inputs; tests with tolerance check a few.", "anchors": [{"file": "src/chimp/interaction/model/Elastic.h", "symbols": ["interact", "collide"]}, {"file": "src/chimp/interaction/ReducedMass.h", "symbols": ["ReducedMass"]}]}
{"id": "C93", "title": "VSS collisions in double precision stay finite and conserve momentum up to rounding", "statement": "As C92 for the VSS model with any exponent for which the library's pow maps [0,1] into itself: components at most 11V, momentum to 2^-46*(m1+m2)*V; kinetic energy to (2^-41+2*kappa)*(m1+m2)*V^2 if the relative velocity has at least 2e-6 perpendicular to the x axis, and with 2e-13*(m1+m2) more for any relative velocity.", "quantifier": "all binary64 masses, velocities in range, exponents, draws", "why_tests_cant": "Division by a small perpendicular speed could amplify rounding errors; only a proof excludes it for all inputs.", "anchors": [{"file": "src/chimp/interaction/model/VSSElastic.h", "symbols": ["interact", "collide"]}, {"file": "src/chimp/interaction/ReducedMass.h", "symbols": ["ReducedMass"]}]}
{"id": "C94", "title": "Reactions with two products in double precision balance momentum and energy up to rounding", "statement": "In binary64, a loaded inelastic equation with two products whose masses balance to 2^-50, applied to particles with velocity components at most V, gives finite velocities with components at most 6KV; momentum is that of the reactants to 2^-47*K*(mA+mB)*V and kinetic energy that of the reactants plus the declared change to (2^-43*K^2+2*kappa)*(mA+mB)*V^2. K^2 (K>=1) bounds the ratio of the reduced masses of reactants and products; the declared change is 0 or leaves at least 2^-47*mu*V^2 of relative energy.", "quantifier": "all equations with two products, masses in [2^-300,2^300], velocities, draws, energy changes", "why_tests_cant": "Cancellation in 1+2dE/(mu v^2) and the division by sqrt of masses must not amplify errors for any input; sampling cannot show it.", "anchors": [{"file": "src/chimp/interaction/model/InElastic_2X2.h", "symbols": ["interact", "InElastic_2X2"]}, {"file": "src/chimp/interaction/ReducedMass.h", "symbols": ["ReducedMass"]}]}
{"id": "C95", "title": "Reactions with three products in double precision balance momentum and energy up to rounding", "statement": "As C94 for three products: components at most 11KV, momentum to 2^-46*K*(mA+mB)*V, kinetic energy to (2^-41*K^2+4*kappa)*(mA+mB)*V^2, where K^2 bounds the ratio of the reactants' reduced mass to that of the first product against the other two and to that of the last two.", "quantifier": "all equations with three products, masses, velocities, draws, energy changes", "why_tests_cant": "Three directions and a random split of the energy are composed; worst-case rounding cannot be sampled.", "anchors": [{"file": "src/chimp/interaction/model/InElastic_2X3.h", "symbols": ["interact", "InElastic_2X3"]}, {"file": "src/chimp/interaction/ReducedMass.h", "symbols": ["ReducedMass"]}]}
{"id": "C96", "title": "A gas without reactions keeps its energy and momentum over any number of time steps in double precision", "statement": "Masses between mlo and mhi. A gas with elastic collisions (loss=0), or elastic and VSS collisions (loss=2e-13), is advanced in binary64 by any number of in-place calls of the Driver, each with its own time step, cell, database and random numbers; between the calls the particles may be moved and reordered. If the initial kinetic energy is at most mlo*V^2/4 and the number n of collisions satisfies n*dE <= mlo*V^2/4 with dE = 2*mhi*((2^-41+2*kappa)*V^2+loss), then no velocity ever becomes NaN, infinite or larger than V; total kinetic energy stays within n*dE and each momentum component within n*2^-45*mhi*V of the start.", "quantifier": "all initial gases, numbers of steps, cells, databases of such equations, draws", "why_tests_cant": "A drift over billions of collisions cannot be ruled out by simulation; the bound has to compose over all steps.", "anchors": [{"file": "src/chimp/interaction/Driver.h", "symbols": ["Driver::operator()"]}, {"file": "src/chimp/interaction/Set.h", "symbols": ["interact", "calculateOutPath"]}, {"file": "src/chimp/interaction/model/Elastic.h", "symbols": ["interact", "collide"]}, {"file": "src/chimp/interaction/model/VSSElastic.h", "symbols": ["interact", "collide"]}]}
{"id": "C97", "title": "Cross sections and their maxima in double precision agree with exact arithmetic", "statement": "For constant, inverse, VHS and tabulated cross sections and the two hard-sphere means of them (parameters and table entries 0 or between 2^-150 and 2^150, speeds of the table increasing, no extrapolation), the binary64 value at any such positive speed and the exact value of the same formula in real numbers agree up to m roundings (each within a factor (1-2^-53)^m of the other), the maximum of sigma*v up to m+1, and the maximum over a set of n such channels up to m+1+n. Here m is 0 for constant, 1 for inverse, 6 for tabulated cross sections, p+8 for VHS (viscosity exponent between 1/4 and 1, power function accurate to p roundings) and 2k+7 for a mean of two with k. No value is NaN or infinite, and both throw in the same cases.", "quantifier": "all parameters, tables, speeds, numbers of channels and of roundings up to 2^20", "why_tests_cant": "Values at isolated speeds cannot exclude cancellation, overflow or a comparison that goes the other way just at a threshold or table entry.", "anchors": [{"file": "src/chimp/interaction/cross_section/Constant.h", "symbols": ["operator()", "findMaxSigmaV"]}, {"file": "src/chimp/interaction/cross_section/Inverse.h", "symbols": ["operator()", "findMaxSigmaV"]}, {"file": "src/chimp/interaction/cross_section/DATA.h", "symbols": ["operator()", "findMaxSigmaV"]}, {"file": "src/chimp/interaction/cross_section/VHS.h", "symbols": ["operator()", "findMaxSigmaV"]}, {"file": "src/chimp/interaction/cross_section/AveragedDiameters.h", "symbols": ["operator()"]}, {"file": "src/chimp/interaction/Set.h", "symbols": ["findMaxSigmaVProduct"]}]}
{"id": "C98", "title": "Acceptance and choice of the channel in double precision follow the exact probabilities", "statement": "For a set of n channels with such cross sections, each accurate to m roundings, let d=(2n+2m+4)*2^-53. When calculateOutPath runs in binary64 with the maximum computed in binary64, an interaction happens if the first draw times the exact maximum is at most (1-d) times the exact total sigma*v, and none happens if (1-d) times the former exceeds the latter, or if the total is 0. The chosen channel has a positive exact cross section, the reported one agrees with it up to m roundings, and the second draw lies in the channel's exact interval widened by d on both sides.", "quantifier": "all sets of up to 2^20 such channels, speeds, draws", "why_tests_cant": "Wrong decisions at interval ends have probability 1e-15 per test and cannot be met by sampling.", "anchors": [{"file": "src/chimp/interaction/Set.h", "symbols": ["calculateOutPath", "findMaxSigmaVProduct"]}]}
{"id": "C99", "title": "The number of collision tests of a run in double precision follows the exact estimate", "statement": "Let a Driver call in binary64 (either mode) end with enough particles of species A and B left; let y be the no-time-counter estimate max(wA,wB) nA nB dt M/V (halved for A=B) with the exact maximum M of the n channels, evaluated in real numbers, u the draw used for the fraction and e=(2n+2m+22)*2^-53*(y+1), the channels being accurate to m roundings as in C97. If weights, volume, time step and maxima are 0 or between 2^-150 and 2^150 and y<=2^52, the number of tests of A with B is at most y-u+1+e, at least y-u-e when y is further than e from every whole number, and at least y-1-e in any case. So it equals the exact count unless the draw or the estimate lies within e of a decision point.", "quantifier": "all cells, sizes below 2^32, databases, draws", "why_tests_cant": "The estimate is a product of eight rounded factors; a wrong test count near whole numbers or for large counts shows up in no sample.", "anchors": [{"file": "src/chimp/interaction/Driver.h", "symbols": ["Driver::operator()"]}]}
{"id": "C100", "title": "The simtest example needs particles of four of its five species", "statement": "createRandomParticles turns species draws on [0,n) into particles of species 0..n-1 of weight 1, also in double precision; sortBySpecies is defined exactly for such particles, keeps them and delimits each species. With the shipped data and the filter and species of examples/simtest the database loads, and exactly the pairs 87Rb+87Rb, Ar+Ar, e^-+Ar, e^-+Hg have an equation, each exactly one, elastic. The Driver call of main then has undefined behaviour exactly if there is no particle of one of 87Rb, Ar, e^-, Hg (for up to 2^31-1 particles, none faster than the e^-+Ar table allows); it never completes in that case whatever the speeds, and otherwise it completes if the draws do not stick to one position. A call that completes leaves the sorted particles unchanged, marks none for erasure, tested only different particles of those four pairs, and returns two particles per collision with the species, momentum and energy of the colliding ones.", "quantifier": "all particle lists, generators, time steps, values of the physical constants with light electrons", "why_tests_cant": "With its 100 random particles a species is absent with probability 1e-9, so running the example never shows the undefined read.", "anchors": [{"file": "examples/simtest/main.cpp", "symbols": ["main"]}, {"file": "examples/simtest/Particle.h", "symbols": ["createRandomParticles"]}, {"file": "examples/simtest/sortSpecies.h", "symbols": ["sortBySpecies"]}, {"file": "src/chimp/interaction/Driver.h", "symbols": ["Driver::operator()"]}]}
{"id": "C101", "title": "Out-of-place runs return the products of each collision; replacing the partners by them is right only without repeated partners", "statement": "Let an out-of-place Driver call end. The particles it appends to its results are those of its collisions, in the order of the tests: for each test with a chosen channel the products of that channel (two for elastic ones), with the partners' momentum (if the channel balances mass) and kinetic energy changed by the channel's declared amount up to its bound; nothing for the other tests. The totals of species counts, momentum and energy over all results are those of the partners, counted once per collision, plus the channels' changes. If no particle collided twice, then replacing the colliding particles by the results gives a gas with the old totals plus these changes. In general it does not: one particle may collide several times in one call, each time with its old velocity, and two collisions of the same pair return four particles.", "quantifier": "all cells, databases, generators, time steps", "why_tests_cant": "The number of collisions per particle is random; a test with few collisions has no repeated partner.", "anchors": [{"file": "src/chimp/interaction/Driver.h", "symbols": ["Driver::operator()"]}, {"file": "src/chimp/interaction/Set.h", "symbols": ["interact", "Set::interact"]}, {"file": "src/chimp/interaction/model/Elastic.h", "symbols": ["interact"]}, {"file": "examples/simtest/main.cpp", "symbols": ["main"]}]}
{"id": "C102", "title": "Runs are the same in every frame of reference and independent of positions and earlier results; simtest's measured speeds are not", "statement": "Add one velocity to all particles of a cell and one displacement to all positions, and leave everything else as it is, including the maximum relative speeds the cell reports. In exact arithmetic a Driver call then makes the same tests and collisions with the same draws, has the same outcome, and leaves every particle and every product with that velocity and displacement added (for a reaction that puts a product at the centre of charge: velocities only). Positions influence no collision, also in double precision: changing them arbitrarily changes only the positions of the particles and products that copy them. Results and erasures already in the containers influence nothing and stay in front. In double precision the frame does matter: adding 2^53 to two velocities can make a collision disappear. And simtest's cell starts its velocity extrema at 0, so the maximum relative speed of a species that it reports is at least the speed of each particle of that species, however small their relative speeds.", "quantifier": "all cells, databases of the library's models, generators, frames, both modes, all outcomes", "why_tests_cant": "Comparing runs from two frames needs exact arithmetic; tests use gases at rest, where the extrema are around 0.", "anchors": [{"file": "src/chimp/interaction/Driver.h", "symbols": ["Driver::operator()"]}, {"file": "src/chimp/interaction/Set.h", "symbols": ["interact", "Set::interact"]}, {"file": "src/chimp/interaction/model/Elastic.h", "symbols": ["interact"]}, {"file": "examples/simtest/cellMeasurements.h", "symbols": ["doCellMeasurements"]}]}
{"id": "C103", "title": "A run depends only on the draws it makes, and how many these are", "statement": "A completed Driver call with the library's models depends only on the draws between the generator's position before and after it, also in double precision: any generator, at any position, whose next draws are the same gives the same particles, results, erasures and tests, after the same number of draws. It draws once for every pair of species with channels, at least three times for every test, and for every collision once more for the channel and two times (five for three products) for the velocities. If only particles of different species collide these numbers are exact except for at most one more draw for each test without a collision; for two particles of one species the choice of the second particle is repeated until it differs from the first, without bound on the number of draws.", "quantifier": "all cells, databases of the library's models, generators, positions, both modes", "why_tests_cant": "Reproducibility of a parallel or restarted simulation is a statement about all pairs of generators.", "anchors": [{"file": "src/chimp/interaction/Driver.h", "symbols": ["Driver::operator()"]}, {"file": "src/chimp/interaction/Set.h", "symbols": ["interact", "calculateOutPath"]}, {"file": "src/chimp/interaction/selectRandomPair.h", "symbols": ["selectRandomPair"]}, {"file": "src/chimp/interaction/model/InElastic_2X3.h", "symbols": ["interact"]}]}
{"id": "C104", "title": "A particle whose velocity is not a number passes every acceptance test but hardly ever collides again (double precision)", "statement": "Let one partner have a NaN in its velocity. If all channels are constant, inverse, tabulated, Lotz or averaged cross sections (or log or VHS with a C library that maps NaN to NaN), then whatever the draws the test is accepted, no channel is found, nothing changes and two draws are used: the 'better never get here' return is reached. A run without reactions, or any out-of-place run, therefore keeps such a particle as it is and never reports a collision of it. An in-place run with reactions and any user models keeps all such particles, unchanged, among the live particles of their species, so reactions cannot use up a species below the number of its NaN particles. If the total cross section at that speed is an ordinary number instead (hard spheres as VHS with exponent 1/2, infinite speeds with constant cross sections), the partners collide whatever the draws, and every velocity that comes out is not finite; NaN in one partner means NaN in both afterwards and in all products.", "quantifier": "all sets of channels, velocities with a NaN (or not finite), maxima, random streams, runs of any length", "why_tests_cant": "NaN velocities arise from rounding at thresholds only (C11, C12); all draws and all channel sets.", "anchors": [{"file": "src/chimp/interaction/Set.h", "symbols": ["calculateOutPath", "interact"]}, {"file": "src/chimp/interaction/cross_section/Constant.h", "symbols": ["operator()"]}, {"file": "src/chimp/interaction/cross_section/Inverse.h", "symbols": ["operator()"]}, {"file": "src/chimp/interaction/cross_section/VHS.h", "symbols": ["operator()"]}, {"file": "src/chimp/interaction/cross_section/DATA.h", "symbols": ["eval"]}, {"file": "src/chimp/interaction/cross_section/Lotz.h", "symbols": ["operator()"]}, {"file": "src/chimp/interaction/model/Elastic.h", "symbols": ["interact"]}, {"file": "src/chimp/interaction/detail/DriverRetval.h", "symbols": ["DriverRetval<true>"]}]}
{"id": "C105", "title": "If the first particle of a species has weight zero, or a factor of the estimate is NaN, the pair is silently not tested (double precision)", "statement": "The number of tests of a pair of species is estimated from the weights of the first particles of the two ranges only. If one of these weights is zero and the other is not negative, the estimate is 0/0; it is NaN as well if the time step, the cell's volume, the largest sigma v or one of the two weights is NaN. A Driver call that completes then makes no test of that pair, whatever the weights of the other particles and whatever the draws, and reports no error. With a NaN time step or volume the whole call leaves particles, ranges, results and erasures as they were. So does, for positive volume and weights and a largest sigma v that is not negative, a time step that is zero, negative or minus infinity: running backwards in time does nothing and is not reported.", "quantifier": "all cells, databases, generators, both modes, user models included", "why_tests_cant": "Test gases have equal positive weights; the claim is about every cell with one particular first particle.", "anchors": [{"file": "src/chimp/interaction/Driver.h", "symbols": ["Driver::operator()"]}]}
