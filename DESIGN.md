# Design of the formal model of openpile

The model is written in Rocq (Coq 8.16.1) under `rocq/theories`, logical name `Verif`.
It is a shallow embedding: each Python function is a Gallina function with the same
branches, and every definition cites the file and lines it models.

## Conventions

* `XModel.v` holds definitions that follow the code, `XSpec.v` (where present) holds
  independent specification predicates, `XProofs.v` holds lemmas, and `XProps.v` states
  the theorems of `MANIFEST.json`, a concrete example beside each of them, and
  `Print Assumptions`.
* Numbers: discrete and decision code uses rationals (`Q`), so witnesses are computed by
  the kernel; algebraic and transcendental code uses the reals (`R`) of the standard library.
  Floating point rounding of the arithmetic (float64) is **not** modelled: every theorem is
  about exact arithmetic. The float32 storage of springs is modelled in the theorems about the
  program as a whole only, as a function `rnd` that keeps zero, sign and order (`storage`).
* Python exceptions are values (`Err e`); NaN is `None`; random draws are universally
  quantified inputs.
* A theorem with suffix `_refuted` exhibits an input on which the faithful model violates
  the property. It is a finding about the code. `_partial` marks a theorem that covers only
  part of the English property; the note in `MANIFEST.json` says what is missing.

## Plan per property

* **C01** Setter calls are last-write-wins per axis. BC. Model the list of boundary conditions and _update_bc; fold over an arbitrary list of calls; spec is a separate 'last write' function on the history. Induction on the history.
* **C02** Setter calls do not disturb other boundary conditions. BC. Frame theorem on one call from an arbitrary list.
* **C03** Setter histories never produce a conflicting model. BC. Invariant (at most one BC per kind and elevation) by induction on the history, then validate_bc accepts.
* **C04** Conflicting boundary conditions are rejected exactly when they disagree. BC. validate_bc modelled with sets (deduplicated lists) as written; iff with an independent statement about pairs of boundary conditions; FinerProps.v carries it over to the three tables.
* **C05** A boundary condition lands on the node at its elevation and nowhere else. BC. apply_bc modelled as the loop over the list with np.isclose; theorem on first matching node, frame theorem, no-match theorem.
* **C06** The load applied to the model is the load given by the user. BC. The integer column of global_forces is modelled by truncation; expected to be refuted by a witness, with the positive theorem for whole-number loads.
* **C07** A prescribed displacement is enforced by the analysis. BC + Solve. Non-zero values: proved through apply_bc, the support mask and solve_equations; value zero: refuted by witness.
* **C08** Models do not share boundary conditions. BC heap model: models hold lists of addresses. Without shared addresses isolation is proved; with shared objects refuted by witness.
* **C09** A pile is accepted exactly when its sections tile an interval. Pile. Constructor as sort + contiguity check; iff with an independent tiling predicate.
* **C10** Pile construction does not depend on the order of the sections. Pile. Sorting is a function of the multiset for accepted lists; all derived quantities follow.
* **C11** Pile length, volume and weight are the sums over sections. Pile. Induction over contiguous sections.
* **C12** Circular sections are geometrically consistent. Section over R with PI; algebra; thickness above radius gives a refutation of non-negativity.
* **C13** A soil profile is accepted exactly when its layers stack from the ground down. Soil. Constructor as argsort-reverse + isclose loop.
* **C14** The bottom elevation of a soil profile is the bottom of its lowest layer. Soil. Induction: exact when layers meet exactly, otherwise the drift equals the sum of the signed gaps; exact claim refuted by witness.
* **C15** The mesh contains every requested elevation, once, from top to bottom. Mesh over Q: unique/sort/subdivide as written.
* **C16** No element is longer than the coarseness. Mesh: the divider loop by well-founded recursion (fuel = ceiling, proved sufficient), spacing bound, then the rounding bound.
* **C17** Elements tile the mesh and have positive length. Mesh: telescoping sum; positivity after rounding proved when the requested elevations are more than 1e-4 apart and refuted otherwise.
* **C18** The mesh covers the pile and only the pile. Mesh: proved when soil and x2mesh lie in the pile range, refuted otherwise.
* **C19** Each element carries the properties of the pile section it lies in. merge_asof modelled as 'first row of the table sorted by elevation whose elevation is >= z_top'. Row order among equal elevations is that of a stable sort (see assumptions). Proved for constant sections, refuted for a change of section.
* **C20** Vertical effective stress is an overburden integral. Stress: cumulative sums over lists with NaN as None; induction.
* **C21** Each parameter is mapped to the element inside its layer or section. parameter2elements as the overwriting loop over objects; theorems plus refutation for rounding.
* **C22** Effective tip stress integrates all layers above the tip. get_tip_sig_v_eff as written (return inside the loop): single layer proved, several layers refuted.
* **C23** Beam element stiffness is symmetric, rigid-body free and positive semi-definite. Beam over R: matrices as functions, field/nra proofs, energy as a sum of squares.
* **C24** Euler-Bernoulli is the rigid-shear limit and Timoshenko is never stiffer. Beam: algebraic identities, positivity of the Hutchinson coefficient.
* **C25** Lateral soil element stiffness is the consistent matrix of a linearly varying spring. Soil element matrices: shape functions as polynomials and integration of polynomials; sum-of-squares proofs.
* **C26** Axial soil element stiffness is the consistent matrix of a linearly varying spring. Same with linear shape functions.
* **C27** Rotational soil element stiffness is consistent. Euler-Bernoulli proved, Timoshenko refuted (shadowed variable; the matrix of thick piles is indefinite); the formula with the true area satisfies the identity.
* **C28** The global stiffness matrix is the sum of the element matrices. Assembly: sum over elements as a list fold; induction on the number of elements.
* **C29** Solved systems are in equilibrium and respect the supports. solve_equations with the dense solver as a parameter (any function that, when it returns, returns a solution); a concrete Gauss elimination instance is supplied so that the hypothesis is met.
* **C30** Linear analyses superpose. Uniqueness and linearity from the same model.
* **C31** Internal forces balance the applied loads node by node. Internal forces as -k u on the stacked array; nodal balance by induction over elements.
* **C32** Each soil spring sees the displacement of its own node. double_inner_njit as the while loop; refuted, with the exact characterisation of what it returns; repeat_inner proved correct.
* **C33** The secant spring stiffness reproduces the spring curve. np.interp modelled over R/Q; the secant theorem; bound by capacity.
* **C34** Axial springs act on the correct side. Same for axial springs, index of zero point.
* **C35** The Winkler iteration terminates and reports honestly. Loop with explicit NaN outcome and solver errors; termination by measure; honesty refuted for max_iter < 100, proved for 100.
* **C36** Prescribed displacements survive the Winkler iteration. Loop invariant.
* **C37** An unloaded pile converges to zero displacement. Refuted for the loop as written for every stiffness model.
* **C38** Reading springs does not change the model. Getter as a state transformer; refuted by witness, plus the exact effect of n calls.
* **C39** Lumped springs preserve the total resistance. Refuted by witness; exact formula of what is returned.
* **C40** Reported base mobilisation is relative to the base resistance. Refuted by witness; bound proved when resistances dominate displacements.
* **C41** The reaction table lists every reaction above the threshold and nothing else. Filter theorem over arbitrary lists.
* **C42** The conic curve is a valid soil reaction curve. Conic over R with sqrt: root in [chord, 1], monotone; tolerance branch modelled; refuted for small x_u and for n close to one.
* **C43** PISA curves scale the conic. Corollaries of C42 with the scale factors and parameter ranges.
* **C44** PISA hooks reproduce the PISA models. Equality of parameter functions under inactive clamps.
* **C45** API sand p-y curve is bounded, monotone and mobilises the ultimate resistance. tanh over R.
* **C46** API clay p-y curve is bounded and stays within the requested extent. Random draws are universally quantified inputs; Rpower for the exponent.
* **C47** Reese weak rock curve is bounded and monotone. Rpower; case analysis.
* **C48** API t-z curves have the requested length and both branches. Lists with universally quantified draws; length theorem; Kraft length refuted.
* **C49** API q-z curves only resist compression. Same technique.
* **C50** Unit friction and end bearing respect their limits. np.interp on the API tables, Rpower for alpha. LimitProps.v adds the values between the tabulated angles.
* **C51** Axial models honour the user's limits and plugging choice. Refuted by witnesses, positive part for the branches that are right; LimitProps.v adds that the unit resistances reported are those the springs mobilise.
* **C52** Dührkop multipliers bridge cyclic and static API sand. Algebra over R.
* **C53** Layer parameters are interpolated between top and bottom. Algebra over R.
* **C54** Boundary condition check accepts exactly the solvable load and support combinations. Decision logic over arbitrary tables.
* **C55** A model is accepted exactly when the mesh and the profile allow it. Decision logic.
* **C56–C57** (BC, Mesh). Preservation of validate_bc under one setter call from any valid list; composition of the mesh theorems with apply_bc.
* **C58** (Stress/Shaft). The loop of shaft_resistance as a fold over elements; telescoping to a trapezoid rule.
* **C59–C62** (Beam, Solve, Spring). Shear compliance read off the element matrix; solvable exactly when rigid motions are held (energy argument); sign symmetry of the spring stiffness; the global matrix as a sum of positive semi-definite parts.
* **C63** (Winkler). What the stopping test bounds, and that it is not relative to the loads given.
* **C64** (Getter). Exceptions of the spring getters for each kind of model.
* **C65–C67** (Create). create_springs as the overwriting loop over elements and layers, with the spring functions of the layers as parameters (so that any soil model can be plugged in).
* **C68–C74** (Lateral, Moment). The lateral soil models as functions of their parameters, evaluated as create_springs calls them; built on the curve theorems C42–C47. `SharpProps` adds where missing values of a sand's p-y curve go (C68) and which curve each custom parameter reaches (C140).
* **C75–C76** (Refine, Cantilever). Refinement: the nodal displacements of any mesh are those of the exact beam solution, so coarse and fine meshes agree.
* **C77** (Balance). Sum of soil reactions against loads with rigid-body test displacements.
* **C78–C83** (Whole). End to end: Pile → mesh → element properties → boundary conditions → solve → tables, in one composed function.
* **C84–C87** (Result). The result tables as functions of the solved vectors. KeenProps.v adds the base springs of every analysis.
* **C88–C90** (Field). Field constraints of every soil model as decision functions; printing as string functions with an abstract number printer. KeenProps.v adds that fields have the values given by keyword.
* **C91–C92** (Session). A program is a list of setter, getter and solve calls on one object; the state holds the boundary conditions and the spring arrays. Induction over programs.
* **C93–C100** (Access). Materials, section tables, printing, warnings, node numbers, Model.create, elevations and validation helpers.
* **C101–C103** (Capacity). Composition of CreateModel, StressModel and AxialModel; closed forms for shaft and tip resistance.
* **C104–C107** (Full, Call, Site, Resist, Analysis). Every model composed: sections, profile, mesh, stresses, the soil models as spring functions, storage in float32 arrays, stiffness, analysis. Conditions on the site only; regularity of the matrix by an energy argument on the secants of the stored curves.
* **C108–C110** (Live, Report). A session (C91, C92) on the object constructed in C104: invariant over the program (springs stay usable, springs that resist go on resisting), answers related to the analysis of C107 and to the soil models of C101; storage with relative error, instance with 24 significant bits.
* **C111–C113** (Draw). A plot is the list of lines, marks, arrows, rectangles and captions the code asks matplotlib for. Arrows are related to the load table through their sources (axis, node), then to the user's calls through C06; visibility from bounds on arrow lengths.
* **C114** (Bare). The matrix of `beam` in soil is that of the model without shaft springs, so C62 and C77 apply; success iff held: a null vector of the sum is one of the pile that vanishes where a base spring resists.
* **C115** (Geom). Reduction to the moment-spring matrix of C27 with stiffness -P.
* **C116–C117** (Equil). A state of rest is a solution of the secant system at its own displacements. Base springs are monotone functions, the pile is positive semidefinite, so differences of states have no energy; the refutations are one-element models solved by hand.
* **C118** (Stiff). Completing the square: the potential energy of any other admissible field exceeds that of the solution by the energy of the difference.
* **C119–C120** (Twin, Unit). Two runs of the iteration in lockstep: stiffness, loads and displacements related by diagonal factors stay related, tolerances included. Instances: unit of force, mirror image, two solvers.
* **C121–C122** (Dim, Scale). A unit change acts on parameters, positions and curves; every curve function is shown to commute with it, or the exact power by which it fails is given. `DimSandProps`: the moments of API sand divide the resistances by the largest one, so a factor drops out (`normalised_units`) and the unit of force is that of the friction, or of the table that limits it.
* **C123–C124** (Edit). Assignments to the fields of a Model: the cached tables of nodes and elements, the springs made once and the fields read by every analysis are separate parts of the state; induction over programs of assignments, reads, setter calls and analyses.
* **C125** (Split, Layer). Two profiles that agree at every elevation: every call of a spring function gets equal numbers, because depth in the layer and height of the layer enter only through the interpolated parameters; the loop over layers then writes the same entries, whatever the order. Cutting and reordering are instances.
* **C126** (Random, Plateau, Chance, Matlock). Points drawn at random lie on the flat end of a curve, where the interpolation and the last value do not depend on them; two runs of the iteration with springs that act alike stay in lockstep. The modified Matlock curve is drawn on its rise: two explicit draws give polygons that differ at 0.55 y50.
* **C127** (Recip). Conditions at nodes are turned into columns of the load and displacement tables; linearity and uniqueness of the solution (C28, C78) give superposition, symmetry of the assembled matrix (C24, C28) gives Betti's theorem, and Maxwell's theorem and influence lines are its instances. Half a kilonewton on a concrete pile refutes it for loads that are not whole.
* **C128** (Firm). Overburden, unit friction, unit bearing and perimeters are each monotone, hence the line capacity at each end of each element, hence the weighted sums of C101 and C102. For the springs: the tanh and conic curves are compared through their secants (a curve scaled up in resistance and in reach stays above at no smaller a deflection), Matlock's through the normalised curve. `outdone` compares the points of the two curves, not the interpolants between them. Cyclic clay and the subgrade modulus of weak sands are refuted. FirmBase extends the comparison to base springs and to the moment springs of the PISA clays; both axes of these curves are in proportion to the strength, so the same secant argument applies as long as the grid of the conic is wider than the 0.01 within which ordinates are set to the ultimate value (x_u of at least 1/8). Where it is narrower, as for the moments of Dunkirk sand, the comparison is refuted. FirmRock compares weak rock: every ordinate lies between the elastic line and the quarter-power line up to the factor `rock_slack` by which the curve steps down where they meet, and both lines grow with modulus and strength; `rock_slack` is a power of the ratio of the two scales with exponent 0.00025 = 1 - 1.333·0.75 and is bounded through ln 10 ≤ 3. FirmRow compares the moment springs of the API models and of custom sand row by row: the shaft friction is monotone in stress, strength and friction angle, and a row scales one backbone by the share of the lateral resistance that its point mobilises. Two rows at the same pressure are another matter, and C128_api_sand_pressure_refuted shows the loss.
* **C129** (Elastic). A spring whose curve is a straight line through the origin up to the present displacement has one stiffness, whatever formula of the code computes it (initial, secant or tangent), so all passes of the iteration assemble one matrix; the second pass reproduces the first and the loop stops. Superposition and reciprocity are then those of a symmetric linear system. Small loads: every curve is straight up to its first point, and finitely many springs have a common factor. An axial curve is straight on both sides of its middle if it starts with one slope both ways (`same_start`, `middle_segment_up`); elsewhere the pile may only settle (`either_way`).
* **C130** (Datum). Everything the code computes from elevations uses their order and differences, with three exceptions: the nodes are rounded to tenths of a millimetre, `np.isclose` compares an elevation with a tolerance relative to the elevation, and so does `math.isclose` between layers. Mesh, nodes, stresses and springs are compared step by step; a datum that moves by tenths of a millimetre leaves the differences of rounded nodes literally equal, so matrices, tables and analyses are equal terms. Spring arrays are compared within their range only (RangeProofs), so programs may read tables between analyses. The three exceptions give the hypotheses and the refutations.
* **C131** (Color). The random index is universally quantified; the twelve colours are followed one by one, and two equal colours among more than twelve layers follow from the pigeonhole principle.
* **C132** (Newton). A base spring enters one entry of the stiffness matrix, so the systems of all passes are multiples of the response of the pile alone to a load of 1 at the tip and every pass is a step in one number. With a concave curve the finite-difference tangent lies between the slope behind and the initial slope, hence the steps are monotone and the rest shrinks by a fixed factor. The refutation is an early yielding curve for which the tangent of the code equals the secant, so the distance shrinks by 1/1.02 per pass.
* **C133** (Interp). The stiffness functions with np.interp as a parameter, of which only numpy's contract is known: a point of some segment around the abscissa. The bisection of numpy, from any start, is shown to keep it by its loop invariant, also for abscissae in disorder. The contract settles the value for points in order and for equal ordinates; interpolation is monotone in the ordinates, so interpolated rotations are in order. Then stiffness and analysis by the lockstep of C119, and the curves of every sound site by C68 and C104.
* **C134** (Work). For two symmetric systems A and B at rest under the same loads F on the same supports, F.a - F.b is the A-energy of b - a plus the excess of the B-energy of b over its A-energy. With A the pile and B the secant system this gives the bound without soil (the springs only add energy, C62); with A the secant and B the initial system the bound of the first pass, because a softening curve lies below the ray through its first point. The history of the loop ends in the displacements of the first pass. A single load turns work into displacement. Witnesses: one element with a fixed head or in lateral springs; the moments of a resistance give the counterexample.
* **C135** (Soften). One sample at a time: the conic lies below its tangent at the origin and the second sample is close enough to it when the curvature is below one (the secant of the normalised conic is decreasing); samples snapped to the ultimate value are compared through the number of points. Power laws x^a (clay, rock) by monotonicity of x^(a-1); tanh (sand) because tanh x / x falls; tables point by point; rotations through x/(1+x²) <= atan x <= x. Refuted for Dunkirk moments and plugs in compression. SoftenRow lifts the moments to the springs: every row, with its multipliers.
* **C136** (Late). `LateModel` follows the loop past the hundredth pass, with NaN in arrays as `None` and an arbitrary answer of the linear solver to matrices with NaN; `passes_loop` compares it with the loop of `WinklerModel` pass by pass. The shown norms are rounded square roots: the integer next to the root is found through squares in Q and compared with `sqrt` in R.
* **C137** (Few). The mesh is compared with an arbitrary list of elevations: if a competing list keeps within the coarseness, the positions of two neighbouring requested elevations in it differ by at least the number of equal parts that the loop of `get_coordinates` finds, and the counts add up by induction over the requested elevations. Nested meshes are refuted, and proved when the coarseness divides every distance.
* **C138** (Area). From the closed form of C101: the extra term is bounded by the jumps of the friction; a monotone function on an element lies within half its rise of the mean of its end values, so every Riemann sum does. The friction is monotone because the overburden and the strength are (C20, C50).
* **C139** (`OrderSpec/Proofs/Props`): the mesh enters an analysis through its nodes and elements only, and these are equal
  (`C137_set_of_elevations`) when two x2mesh lists ask for the same elevations; so `soil_analysis`, `live` and `analyse` agree.
  The pile sorts its sections, so their order drops out at once. (The order of the layers is C125.)
* **C140** (`ObjectModel/Proofs/Props`): Python values with two kinds of callables; `misc.py` 31-36 calls plain functions only. A site without
  its soil models is sound, so `called_shaft` gives the place of every call; `first_error` is then an error for any call that raises.
* **C141** (`ApartSpec/Proofs/Calls/Tables/Witness/Props`): the element matrices have no entry between degrees of freedom 3i and 3i+1, 3i+2, and
  springs read displacements of their own direction, so the two blocks of every matrix go their own way; two runs of the loop are followed side by side
  until the first one stops. The joint tolerance of `winkler` makes them stop in different passes (`_refuted`, on the piles of C132_slow_refuted).
* **C142** (`StillProofs/Tables/Props`): with the two directions apart (C141), a vector that is zero in one direction is mapped to such a vector, and a
  sound solver can only return zero there: the equations of that direction are homogeneous, and a solver that answers has a regular system.  Induction on the passes, then on the setter calls (a call that asks for nothing or zero adds nothing), then over
  the rows of the result tables.
* **C143** (`ElemProps`): the section of an element comes from `meshed_sections` (C78), so `elem_matrix` and `moment_coef` are the functions of C23, C24 and C27
  for the values of one given section and the length of the element. The virtual work of a whole pile is the sum over the elements (`build_work`), to
  which the springs of `build_parts` are added in soil.
* **C144** (`GentleProofs/Calls/Props`): below the first point of its curve a lateral spring has one secant, tangent and initial stiffness, whatever the rest of
  the curve; an axial spring that does not move has its initial stiffness. So the second pass confirms the first (C35). The calls are scaled, the tables
  scale with them, and positive definiteness without the moved supports shows that some reaction is not zero, which the tolerance needs. An axial spring pressed down by less than to its first point has one stiffness too (`presses`; the tangent is taken up to the origin, so the first point upwards must not fall into it, which `usable` now says): `C144_pressed_down_partial`. The moment curves of the clay models are the same for every lateral resistance (`SteadyProofs`: `steady_rows`), and stay so when stored, so their springs have one stiffness below the first rotation as well (`turns`); `C144_moments_example` runs the site of C107 with all its springs. Shaft springs whose friction in tension equals that in compression (`even_shaft`; the code takes both perimeters from the outside, so that is a condition on plug and tension factor only) start with one slope both ways (`EvenProofs`, `pulls`) if storage rounds both signs alike, so a pile without the spring at the tip may be pulled too (`C144_pulled_example`).
* **C145** (`RaiseSpec/Proofs/Props`): the construction of a model on a geometrically sound site is unfolded into the list of its spring calls, whatever the soil models (`construct_is`). The first call that fails is what the constructor raises, and a constructed model has had every call return. From this, the sites in which a callable object or an axial multiplier given as a function ends in TypeError are characterised (`C145_type_error_refuted`), which shows that acceptance by pydantic does not mean that a model can be built.
* **C146** (`OffModel/Props`): the report of an object whose options were assigned to after the construction is set beside that of a model constructed with the new options (`construct_fewer`, `report_alike`): the stiffness matrices take the same springs, so the iteration is the same and only the tables, which are filled from the arrays made at construction, can differ. They do for springs switched off (`resists_secant` on the kept curve, zeros in the new one).
* **C147** (`SwitchSpec/Proofs/Props`): the object keeps arrays of zeros for the springs that were off at construction (`cut` of the options with themselves). A model with such springs and one without any have equal stiffness matrices (`barer_build`: every stiffness read from zeros is zero), so `twin_winkler` with factors one gives equal passes; `construct_fewer` does the rest for springs switched off.
* **C148** (`SturdySpec/Proofs/Witness/Props`): the stiffness of a model is split into the work of its elements, of its springs and of the springs at the tip (`system_parts` of C40); in the elastic range each spring value is its slope (`elastic_values`), so the energies of two models are compared spring by spring (`sturdier_energy`) and the gap between the works of the loads is an energy (`work_gap_supports`). A stiffer spring at the tip that makes the head move is a concrete pile with one element. `SturdyBaseProps`: beyond the elastic range even the loaded degree of freedom may move more (two elements, plastic base shear; the states of rest are unique by C116).
* **C149** (`NearSpec/Proofs/Witness/Props`): two systems whose energies agree up to the factors 1 - eps and 1 + eps have solutions whose difference is small in the energy of the first (`near_solutions`, the difference of the two systems tested at x + eps b and x - eps b); the inequality of Cauchy and Schwarz (`work_square`) with the answer to a unit load turns this into a bound at every degree of freedom. `upto_energy` compares the energies of two models spring by spring, as in C148. Slopes of curves whose points agree up to the relative error d agree up to the factor (1 + d)/(1 - d) (`slope_close`). `StoreSpec/Proofs/Props` carry this to the program: whatever is stored by two storages of relative error d has points that agree up to 2d/(1 - d) (`stored_close`, followed through create_springs by `create_close`; the switches "no lateral spring here" are the same for both), the springs of the first pass agree (`first_energy`, for curves that are only monotone, as the stored ones are), and C144's analyses end after that pass. Partial as C148: elastic range, moment springs as in C129 (in the program-level theorem absent or those of clays, whose curves do not change with the lateral resistance: `mt_value_close`, as in C144).
* **C150** (`ConeSpec/Proofs/Props`): for displacements t u with t small and positive every spring answers with a stiffness that does not depend on t: its first slope, and for axial springs the slope of the side on which u lies (`terms_small`, `small_answers`; the initial stiffness is always the one in compression). Hence the system matrix does not depend on t (`small_build`), and the runs for all small t go side by side with one reference run, pass by pass (`cone_loop`, an induction on the passes with the comparison lemmas of `TwinProofs`; the bound on t is made smaller in every pass, which is enough because there are at most max_iter + 1 passes). The refutation of superposition follows both runs of one pile, with two passes each (`free_solve`, `lifted_build`). For the program as a whole (`ConeSiteProps`, `C150_program_partial`) the loop is run from `settled` (the matrix does not depend on the size of small displacements), which the springs the program makes satisfy (`usable_settled`, with `axial_reply` for both directions); sites, storage and calls are those of C144, but nothing needs to hold the pile and it may be moved upwards. Partial: loads in the program as a whole, moment springs as in C129 and C144.

## Trusted base

* The Coq 8.16.1 kernel (rechecked with `coqchk`).
* Axioms: only those of the standard library's `Reals`
  (`ClassicalDedekindReals.sig_forall_dec`, `ClassicalDedekindReals.sig_not_dec`,
  `FunctionalExtensionality.functional_extensionality_dep`, and `Classical_Prop.classic` where
  listed). Theorems over `Q`, `Z`, `nat` and lists are closed under the global context.
  `Print Assumptions` follows each theorem in the `*Props.v` files.
* The reading of the Python, numpy and pandas semantics in the model comments.

## Coverage of the code

| file in `src/openpile` | modelled | not modelled |
|---|---|---|
| `construct.py` | `CircularPileSection`, `Pile` (validators, data, all properties, `create_tubular`, `shape`, `__str__`), `Layer`, `SoilProfile` (both validators, `__str__`, `bottom_elevation`), boundary condition classes, `Model` (fields, validators, `soil_properties`, `element_properties`, coordinates, global tables, `create_springs`, all properties, setters, getters, `solve`, `create`, `plot`) | `Model.__str__` (the printed layout of a data frame) |
| `materials.py` | all | |
| `soilmodels.py` | every class: fields, spring functions, unit friction and bearing, signatures, `__str__` | `method` strings |
| `winkler.py` | `beam`, `winkler`, `springs_mob_to_df`, `reaction_forces_to_df`, `structural_forces_to_df`, `disp_to_df`, all tables of `WinklerResult`, `details`, the two aliases of the entry points, `plot*` | |
| `core/_model_build.py` | all | |
| `core/kernel.py` | element matrices (also `elem_p_delta_stiffness_matrix`, which nothing calls), assembly, `solve_equations`, internal forces, all spring stiffness functions, `double_inner_njit` | numba compilation; `jit_eigh` and `computer` (nothing calls them) |
| `core/misc.py` | all | the list of CSS4 colours of matplotlib (a parameter) |
| `core/txt.py`, `core/validation.py` | all | |
| `utils/*_curves.py`, `utils/misc.py`, `utils/hooks.py` | all curve functions, API tables, Dührkop and PISA hooks, initial subgrade reactions | plots in the docstrings |
| `utils/graphics.py` | what is drawn and the limits of the axes | colours, fonts, grids, tick labels |

### Where the model differs from the running program

* Exact arithmetic: no float32 or float64 rounding, no overflow. In C104–C107 the storage of spring values in float32
  arrays is an unknown function that keeps order, zero and sign. Tests such as `np.isclose` and
  `np.allclose` are modelled with their tolerances. A singular matrix is detected exactly.
* `numpy.linalg.solve` is a parameter that either raises `LinAlgError` or returns the solution. A verified
  Gauss elimination shows that the parameter can be met.
* `np.interp` scans the points from the left. What numpy promises settles the value only for abscissae in order; C133 shows that the springs of every
  soundly described site are in order wherever the value matters.
* After a 100th pass without convergence the program sets the results to NaN and goes on with them up to max_iter + 1 passes; `WinklerModel` stops at 100.
  C136 follows the remaining passes and shows that only the numbers under `details()` change (and the reactions, should the solver make numbers out of NaN).
* `np.argsort` may return any permutation that sorts; `random()` may return anything in [0, 1).
* pydantic: field constraints and validators are modelled; coercion of strings and truth values
  is not, nor is the order in which an *after* validator and `model_post_init` run. Where the order decides which of two exceptions is raised, the theorem
  only says that one is.
* pandas: a data frame is the list of its rows. `merge_asof` takes the row order that a stable sort gives.
* Python objects: aliasing of boundary condition objects (C08) and of spring arrays (C38, C92) is
  modelled explicitly, assignments to the fields of a model in C123 and C124; everywhere else values are immutable in the code.
* numba: functions are modelled as the Python text reads. `api_clay_kraft` and `api_sand_kraft` are compiled with numba and call
  `kraft_modification`, which is not; numba would refuse the call, and the model has the Python meaning.

## Findings

Theorems with the suffix `_refuted` state what the code gets wrong; the main ones:

* loads are truncated to whole numbers (C06); a prescribed displacement of zero is dropped (C07);
* the element under a change of section takes the properties of the section above (C19), and a section boundary with more than four decimals gives elements without stiffness (C82);
* the tip stress stops at the first layer (C22); the Timoshenko shear compliance and distributed moment matrix are wrong (C27, C59);
* the last soil spring of every pile sees the displacement of the node above the tip (C32), the last row of the mobilisation table repeats the node above the tip (C84), the maximum reported for a base spring is the larger of its last resistance and its last displacement (C40);
* with fewer than 100 passes the last displacements are returned unconverged (C35), an unloaded pile, or one with loads below 1 kN only, is reported with NaN (C37, C144); a failed analysis reports convergence (C85);
* reading spring tables multiplies the springs held by the model, so later analyses change (C38, C92); lumped springs do not keep the resistance (C39);
* the inner perimeter of a pile is read from the outer one, so the shaft resistance of every unplugged open pile is too large (C67, C103);
* the API sand t-z peak is at 25.4 mm, the Kraft curve can be two points short (C48), `alpha_limit` is ignored in t-z curves (C51), callable axial multipliers raise (C51);
* lateral and base springs switched off on an existing model take no part in the analysis, but its report shows them as mobilised (C146);
* beyond the elastic range a stronger base moment spring may let the loaded head turn further (C148);
* the curvature of a custom PISA curve is checked to be in [0, 1) only when it is a number or a list; a function returning -1 is taken, and the p-y curve has NaN in it, with a whole row of NaN moments (C68);
* custom PISA parameters given as a bound method, `functools.partial`, a built-in or an object with `__call__` pass validation and raise TypeError when the model is constructed, because `get_value_at_current_depth` tests for the type of a lambda (C140, C145);
* the iteration of `winkler` stops when what is out of balance in all directions together falls below 1e-4 of all loads and reactions together. A large
  axial load on a laterally loaded pile therefore ends the iteration early: an analysis whose deflection is far from equilibrium (0.06 mm instead of 1 mm in
  C141_reported_refuted) is reported as converged after two passes.
* the weak rock model counts the overburden as rock depth (C71); Dunkirk moments ignore the p-multiplier (C74); Kallehave's stiffness is multiplied by depth once more (C45);
* `Pile.shape` returns nothing for other sections, `txt_pile` always raises (C95), axial springs are never checked (C96), base spring tables name a node that does not exist (C97), `Model.create` without `x2mesh` always fails (C98);
* the cyclic clay curves fall, so the kernel interpolates m-t springs over resistances in disorder, for which `np.interp` promises nothing; this is harmless only because the rotational springs of a clay do not depend on the resistance (C133);
* rotational springs whose moments grow with the lateral resistance (API sand, PISA sand) have no stiffness at zero displacement, so the first pass of an analysis is not an elastic lower bound (C134);
* the PISA conic takes the ultimate value within an absolute 0.01 of the ultimate abscissa; the normalised ultimate rotation of Dunkirk sand is about 0.015, so from 38 % of it on the moment is already ultimate and the spring is more than 2.6 times stiffer than its initial stiffness (C135);
* moment springs without lateral springs are accepted by the constructor, and no analysis of such a model succeeds (C107);
* a model loaded only by moments cannot be plotted, prescribed displacements are not drawn, layer names fall outside the plot of a model (C111);
* a beam analysis of a model with soil includes the base springs, so reactions do not balance the loads (C114);
* the tangent of the iteration is a difference over 0.5 mm or over the whole displacement if smaller, so with springs that yield earlier it is the secant, and a problem with one state of rest can run out of its 100 passes (C132);
* with springs along the shaft the loads do not determine the displacements (C116), and the soil can carry more than its ultimate resistance (C117);
* a pile with moment springs is stiffer when pushed one way than the other (C120), and results depend on the unit of length (C119);
* curves with numbers in fixed units: subgrade moduli of API sand, friction and bearing limits, sand t-z displacements, the residual of Kraft, the stress used at the surface in clay, and the exponent 1.333 of weak rock (C121, C122);
* assigning to a field of a model is accepted and half followed: nodes and elements are cached at different times, so they may belong to different meshes and loads act elsewhere (C123); springs are those of the construction, whatever soil is assigned or spring switched on (C124);
* the modified Matlock p-y curve is sampled at random displacements on its rise, so two analyses of the same input differ (C126);
* cyclic clay curves lose residual resistance when the clay gets stronger, and the subgrade modulus derived from the friction angle falls as the angle grows below 26 degrees (C128);
* at one rotation, Dunkirk sand under more vertical stress can give less than half of the moment, because the moment curve jumps to its ultimate value 0.01 before the ultimate rotation, which is itself about 0.015 (C128);
* the weak rock curve steps down by up to half a percent where its elastic line ends, so a rock is not even outdone by itself (C128);
* the moment that API sand returns at one lateral resistance falls as the stress grows once the shaft friction is at its limit: it follows the mobilised share, so four times the stress leaves at most 0.3 of the moment (C128);
* the tolerance for finding the node of a load grows with the elevation (relative part of `np.isclose`), so a load 1.5 mm above the pile head is dropped at elevation 0 and applied at elevation 100; the check of the layers and the rounding of nodes depend on the datum as well (C130);
* halving the coarseness does not keep the nodes of the mesh, so results of the two meshes are not at common elevations (C137);
* an analysis that ran out of passes reports max_iter + 1 passes under `converged @ iter no.`; a negative max_iter raises `UnboundLocalError`; below 5 kN the shown error and tolerance are both zero (C136);
* accepted soil models that cannot give curves, or that print another model's name (C88, C90).
