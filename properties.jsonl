{"id": "C01", "title": "Setter calls are last-write-wins per axis", "statement": "After any sequence of set_pointload / set_pointdisplacement / set_support calls on a model without boundary conditions, the value held for a given kind, elevation and axis is the value of the last call that gave a non-None value for that kind, elevation and axis, and is None if there was no such call.", "quantifier": "every finite sequence of setter calls with any elevations, axes and values", "why_tests_cant": "The set of call histories is infinite; tests exercise one or two calls.", "anchors": ["src/openpile/construct.py:Model._update_bc", "src/openpile/construct.py:Model.set_pointload", "src/openpile/construct.py:Model.set_pointdisplacement", "src/openpile/construct.py:Model.set_support"]}
{"id": "C02", "title": "Setter calls do not disturb other boundary conditions", "statement": "A setter call changes only the boundary condition of its own kind at its own elevation: every boundary condition of another kind or at another elevation is left as it was, in the same order.", "quantifier": "every list of boundary conditions already present and every setter call", "why_tests_cant": "Ranges over all prior states, including ones supplied by the user at construction.", "anchors": ["src/openpile/construct.py:Model._update_bc"]}
{"id": "C03", "title": "Setter histories never produce a conflicting model", "statement": "Starting from a model without boundary conditions, no sequence of setter calls leads to the 'Multiple boundary conditions' error when the force, displacement or support table is read, and there is never more than one boundary condition of a kind at an elevation.", "quantifier": "every finite sequence of setter calls", "why_tests_cant": "Invariant over unbounded histories.", "anchors": ["src/openpile/construct.py:Model._update_bc", "src/openpile/core/_model_build.py:validate_bc"]}
{"id": "C04", "title": "Conflicting boundary conditions are rejected exactly when they disagree", "statement": "Reading the table of a kind raises the duplicate error if and only if two boundary conditions of that kind at the same elevation hold different values (None counts as a value) along one axis.", "quantifier": "every list of boundary conditions", "why_tests_cant": "The check works on sets of pairs per axis; its exact domain ranges over all lists.", "anchors": ["src/openpile/core/_model_build.py:validate_bc", "src/openpile/construct.py:Model.global_forces", "src/openpile/construct.py:Model.global_disp", "src/openpile/construct.py:Model.global_restrained"]}
{"id": "C05", "title": "A boundary condition lands on the node at its elevation and nowhere else", "statement": "Reading a table puts the value of each applicable boundary condition on the first node within tolerance of its elevation, every node not within tolerance of any boundary condition of that kind stays zero / False, and a boundary condition matching no node has no effect.", "quantifier": "every node list and every list of boundary conditions", "why_tests_cant": "Ranges over all meshes and lists.", "anchors": ["src/openpile/core/_model_build.py:apply_bc"]}
{"id": "C06", "title": "The load applied to the model is the load given by the user", "statement": "For a load given at a node elevation the nodal force table holds exactly the given value.", "quantifier": "every real load value", "why_tests_cant": "Holds or fails depending on the numeric value (integer versus fractional); tests use a few round numbers.", "anchors": ["src/openpile/construct.py:Model.global_forces", "src/openpile/core/_model_build.py:apply_bc"]}
{"id": "C07", "title": "A prescribed displacement is enforced by the analysis", "statement": "If the user prescribes a displacement along an axis at a node, the analysis returns that displacement at that node.", "quantifier": "every prescribed value, stiffness matrix, load vector and other supports", "why_tests_cant": "Ranges over all values, including zero, and all systems.", "anchors": ["src/openpile/construct.py:Model.set_pointdisplacement", "src/openpile/core/_model_build.py:apply_bc", "src/openpile/winkler.py:beam", "src/openpile/core/kernel.py:solve_equations"]}
{"id": "C08", "title": "Models do not share boundary conditions", "statement": "A setter call on one model does not change the boundary conditions of another model.", "quantifier": "every pair of models and every sequence of setter calls on either", "why_tests_cant": "Aliasing depends on how the models were built and on the interleaving of calls.", "anchors": ["src/openpile/construct.py:Model._update_bc", "src/openpile/construct.py:Model"]}
{"id": "C09", "title": "A pile is accepted exactly when its sections tile an interval", "statement": "A pile is accepted iff it has at least one section and its sections, ordered from the top, meet exactly; then the sections cover the interval from top to bottom elevation without gap or overlap.", "quantifier": "every list of valid sections in any order", "why_tests_cant": "Any number of sections in any order.", "anchors": ["src/openpile/construct.py:Pile.sections_must_be_provided", "src/openpile/construct.py:Pile.sections_must_not_overlap"]}
{"id": "C10", "title": "Pile construction does not depend on the order of the sections", "statement": "Two piles built from the same sections in different orders are both accepted or both rejected and have the same sections, elevations, length, volume, weight and tip properties.", "quantifier": "every permutation of every list of valid sections", "why_tests_cant": "Factorially many orders of unboundedly many sections.", "anchors": ["src/openpile/construct.py:Pile"]}
{"id": "C11", "title": "Pile length, volume and weight are the sums over sections", "statement": "For an accepted pile the length (top minus bottom) equals the sum of the section lengths, the volume is the sum of area times length, and weight is volume times unit weight; all are positive.", "quantifier": "every accepted pile", "why_tests_cant": "Any number of sections.", "anchors": ["src/openpile/construct.py:Pile.length", "src/openpile/construct.py:Pile.volume", "src/openpile/construct.py:Pile.weight", "src/openpile/construct.py:Pile.inner_volume"]}
{"id": "C12", "title": "Circular sections are geometrically consistent", "statement": "For a circular section accepted by the constructor, steel area plus entrapped area equals the footprint, steel and entrapped areas, inner perimeter and second moment of area are non-negative, and a section without thickness is solid.", "quantifier": "every accepted section", "why_tests_cant": "Real-valued diameters and thicknesses, including thickness above the radius.", "anchors": ["src/openpile/construct.py:CircularPileSection"]}
{"id": "C13", "title": "A soil profile is accepted exactly when its layers stack from the ground down", "statement": "A soil profile is accepted iff the uppermost layer starts at the ground elevation and each next layer starts within 1 mm (or relative 1e-9) of the bottom of the layer above, independently of the order in which the layers are given.", "quantifier": "every list of layers", "why_tests_cant": "Any number and order of layers.", "anchors": ["src/openpile/construct.py:SoilProfile.check_layers_elevations"]}
{"id": "C14", "title": "The bottom elevation of a soil profile is the bottom of its lowest layer", "statement": "bottom_elevation equals the bottom of the lowest layer; with layers that only meet within tolerance it differs by at most the sum of the gaps.", "quantifier": "every accepted soil profile", "why_tests_cant": "Drift accumulates with the number of layers.", "anchors": ["src/openpile/construct.py:SoilProfile.bottom_elevation"]}
{"id": "C15", "title": "The mesh contains every requested elevation, once, from top to bottom", "statement": "The unrounded mesh is strictly descending and contains every section elevation, every soil layer elevation not below the pile tip and every x2mesh elevation.", "quantifier": "every pile, soil profile, x2mesh list and coarseness", "why_tests_cant": "Unbounded inputs.", "anchors": ["src/openpile/core/_model_build.py:get_coordinates"]}
{"id": "C16", "title": "No element is longer than the coarseness", "statement": "Two consecutive nodes are never further apart than the coarseness (plus the 1e-4 of the final rounding).", "quantifier": "every pile, soil profile, x2mesh list and coarseness >= 0.01", "why_tests_cant": "Unbounded subdivision loop.", "anchors": ["src/openpile/core/_model_build.py:get_coordinates"]}
{"id": "C17", "title": "Elements tile the mesh and have positive length", "statement": "Element i spans from node i to node i+1, the element lengths sum to the height of the mesh, and every element has positive length.", "quantifier": "every mesh", "why_tests_cant": "Rounding to 4 decimals may merge nodes; depends on the input values.", "anchors": ["src/openpile/core/_model_build.py:get_coordinates", "src/openpile/core/kernel.py:mesh_to_element_length"]}
{"id": "C18", "title": "The mesh covers the pile and only the pile", "statement": "The first node is at the pile top and the last node at the pile bottom.", "quantifier": "every pile, soil profile and x2mesh list", "why_tests_cant": "Depends on soil above the pile head and on x2mesh outside the pile.", "anchors": ["src/openpile/core/_model_build.py:get_coordinates"]}
{"id": "C19", "title": "Each element carries the properties of the pile section it lies in", "statement": "Width, area, second moment of area and perimeter of an element are those of the section containing the element.", "quantifier": "every accepted pile and mesh", "why_tests_cant": "Depends on every section boundary; the tests only use piles of constant section.", "anchors": ["src/openpile/construct.py:Model.element_properties", "src/openpile/construct.py:Pile.data"]}
{"id": "C20", "title": "Vertical effective stress is an overburden integral", "statement": "The effective stress is zero at ground level, continuous from element to element, grows by unit weight (minus 10 below water) times element length and never decreases with depth.", "quantifier": "every layered profile, water line and mesh", "why_tests_cant": "Unbounded number of elements and layers.", "anchors": ["src/openpile/core/_model_build.py:get_soil_properties"]}
{"id": "C21", "title": "Each parameter is mapped to the element inside its layer or section", "statement": "An element inside exactly one object gets that object's value; an element inside no object gets NaN; the total pile volume over the elements equals the pile volume.", "quantifier": "every list of objects and elements", "why_tests_cant": "Unbounded lists; rounding can push elements out of every section.", "anchors": ["src/openpile/core/_model_build.py:parameter2elements", "src/openpile/construct.py:Model.effective_pile_weight", "src/openpile/construct.py:Model.entrapped_soil_weight"]}
{"id": "C22", "title": "Effective tip stress integrates all layers above the tip", "statement": "The effective stress at the tip is the integral of the buoyant / total unit weight over all layers above the tip.", "quantifier": "every layer list, tip and water elevation", "why_tests_cant": "Unbounded number of layers.", "anchors": ["src/openpile/core/_model_build.py:get_tip_sig_v_eff"]}
{"id": "C23", "title": "Beam element stiffness is symmetric, rigid-body free and positive semi-definite", "statement": "For both element types the 6x6 element matrix is symmetric, gives no force under rigid translation and rotation, its nodal forces are in equilibrium and its strain energy is never negative.", "quantifier": "every E, nu, section and element length in the accepted range", "why_tests_cant": "Continuous parameter space.", "anchors": ["src/openpile/core/kernel.py:elem_mechanical_stiffness_matrix"]}
{"id": "C24", "title": "Euler-Bernoulli is the rigid-shear limit and Timoshenko is never stiffer", "statement": "With zero shear flexibility the Timoshenko matrix is the Euler-Bernoulli one; the Timoshenko energy is never larger; the shear coefficient of every tube is positive.", "quantifier": "every section, material, length and nodal displacement", "why_tests_cant": "Continuous parameter space.", "anchors": ["src/openpile/core/kernel.py:elem_mechanical_stiffness_matrix", "src/openpile/materials.py"]}
{"id": "C25", "title": "Lateral soil element stiffness is the consistent matrix of a linearly varying spring", "statement": "The p-y element matrix equals the integral of the shape functions times the linearly varying soil stiffness, is symmetric and positive semi-definite, and reacts to a rigid translation with the total L(k_top+k_bottom)/2.", "quantifier": "every element length and non-negative end stiffnesses", "why_tests_cant": "Continuous parameter space.", "anchors": ["src/openpile/core/kernel.py:elem_py_stiffness_matrix"]}
{"id": "C26", "title": "Axial soil element stiffness is the consistent matrix of a linearly varying spring", "statement": "Same as for the lateral matrix with linear shape functions.", "quantifier": "every element length and end stiffnesses", "why_tests_cant": "Continuous parameter space.", "anchors": ["src/openpile/core/kernel.py:elem_tz_stiffness_matrix"]}
{"id": "C27", "title": "Rotational soil element stiffness is consistent", "statement": "The m-t element matrix is symmetric, gives no reaction to a rigid translation and reacts to a unit rigid rotation with a total moment of spring stiffness times element length, for both element types.", "quantifier": "every section, element length and spring stiffness", "why_tests_cant": "Continuous parameter space; the Timoshenko branch reuses a variable name.", "anchors": ["src/openpile/core/kernel.py:elem_mt_stiffness_matrix"]}
{"id": "C28", "title": "The global stiffness matrix is the sum of the element matrices", "statement": "The assembled matrix is symmetric, its energy is the sum of the element energies, rigid motions of a free pile produce no forces, and adding base springs only changes the tip diagonal.", "quantifier": "every number of elements and every element matrices", "why_tests_cant": "Unbounded number of elements.", "anchors": ["src/openpile/core/kernel.py:jit_build", "src/openpile/core/kernel.py:build_stiffness_matrix"]}
{"id": "C29", "title": "Solved systems are in equilibrium and respect the supports", "statement": "The returned displacements satisfy K U = F + Q with Q zero at every free degree of freedom and U equal to the prescribed value at every restrained one.", "quantifier": "every stiffness matrix, load vector, prescribed displacement and support pattern for which the solver returns", "why_tests_cant": "Any system size and support pattern.", "anchors": ["src/openpile/core/kernel.py:solve_equations", "src/openpile/core/kernel.py:numba_ix"]}
{"id": "C30", "title": "Linear analyses superpose", "statement": "The results of a beam analysis are linear in the loads and prescribed displacements (for fixed supports), and unique when the reduced matrix is non-singular.", "quantifier": "every pair of load cases", "why_tests_cant": "Continuous, any size.", "anchors": ["src/openpile/core/kernel.py:solve_equations", "src/openpile/winkler.py:beam"]}
{"id": "C31", "title": "Internal forces balance the applied loads node by node", "statement": "The element end forces obtained from the solution add up, at each node, to the applied force plus reaction; the reported N, V, M tables follow the sign convention and element equilibrium.", "quantifier": "every number of elements, loads and supports", "why_tests_cant": "Any mesh and load.", "anchors": ["src/openpile/core/kernel.py:pile_internal_forces", "src/openpile/winkler.py:structural_forces_to_df"]}
{"id": "C32", "title": "Each soil spring sees the displacement of its own node", "statement": "The displacement used for the spring at the top / bottom of element i is the displacement of node i / i+1, and the mobilisation table reports the node's elevation.", "quantifier": "every mesh with at least two nodes", "why_tests_cant": "Index arithmetic for every length.", "anchors": ["src/openpile/core/kernel.py:double_inner_njit", "src/openpile/core/misc.py:repeat_inner", "src/openpile/winkler.py:springs_mob_to_df"]}
{"id": "C33", "title": "The secant spring stiffness reproduces the spring curve", "statement": "For a spring with a monotone curve, secant stiffness times displacement is the curve value at that displacement (the last value beyond the end), hence never above the capacity; stiffness is never negative.", "quantifier": "every spring curve and displacement", "why_tests_cant": "Continuous; any curve.", "anchors": ["src/openpile/core/kernel.py:calculate_base_spring_stiffness", "src/openpile/core/kernel.py:calculate_py_springs_stiffness"]}
{"id": "C34", "title": "Axial springs act on the correct side", "statement": "For t-z and q-z springs, the secant stiffness times the signed displacement gives the curve value on that side, compression and tension each using their own branch.", "quantifier": "every 15-point axial spring and displacement", "why_tests_cant": "Continuous.", "anchors": ["src/openpile/core/kernel.py:calculate_tz_springs_stiffness", "src/openpile/core/kernel.py:calculate_base_axial_spring_stiffness"]}
{"id": "C35", "title": "The Winkler iteration terminates and reports honestly", "statement": "The analysis performs at most max_iter+1 solves; a reported result is either flagged NaN or satisfies the residual tolerance on all free degrees of freedom.", "quantifier": "every model, every max_iter", "why_tests_cant": "Loop behaviour over all models and iteration limits.", "anchors": ["src/openpile/winkler.py:winkler"]}
{"id": "C36", "title": "Prescribed displacements survive the Winkler iteration", "statement": "At every iteration the displacement at a restrained degree of freedom equals the prescribed value.", "quantifier": "every model, every number of iterations", "why_tests_cant": "Invariant of an unbounded loop.", "anchors": ["src/openpile/winkler.py:winkler"]}
{"id": "C37", "title": "An unloaded pile converges to zero displacement", "statement": "A model without loads and prescribed displacements is solved with zero displacements and is not reported as failed.", "quantifier": "every model with no load", "why_tests_cant": "Ranges over all models.", "anchors": ["src/openpile/winkler.py:winkler"]}
{"id": "C38", "title": "Reading springs does not change the model", "statement": "Calling get_distributed_lateral_springs or get_distributed_axial_springs returns the same table each time and leaves the springs used by the analysis unchanged.", "quantifier": "every model and every number of calls", "why_tests_cant": "History property.", "anchors": ["src/openpile/core/misc.py:get_distributed_soil_springs", "src/openpile/core/misc.py:get_lumped_soil_springs", "src/openpile/construct.py:Model.get_distributed_lateral_springs"]}
{"id": "C39", "title": "Lumped springs preserve the total resistance", "statement": "The sum over nodes of the lumped spring resistance equals the integral of the distributed resistance along the pile.", "quantifier": "every mesh and spring set", "why_tests_cant": "Any mesh.", "anchors": ["src/openpile/core/misc.py:get_lumped_soil_springs"]}
{"id": "C40", "title": "Reported base mobilisation is relative to the base resistance", "statement": "The maximum reported for the base shear / base moment spring is the largest resistance of the spring, and the mobilised value never exceeds it.", "quantifier": "every base spring and displacement", "why_tests_cant": "Depends on the relative size of displacement and resistance values.", "anchors": ["src/openpile/winkler.py:winkler", "src/openpile/core/kernel.py:calculate_base_spring_stiffness"]}
{"id": "C41", "title": "The reaction table lists every reaction above the threshold and nothing else", "statement": "A node is listed iff one of its reactions exceeds 1e-3 in absolute value; listed values are the reactions with those below 1e-3 replaced by zero; order is kept.", "quantifier": "every reaction vector", "why_tests_cant": "Any number of nodes.", "anchors": ["src/openpile/winkler.py:reaction_forces_to_df"]}
{"id": "C42", "title": "The conic curve is a valid soil reaction curve", "statement": "The normalised PISA conic passes through the origin, reaches y_u at x_u, is non-decreasing, stays between the chord and y_u, and stays at y_u beyond x_u.", "quantifier": "every x_u>0, y_u>0, k, 0<=n<1 and output length", "why_tests_cant": "Continuous parameters; tests use calibrated sets only.", "anchors": ["src/openpile/core/misc.py:conic"]}
{"id": "C43", "title": "PISA curves scale the conic", "statement": "Every PISA p-y, m-t, Hb and Mb curve starts at zero, is non-decreasing and ends at its documented ultimate value whenever the normalised parameters are in range.", "quantifier": "every depth, diameter, length, strength and stiffness in range", "why_tests_cant": "Continuous.", "anchors": ["src/openpile/utils/py_curves.py:dunkirk_sand", "src/openpile/utils/py_curves.py:cowden_clay", "src/openpile/utils/py_curves.py:bothkennar_clay", "src/openpile/utils/mt_curves.py:dunkirk_sand", "src/openpile/utils/Hb_curves.py", "src/openpile/utils/Mb_curves.py"]}
{"id": "C44", "title": "PISA hooks reproduce the PISA models", "statement": "A custom PISA model fed with the depth-variation hooks gives the same curve as the built-in model whenever the safety clamps are inactive.", "quantifier": "every depth, diameter, length and density", "why_tests_cant": "Continuous.", "anchors": ["src/openpile/utils/hooks.py:PISA_depth_variation", "src/openpile/utils/py_curves.py:custom_pisa_sand", "src/openpile/utils/py_curves.py:custom_pisa_clay"]}
{"id": "C45", "title": "API sand p-y curve is bounded, monotone and mobilises the ultimate resistance", "statement": "The curve starts at zero, is non-decreasing, never exceeds A*Pmax and its last point is at least 99.9 % of A*Pmax for depths of 0.1 m and more when the extent is automatic.", "quantifier": "every friction angle, stress, depth, diameter, kind, k and output length", "why_tests_cant": "Continuous and transcendental.", "anchors": ["src/openpile/utils/py_curves.py:api_sand"]}
{"id": "C46", "title": "API clay p-y curve is bounded and stays within the requested extent", "statement": "The curve starts at zero, displacements are sorted and do not exceed the requested extent, static resistance is non-decreasing and never exceeds Pmax, cyclic resistance never exceeds 0.7185 Pmax on the power branch end.", "quantifier": "every parameter set and every outcome of the random points", "why_tests_cant": "Random points: tests see one outcome.", "anchors": ["src/openpile/utils/py_curves.py:api_clay", "src/openpile/utils/py_curves.py:matlock_1970", "src/openpile/utils/py_curves.py:modified_Matlock"]}
{"id": "C47", "title": "Reese weak rock curve is bounded and monotone", "statement": "The curve starts at zero, is non-decreasing, never exceeds Pmax and reaches Pmax at 16 times the reference displacement; its length is the requested one.", "quantifier": "every parameter set", "why_tests_cant": "Continuous.", "anchors": ["src/openpile/utils/py_curves.py:reese_weakrock"]}
{"id": "C48", "title": "API t-z curves have the requested length and both branches", "statement": "Compression and tension branches reach the maximum friction (times the tension factor), tails keep the residual, abscissae are sorted.", "quantifier": "every residual, tensile factor and output length, every random draw", "why_tests_cant": "Random points and any output length.", "anchors": ["src/openpile/utils/tz_curves.py:backbone_api_clay", "src/openpile/utils/tz_curves.py:backbone_api_sand", "src/openpile/utils/tz_curves.py:kraft_modification"]}
{"id": "C49", "title": "API q-z curves only resist compression", "statement": "Tip resistance is zero in tension, non-decreasing in compression and reaches the full end bearing at 10 % of the diameter.", "quantifier": "every diameter, capacity and output length, every random draw", "why_tests_cant": "Random points.", "anchors": ["src/openpile/utils/qz_curves.py:_backbone_api", "src/openpile/utils/qz_curves.py:api_clay", "src/openpile/utils/qz_curves.py:api_sand"]}
{"id": "C50", "title": "Unit friction and end bearing respect their limits", "statement": "API unit shaft friction and end bearing are non-negative, non-decreasing in strength / stress and never exceed the tabulated limits (alpha limit, limiting values).", "quantifier": "every soil parameter set", "why_tests_cant": "Continuous.", "anchors": ["src/openpile/utils/misc.py:_fmax_api_clay", "src/openpile/utils/misc.py:_fmax_api_sand", "src/openpile/utils/misc.py:_Qmax_api_clay", "src/openpile/utils/misc.py:_Qmax_api_sand"]}
{"id": "C51", "title": "Axial models honour the user's limits and plugging choice", "statement": "The peak of the t-z curve of API_clay_axial is the unit friction with the user's alpha limit times the mobilised perimeter; in tension and compression the mobilised perimeter follows the plugging option.", "quantifier": "every axial model and pile perimeters", "why_tests_cant": "Depends on the combination of options and values.", "anchors": ["src/openpile/soilmodels.py:API_clay_axial", "src/openpile/soilmodels.py:API_sand_axial"]}
{"id": "C52", "title": "D\u00fchrkop multipliers bridge cyclic and static API sand", "statement": "The multiplier is at least 1, non-decreasing in ra, the normalized variant is its inverse and at ra=0.3 cyclic curves are unchanged.", "quantifier": "every diameter, depth and ra", "why_tests_cant": "Continuous.", "anchors": ["src/openpile/utils/hooks.py:durkhop", "src/openpile/utils/hooks.py:durkhop_normalized"]}
{"id": "C53", "title": "Layer parameters are interpolated between top and bottom", "statement": "A parameter given as [top, bottom] takes the top value at the layer top, the bottom value at the layer bottom and stays between them inside the layer; a scalar is constant; a callable is evaluated at the depth.", "quantifier": "every parameter value and depth within the layer", "why_tests_cant": "Continuous.", "anchors": ["src/openpile/core/misc.py:get_value_at_current_depth", "src/openpile/core/misc.py:from_list2x_parse_top_bottom"]}
{"id": "C54", "title": "Boundary condition check accepts exactly the solvable load and support combinations", "statement": "check_boundary_conditions accepts a model iff it has a load, no soil, axial support whenever axially loaded and at least two lateral restraints whenever laterally loaded.", "quantifier": "every restraint and load pattern", "why_tests_cant": "All patterns of any length.", "anchors": ["src/openpile/core/validation.py:check_boundary_conditions"]}
{"id": "C55", "title": "A model is accepted exactly when the mesh and the profile allow it", "statement": "Model construction is accepted iff the pile is at least five times the coarseness long and does not end below the soil profile.", "quantifier": "every pile, soil profile and coarseness", "why_tests_cant": "Continuous.", "anchors": ["src/openpile/construct.py:Model.max_coarseness", "src/openpile/construct.py:Model.soil_and_pile_bottom_elevation_match"]}
{"id": "C56", "title": "A setter call keeps a valid model valid", "statement": "If the boundary conditions of a model pass the duplicate check, they still pass it after any setter call.", "quantifier": "every list of boundary conditions accepted by the check, every setter call", "why_tests_cant": "Ranges over all user-supplied lists, including redundant equal entries that the check accepts.", "anchors": ["src/openpile/construct.py:Model._update_bc", "src/openpile/core/_model_build.py:validate_bc"]}
{"id": "C57", "title": "A boundary condition at a requested elevation is applied, at its own node", "statement": "A boundary condition given at a section end, a layer end not below the tip or an x2mesh elevation is applied to a node, and to the node of that elevation.", "quantifier": "every pile, soil profile, x2mesh list, coarseness and requested elevation", "why_tests_cant": "Depends on rounding and on the tolerance of the search relative to the node spacing.", "anchors": ["src/openpile/core/_model_build.py:get_coordinates", "src/openpile/core/_model_build.py:apply_bc"]}
{"id": "C58", "title": "Shaft resistance is the trapezoidal integral of the extreme unit friction", "statement": "The compression and tension capacities returned by Model.shaft_resistance equal the trapezoidal integral of the extreme t-z resistance over the element heights.", "quantifier": "all meshes (strictly descending node elevations, any length) and all extreme friction values at the two ends of every element", "why_tests_cant": "The nodal influence lengths come from numpy.gradient over node indices, which is right for some meshes and friction fields and wrong for others; samples on uniform meshes never show the difference.", "anchors": ["src/openpile/construct.py:Model.shaft_resistance"]}
{"id": "C59", "title": "Shear compliance of a Timoshenko element is 1/(k A G)", "statement": "The tip deflection of a Timoshenko element due to shear is P L / (k A G) where k is the shear coefficient of the tube.", "quantifier": "every tube, material and element length", "why_tests_cant": "Continuous parameter space; the error scales with slenderness and is invisible for slender elements.", "anchors": ["src/openpile/core/kernel.py:elem_mechanical_stiffness_matrix"]}
{"id": "C60", "title": "A beam analysis succeeds exactly when the supports prevent rigid motion", "statement": "For a pile of beam elements the linear analysis returns a result iff at least one axial degree of freedom is supported and either one lateral and one rotational or two different lateral degrees of freedom are supported (a non-zero prescribed displacement counts as a support).", "quantifier": "every mesh, loads, prescribed displacements and support pattern", "why_tests_cant": "All support patterns on meshes of any size.", "anchors": ["src/openpile/winkler.py:beam", "src/openpile/core/kernel.py:solve_equations"]}
{"id": "C61", "title": "The pile responds alike in both lateral directions", "statement": "Reversing the lateral displacements and rotations of the pile leaves the stiffness of the pile-soil system unchanged.", "quantifier": "every model, displacement field and kind of stiffness", "why_tests_cant": "Tests load the pile in one direction; the property compares every field with its mirror image.", "anchors": ["src/openpile/core/kernel.py:build_stiffness_matrix", "src/openpile/core/kernel.py:elem_mt_stiffness_matrix", "src/openpile/core/kernel.py:calculate_mt_springs_stiffness"]}
{"id": "C62", "title": "The pile-soil stiffness matrix is a sum of physical parts and solvable", "statement": "The assembled matrix does exactly the virtual work of beam elements, shaft springs and base springs; it is symmetric, never releases energy, and its linear system has a solution whenever a lateral spring is active and the pile is held axially by a support or a spring.", "quantifier": "every mesh, every spring curve, every displacement field, every set of supports", "why_tests_cant": "Ranges over all models and all displacement fields.", "anchors": ["src/openpile/core/kernel.py:build_stiffness_matrix", "src/openpile/core/kernel.py:solve_equations"]}
{"id": "C63", "title": "Convergence tolerance relative to loads and reactions", "statement": "The tolerance of the pile-soil analysis is 1e-4 times the norm of the loads and support reactions together, whatever the number of passes. Refuted: the reactions enter with the opposite sign and are accumulated from pass to pass, so for an imposed head displacement in the linear range the tolerance is twice as large.", "quantifier": "all models, loads, prescribed displacements, supports and linear solvers", "why_tests_cant": "Tests compare displacements of a few converged runs; the size of the tolerance only shows in the rounded details.", "anchors": ["src/openpile/winkler.py:winkler"]}
{"id": "C64", "title": "Every spring table can be read", "statement": "The getters of axial, lateral and rotational springs return a table for every documented layout. Refuted: the rotational getter with the distributed layout calls a function that does not exist and raises AttributeError.", "quantifier": "every mesh, spring state and sequence of getter calls", "why_tests_cant": "Ranges over every sequence of calls on every mesh; the repository's tests never read the rotational table.", "anchors": ["src/openpile/construct.py:Model.get_distributed_rotational_springs", "src/openpile/core/misc.py:get_distributed_soil_springs", "src/openpile/core/misc.py:get_lumped_soil_springs"]}
{"id": "C65", "title": "Shaft springs come from the layer of their element", "statement": "Every element above the ground has no springs; every other element lies in exactly one layer and its p-y, m-t and t-z springs are that layer's curves evaluated at the stress, depth, depth within the layer, width and perimeter of its own end. Refuted when elevations have more than four decimals: an element in the ground may get no springs.", "quantifier": "every accepted pile, layered soil in any order, mesh coarseness, extra mesh points and spring functions", "why_tests_cant": "Tests look at few models and at the final response; one element with the springs of a neighbouring layer hardly shows.", "anchors": ["src/openpile/construct.py:Model.create_springs", "src/openpile/core/_model_build.py:get_soil_properties"]}
{"id": "C66", "title": "Base springs come from the layer at the tip and use the tip depth", "statement": "The base shear, base moment and end bearing springs are the curves of the layer that holds the lowest element, for the stress, width and depth at the tip. Refuted for the depth: the base shear and base moment springs get the thickness of the soil profile instead.", "quantifier": "every accepted pile, layered soil in any order, mesh and spring functions", "why_tests_cant": "The wrong depth only shows when the profile is deeper than the pile and the curve depends on depth.", "anchors": ["src/openpile/construct.py:Model.create_springs"]}
{"id": "C67", "title": "Inside friction uses the inner perimeter", "statement": "The t-z springs get the outer and the inner perimeter of the element. Refuted: both arguments are the outer perimeter.", "quantifier": "every element, layer and node", "why_tests_cant": "Resistance stays plausible; only a comparison of arguments shows it.", "anchors": ["src/openpile/construct.py:Model.create_springs"]}
{"id": "C68", "title": "Every lateral model gives usable reaction curves throughout its layer", "statement": "For every lateral soil model with accepted parameters and every position in its layer, the p-y, base shear, moment-rotation and base moment functions return curves with the number of points asked for, from the origin, displacements in order, resistances not negative (and not decreasing, except cyclic clay and weak rock). Where the p-y curve of a sand has a missing value, the whole row of moments is missing. (False of the code for a curvature given as a function: its value is not checked, and a value such as -1 puts missing values into the p-y curve and its moments.)", "quantifier": "all nine lateral models, constant or linear parameters (or functions of depth in the custom models), all positions in the layer, diameters, lengths, stresses, multipliers not negative, random draws and numbers of points", "why_tests_cant": "Values of parameters inside the layer are interpolated: no sample of positions covers a linear profile.", "anchors": ["src/openpile/soilmodels.py:py_spring_fct", "src/openpile/soilmodels.py:Hb_spring_fct", "src/openpile/soilmodels.py:mt_spring_fct", "src/openpile/soilmodels.py:Mb_spring_fct"]}
{"id": "C69", "title": "A multiplier scales its own curve and nothing else", "statement": "Setting p and y multipliers multiplies the resistances and displacements of the p-y curve by their values at the depth below ground, point by point, whatever the outcome; the same for m and t multipliers on every m-t row. Base springs and the spring types of the model do not change, m and t multipliers leave the p-y curve alone, p and y multipliers leave the PISA m-t curves alone.", "quantifier": "every model, position, number or function multipliers, number of points, including failing calls", "why_tests_cant": "A statement relating two runs for all multipliers.", "anchors": ["src/openpile/soilmodels.py:p_multiplier", "src/openpile/soilmodels.py:y_multiplier", "src/openpile/soilmodels.py:m_multiplier", "src/openpile/soilmodels.py:t_multiplier"]}
{"id": "C70", "title": "A spring outside its layer is refused", "statement": "Every spring function raises ValueError for a position outside the layer. True below the bottom; refuted above the top, where parameters are extrapolated and can give a spring that pushes.", "quantifier": "every model and position", "why_tests_cant": "The missing check shows only for profiles that extrapolate below zero.", "anchors": ["src/openpile/soilmodels.py:py_spring_fct", "src/openpile/core/misc.py:from_list2x_parse_top_bottom"]}
{"id": "C71", "title": "Weak rock strength uses the depth below the rock surface", "statement": "The ultimate resistance of a weak rock spring is that of the Reese formula at the depth of the spring below the rock surface. True when the layer starts at ground level; refuted under overburden, whose thickness is counted as rock depth.", "quantifier": "every rock layer, overburden thickness, position and pile", "why_tests_cant": "Usual examples put the rock at ground level.", "anchors": ["src/openpile/soilmodels.py:Reese_weakrock.py_spring_fct"]}
{"id": "C72", "title": "A custom PISA layer fed with the hooks is the built-in layer", "statement": "A custom PISA clay (sand) layer whose sixteen parameters come from the Cowden (Dunkirk) hooks has the same p-y, base shear, m-t and base moment springs, results and errors included, as the built-in Cowden (Dunkirk) layer.", "quantifier": "all strengths and stiffnesses (constant or linear), densities, positions, piles in the documented range, multipliers, numbers of points", "why_tests_cant": "Equality of two programs over a continuous range.", "anchors": ["src/openpile/soilmodels.py:Custom_pisa_clay", "src/openpile/soilmodels.py:Custom_pisa_sand", "src/openpile/utils/hooks.py:PISA_depth_variation"]}
{"id": "C73", "title": "API m-t extension: shaft friction turned into a moment", "statement": "The moment-rotation rows of the API models start at the origin, do not decrease and stay below a right angle. In clay every row is fully mobilised at an edge displacement of 1% of the diameter, at pi/4 D^2 times the API unit friction. In sand the row of a point of the p-y curve is mobilised from an edge displacement of 25.4 mm at pi/4 D^2 times the unit friction times the share of the largest resistance.", "quantifier": "all layers, positions, piles, random draws, sort results and numbers of points from 15", "why_tests_cant": "Rows are built from random points and filtered by sign.", "anchors": ["src/openpile/soilmodels.py:API_clay.mt_spring_fct", "src/openpile/soilmodels.py:API_sand.mt_spring_fct", "src/openpile/soilmodels.py:Modified_Matlock_clay.mt_spring_fct"]}
{"id": "C74", "title": "Sand without lateral resistance gives no distributed moment", "statement": "The distributed moment in sand comes from the lateral resistance, so a zero p-multiplier removes both. True for API sand; refuted for the Dunkirk sand, whose moments use the resistance before the multiplier.", "quantifier": "every sand layer, position, pile and number of points", "why_tests_cant": "Nobody tests zero multipliers on one spring and looks at the other.", "anchors": ["src/openpile/soilmodels.py:Dunkirk_sand.mt_spring_fct", "src/openpile/soilmodels.py:API_sand.mt_spring_fct"]}
{"id": "C75", "title": "Beam displacements are those of beam theory", "statement": "In every successful beam analysis the two ends of an element move relative to each other by the element's bending, shear and axial flexibility times the resultants of all loads and reactions above it. A pile of constant section held at its tip and loaded at its head therefore shows the textbook axial displacement, deflection and rotation at every node, whatever the mesh.", "quantifier": "every number of elements and element lengths, every section, load, support and prescribed displacement (closed form: head loads, tip held), every exact linear solver", "why_tests_cant": "Tests compare a few meshes of one pile with a tolerance; the claim is equality on every mesh.", "anchors": ["src/openpile/winkler.py:beam", "src/openpile/core/kernel.py:solve_equations", "src/openpile/core/kernel.py:elem_mechanical_stiffness_matrix", "src/openpile/core/kernel.py:build_stiffness_matrix"]}
{"id": "C76", "title": "Beam results do not depend on the mesh", "statement": "Adding nodes without load or support to the mesh of a beam analysis changes neither displacements nor reactions at the nodes that were there, and an analysis that succeeds on the coarse mesh succeeds on the finer one.", "quantifier": "every pile, loads, supports and prescribed displacements, every sequence of insertions of any length", "why_tests_cant": "There are infinitely many refinements; tests would compare two.", "anchors": ["src/openpile/winkler.py:beam", "src/openpile/core/kernel.py:elem_mechanical_stiffness_matrix", "src/openpile/core/kernel.py:jit_build", "src/openpile/construct.py:Model"]}
{"id": "C77", "title": "The soil carries the loads", "statement": "In the pile-soil analysis the sum of loads and reported reactions equals the soil resistance integrated along the pile plus the force of the base springs, axially, laterally and in moments about the pile head; distributed moment springs contribute to moments only. In the linear range this holds for the reported displacements themselves.", "quantifier": "every pile-soil model with positive element lengths, every set of springs, loads, supports and prescribed displacements, any number of elements, every exact linear solver", "why_tests_cant": "A lost or doubled element contribution shows only for particular meshes, layers and load directions; tests look at a few displacement values.", "anchors": ["src/openpile/winkler.py:winkler", "src/openpile/core/kernel.py:build_stiffness_matrix", "src/openpile/core/kernel.py:elem_py_stiffness_matrix", "src/openpile/core/kernel.py:elem_tz_stiffness_matrix", "src/openpile/core/kernel.py:elem_mt_stiffness_matrix", "src/openpile/core/kernel.py:solve_equations"]}
{"id": "C78", "title": "An accepted pile is solved exactly when it is held", "statement": "For every pile with stiffness whose elevations are given to four decimals, and every sequence of setter calls, the analysis without soil returns numbers exactly when the supports and non-zero prescribed displacements given by the user prevent every rigid-body motion; otherwise it raises LinAlgError. No other outcome occurs.", "quantifier": "every list of sections, every user elevation list and coarseness, every sequence of setter calls, both element types, every exact linear solver", "why_tests_cant": "The outcome depends on the combination of section boundaries, mesh, tolerance of the node search and supports; tests try a handful of combinations.", "anchors": ["src/openpile/construct.py:Model", "src/openpile/construct.py:Model.solve", "src/openpile/winkler.py:beam", "src/openpile/core/_model_build.py:apply_bc", "src/openpile/core/_model_build.py:parameter2elements", "src/openpile/core/kernel.py:mesh_to_global_force_dof_vector"]}
{"id": "C79", "title": "Reactions balance the loads the user gave", "statement": "The loads given through the setters and the reactions of the analysis are in equilibrium axially, laterally and in moments about any elevation; the reaction table reported balances the loads within its display threshold per node.", "quantifier": "every accepted pile and mesh, every list of whole-number loads at distinct nodes, every support and prescribed displacement", "why_tests_cant": "A load written to a wrong column, node or dof breaks equilibrium only for loads of that kind at that place.", "anchors": ["src/openpile/winkler.py:beam", "src/openpile/winkler.py:reaction_forces_to_df", "src/openpile/construct.py:Model.global_forces", "src/openpile/core/kernel.py:mesh_to_global_force_dof_vector"]}
{"id": "C80", "title": "The displacement table honours supports and prescribed displacements", "statement": "Row i of the displacement table is node i. A non-zero displacement the user prescribes at a node appears there along its axis, a supported axis without prescribed displacement shows zero, and an axis that is not supported has no reaction.", "quantifier": "every accepted pile and mesh, every valid list of boundary conditions, every node and axis", "why_tests_cant": "Tests look at a few nodes of a few models.", "anchors": ["src/openpile/winkler.py:disp_to_df", "src/openpile/winkler.py:beam", "src/openpile/construct.py:Model.global_disp", "src/openpile/construct.py:Model.global_restrained"]}
{"id": "C81", "title": "The order of boundary conditions does not matter", "statement": "Permuting boundary conditions that are mapped to different nodes leaves the whole result of the analysis unchanged.", "quantifier": "every list of boundary conditions at distinct nodes and every permutation, every pile, mesh and solver", "why_tests_cant": "The number of permutations grows factorially.", "anchors": ["src/openpile/core/_model_build.py:apply_bc", "src/openpile/core/_model_build.py:validate_bc", "src/openpile/winkler.py:beam"]}
{"id": "C82", "title": "Every accepted and held pile gives numbers", "statement": "A pile that the constructors accept and whose supports hold it gives numerical results (refuted: with a section boundary given to five decimals an element lies in no section, its stiffness is NaN and no numbers result; a pile with a section that is not circular raises ValueError in every analysis with Timoshenko elements).", "quantifier": "every accepted pile", "why_tests_cant": "Test piles have round elevations.", "anchors": ["src/openpile/core/_model_build.py:parameter2elements", "src/openpile/core/_model_build.py:get_coordinates", "src/openpile/core/kernel.py:elem_mechanical_stiffness_matrix"]}
{"id": "C83", "title": "The pile-soil analysis of a user's model balances the user's loads", "statement": "For every accepted pile on a mesh with soil layers and any sound springs, the mechanical part of the pile-soil system meets what the other theorems require, and the loads the user gave plus the reported reactions equal the soil resistance integrated along the pile plus the base springs.", "quantifier": "every accepted pile, soil profile, mesh, springs, whole-number loads at distinct nodes, supports, prescribed displacements, iteration limit from 99", "why_tests_cant": "Needs all combinations of layers, sections and loads.", "anchors": ["src/openpile/winkler.py:winkler", "src/openpile/core/kernel.py:build_stiffness_matrix", "src/openpile/core/_model_build.py:parameter2elements", "src/openpile/construct.py:Model"]}
{"id": "C84", "title": "Mobilisation table reports every spring at its own node", "statement": "springs_mob_to_df gives two rows per element; row 2e+j holds the elevation of node e+j, the lateral resistance of the p-y spring at that node's displacement and the moment of the m-t family at the node's rotation and mobilised lateral resistance, each between zero and the maximum of the row; the table exists for every displacement. False of the last row (it repeats the node above the tip), and moments that depend on lateral pressure are reported as zero wherever the pile moves in the negative direction.", "quantifier": "every pile-soil model, mesh, displacement vector, spring curve and moment family", "why_tests_cant": "A test looks at the rows of one analysis, usually loaded in the positive direction; the defects sit in the last row and on the negative side for every model.", "anchors": ["src/openpile/winkler.py:springs_mob_to_df", "src/openpile/core/kernel.py:double_inner_njit", "src/openpile/core/kernel.py:calculate_mt_springs_stiffness"]}
{"id": "C85", "title": "Numbers in a result mean equilibrium; a failed analysis looks failed", "statement": "When Model.solve of a pile-soil model returns a table with numbers, those displacements meet the prescribed values, are in equilibrium within the tolerance, and the reaction table belongs to them; displacement, force and mobilisation tables of a failed analysis hold NaN throughout. False: the reaction table of a failed analysis is empty and details() still reports 'converged @ iter no.' (e.g. for every stable model without load).", "quantifier": "every pile-soil model, boundary conditions and linear solver meeting its contract", "why_tests_cant": "Failed analyses are rare in test suites, and the reported values would have to be checked for every loading.", "anchors": ["src/openpile/winkler.py:winkler", "src/openpile/winkler.py:WinklerResult", "src/openpile/winkler.py:reaction_forces_to_df", "src/openpile/construct.py:Model.solve"]}
{"id": "C86", "title": "details() shows the extremes of the tables", "statement": "Every maximum and minimum in WinklerResult.details() is within half a unit of the last shown digit of the largest and smallest entry of its column.", "quantifier": "every model with or without soil whose analysis gave numbers", "why_tests_cant": "Extremes are over all rows of any mesh; a test checks one table.", "anchors": ["src/openpile/winkler.py:WinklerResult.details"]}
{"id": "C87", "title": "An analysis raises or returns a result", "statement": "Model.solve never returns None; mobilisation is present exactly when there is soil. False of winkler called on a model without soil: the warning is constructed but neither raised nor issued and None is returned.", "quantifier": "every model, boundary conditions and solver", "why_tests_cant": "A missing raise is only seen by a test for that very case.", "anchors": ["src/openpile/winkler.py:winkler", "src/openpile/winkler.py:beam", "src/openpile/construct.py:Model.solve"]}
{"id": "C88", "title": "Which soil models can be made, and what they promise", "statement": "A lateral soil model is accepted exactly when all its numbers are in their documented ranges (one number, or one or two for top and bottom); otherwise ValueError. The axial models likewise, and they keep the numbers they are given, top of the layer first. An accepted API, Matlock or weak rock model with plain multipliers gives reaction curves everywhere in its layer. A number and the list of it are the same model. Unknown keywords are rejected by strict classes and silently ignored by soil models. Refuted: the friction angle of sand is unlimited as a number (above 90 degrees the friction is negative), relative density is unlimited (200 gives full resistance at zero displacement and NaN), inside_friction changes nothing.", "quantifier": "all parameter values of all nine lateral models, all positions in a layer, all draws, all curve lengths, all keyword lists", "why_tests_cant": "The ranges are continuous and the failures are in corners nobody samples; a silently ignored keyword is only seen by comparing all keyword lists.", "anchors": ["src/openpile/soilmodels.py", "src/openpile/soilmodels.py:LateralModel", "src/openpile/soilmodels.py:AxialModel", "src/openpile/construct.py:AbstractPile", "src/openpile/construct.py:Layer"]}
{"id": "C89", "title": "The check of callable multipliers", "statement": "check_multipliers_in_lateral_model never rejects a profile for the values of its multipliers; it raises exactly when a callable raises at one of 100 depths from the top to the bottom of the layer before an unacceptable value ends the check, in the order p, y, m, t and layer by layer. Refuted: a callable giving a negative p-multiplier is accepted and turns every spring around.", "quantifier": "all profiles, all callables including partial ones, all layers", "why_tests_cant": "Callables are arbitrary functions; the missing raise is only visible if the claim is about every callable.", "anchors": ["src/openpile/construct.py:SoilProfile.check_multipliers_in_lateral_model"]}
{"id": "C90", "title": "Printed descriptions", "statement": "An accepted lateral model prints exactly when its modulus G0 is a single number or it prints none; a profile prints exactly when all its layers do. The text holds every shown number between its label and its unit, the modulus in MPa, and the layers of a profile in order. Refuted: PISA models with a modulus varying with depth raise TypeError when printed, Bothkennar clay prints as Cowden clay and the custom clay as the custom sand, axial models with callable multipliers raise ValueError.", "quantifier": "all accepted models, all profiles, all formatting functions", "why_tests_cant": "Printing is tested on single numbers; the failing forms of the same parameters are valid inputs elsewhere.", "anchors": ["src/openpile/soilmodels.py", "src/openpile/core/misc.py:var_to_str", "src/openpile/construct.py:Layer.__str__", "src/openpile/construct.py:SoilProfile.__str__"]}
{"id": "C91", "title": "An analysis depends only on the values in force", "statement": "In any program of setter calls, spring tables, capacity requests and analyses on one Model object, an analysis gives what a fresh model with the values last set would give, whatever the order of the calls, the values overwritten since and the analyses made before. Asking for an analysis, the shaft resistance or the tip resistance changes nothing, and a model without soil ignores requests for springs.", "quantifier": "all sequences of operations of any length on a model, all values, meshes, springs and linear solvers", "why_tests_cant": "Tests make one or two calls; independence of every history of operations cannot be sampled.", "anchors": ["src/openpile/construct.py:Model.solve", "src/openpile/construct.py:Model.set_pointload", "src/openpile/construct.py:Model.set_pointdisplacement", "src/openpile/construct.py:Model.set_support", "src/openpile/construct.py:Model.shaft_resistance", "src/openpile/construct.py:Model.tip_resistance", "src/openpile/winkler.py:winkler", "src/openpile/winkler.py:beam"]}
{"id": "C92", "title": "Reading spring tables does not change later answers (refuted)", "statement": "An analysis and the shaft resistance do not depend on the spring tables read before. Refuted: each table of axial or lateral springs multiplies the resistances of the model's springs by half the lengths of the elements at the node; all initial, secant and tangent stiffnesses change by that factor, moment springs do not. A second analysis after reading the lateral table moves the head more than half as much again, and the shaft resistance of a uniform pile of n elements of length h goes from n h f to (n - 1/2) h^2 f.", "quantifier": "all programs of operations, all meshes and spring curves; all uniform meshes of at least two elements for the shaft resistance", "why_tests_cant": "The state change is silent and shows only when a table is read between two analyses; its exact size for all meshes is a statement about all inputs.", "anchors": ["src/openpile/construct.py:Model.get_distributed_axial_springs", "src/openpile/construct.py:Model.get_distributed_lateral_springs", "src/openpile/construct.py:Model.solve", "src/openpile/construct.py:Model.shaft_resistance", "src/openpile/core/misc.py:get_distributed_soil_springs", "src/openpile/core/misc.py:get_lumped_soil_springs"]}
{"id": "C93", "title": "Materials are elastic and piles keep theirs", "statement": "A pile material is accepted exactly when its name has 1 to 20 characters, its unit weight and Young's modulus are positive and its Poisson ratio lies in (-1, 0.5]. Every refusal is a ValueError. The reported shear modulus satisfies E = 2G(1+nu), is positive and at least E/3. A pile given a material object uses it unchanged whatever its name; a pile given a name gets steel or concrete or is refused.", "quantifier": "all names, unit weights, moduli and Poisson ratios; all material arguments of a pile", "why_tests_cant": "The admissible materials form a continuum with three open ends.", "anchors": ["src/openpile/materials.py:PileMaterial", "src/openpile/construct.py:Pile.check_materials"]}
{"id": "C94", "title": "The section table describes the pile", "statement": "Reading Pile.data at any elevation of an accepted pile gives the width, area, second moment, entrapped area and perimeters of the section at that elevation and of no other. Integrating its area and entrapped-area columns gives the volume and inner volume of the pile. For circular sections these add up to the volume of the outline.", "quantifier": "all accepted piles of any number of sections, all elevations", "why_tests_cant": "Ranges over all section lists and all elevations, boundaries included.", "anchors": ["src/openpile/construct.py:Pile.data", "src/openpile/construct.py:Pile.volume", "src/openpile/construct.py:Pile.inner_volume"]}
{"id": "C95", "title": "Shape, printing and text report of a pile", "statement": "The shape is 'Circular' exactly when every section is circular, and 'Undefined' otherwise. Printing a pile never fails and lists the same elevations, widths, areas and second moments as Pile.data. The text report of a pile lists its data.", "quantifier": "all lists of sections of any kinds", "why_tests_cant": "Ranges over all mixtures of section kinds; the repository defines only circular sections, so tests never reach the other branch.", "anchors": ["src/openpile/construct.py:Pile.shape", "src/openpile/construct.py:Pile.__str__", "src/openpile/core/txt.py:txt_pile"]}
{"id": "C96", "title": "Suspicious springs are announced", "statement": "While a model is created, a message is printed for exactly those spring arrays that contain a NaN or a negative value. Lateral arrays are stored unchanged and axial arrays with the opposite sign.", "quantifier": "all contents of the six spring arrays", "why_tests_cant": "Ranges over every content of arrays of any size.", "anchors": ["src/openpile/core/_model_build.py:check_springs", "src/openpile/construct.py:Model.model_post_init"]}
{"id": "C97", "title": "Spring tables name the node they belong to", "statement": "The rows of distributed and lumped spring tables carry the number and elevation of their node. Base spring tables carry the spring's values, the elevation of the pile tip and the number of the node at the tip.", "quantifier": "all meshes of any size, all springs", "why_tests_cant": "Ranges over all mesh sizes.", "anchors": ["src/openpile/core/misc.py:get_distributed_soil_springs", "src/openpile/construct.py:Model.get_base_shear_spring"]}
{"id": "C98", "title": "Model.create makes the model that the constructor makes", "statement": "For the same arguments Model.create and Model(...) accept the same calls and give models with the same settings.", "quantifier": "all combinations of given and omitted arguments", "why_tests_cant": "There are many thousand combinations of omitted arguments, and their values are unbounded.", "anchors": ["src/openpile/construct.py:Model.create", "src/openpile/construct.py:Model"]}
{"id": "C99", "title": "Top, bottom and embedment of a model", "statement": "The top of a model is the highest of pile top, ground and water line; its bottom is the bottom of the soil. All nodes lie between them when the extra elevations do. The embedment is at most the thickness of the soil and is positive exactly when the tip is below ground; accepted models are embedded.", "quantifier": "all accepted models, all elevations", "why_tests_cant": "Ranges over all elevations and meshes of any size.", "anchors": ["src/openpile/construct.py:Model.top", "src/openpile/construct.py:Model.bottom", "src/openpile/construct.py:Model.embedment"]}
{"id": "C100", "title": "Validation helpers accept what they name", "statement": "The choice helper accepts exactly the strings of its list and the number helper exactly lists of numbers; anything else raises UserInputError.", "quantifier": "all values and lists", "why_tests_cant": "Ranges over all lists of values of any type.", "anchors": ["src/openpile/core/validation.py:str_must_be_one_of_those", "src/openpile/core/validation.py:must_be_numbers_in_list"]}
{"id": "C101", "title": "Shaft resistance is the API friction integrated along the pile", "statement": "For an accepted pile in a layered soil whose layers carry API clay or API sand axial models, the shaft resistance a model reports (compression and tension) is the sum over the elements of height times the mean of the friction per metre at their ends, plus, at every inner node, a quarter of the step of friction times the step of element height. The friction per metre at an elevation is the unit friction of the layer that contains the element under the true effective overburden there, times multipliers and sliding perimeter. The extra term is absent on meshes of equal elements and where friction does not jump; elsewhere the reported value is not the integral.", "quantifier": "all piles, soil stacks with any layer order, meshes, water levels, axial models within range, random draws and sort orders", "why_tests_cant": "The closed form ranges over all stacks, meshes and parameters and combines meshing, stress, spring creation and curve code; random points enter every curve.", "anchors": ["src/openpile/construct.py:Model.shaft_resistance", "src/openpile/construct.py:create_springs", "src/openpile/soilmodels.py:API_clay_axial", "src/openpile/soilmodels.py:API_sand_axial", "src/openpile/utils/tz_curves.py", "src/openpile/utils/misc.py"]}
{"id": "C102", "title": "Tip resistance is the unit bearing under the tip", "statement": "The tip resistance a model reports is the unit end bearing (9 Su in clay, the limited Nq value under the overburden at the tip in sand) of the layer that contains the lowest element, times its multiplier and the area it mobilises: the footprint if plugged in compression, the section otherwise; zero without axial model or with base_axial off.", "quantifier": "all piles, soil stacks, meshes, water levels, axial models within range, random draws and sort orders", "why_tests_cant": "Every combination of layer stack, tip position, plugging and model class would have to be run.", "anchors": ["src/openpile/construct.py:Model.tip_resistance", "src/openpile/construct.py:create_springs", "src/openpile/soilmodels.py:Qz_spring_fct", "src/openpile/utils/qz_curves.py"]}
{"id": "C103", "title": "The inside of an open pile counts with its own perimeter", "statement": "The shaft resistance of an open pile counts the friction inside on the inner perimeter. True of plugged piles; false of every model that is not plugged in compression: the reported resistance is strictly larger than with the inner perimeter.", "quantifier": "all models on meshes of equal elements with inner perimeter below the outer one and friction in some element", "why_tests_cant": "A test compares with a number; the claim is that the error is present in every open pile.", "anchors": ["src/openpile/construct.py:create_springs", "src/openpile/soilmodels.py:tz_spring_fct"]}
{"id": "C104", "title": "A soundly described pile in soil is constructed, with the springs of its soil models", "statement": "If the pile has stiffness, the layers form a stack from the ground to below the tip, the elevations fall on the grid and the soil parameters are in the range of their models, then constructing pile, profile and model raises nothing, no spring holds not-a-number, every spring has the shape the solver needs, and the spring stored at each element end is the curve of the model of the layer that contains the element, evaluated with the overburden, depth, width and layer position of that end (none where there is no soil, no model or the option is off); likewise the base springs at the tip.", "quantifier": "all piles, layer stacks, meshes, options, lateral and axial soil models (nine lateral and two axial classes, parameters constant, linear or functions), random draws and sort orders", "why_tests_cant": "A test constructs one site; the claim covers the composition of every model class with every stack, mesh and option.", "anchors": ["src/openpile/construct.py:Pile", "src/openpile/construct.py:SoilProfile", "src/openpile/construct.py:Model.model_post_init", "src/openpile/construct.py:create_springs", "src/openpile/soilmodels.py", "src/openpile/core/_model_build.py:get_soil_profile", "src/openpile/core/_model_build.py:get_soil_properties", "src/openpile/core/_model_build.py:get_coordinates"]}
{"id": "C105", "title": "The stiffness of a pile in sound soil is defined at any displacement", "statement": "For a model of C104 (moment springs only together with lateral springs) building the stiffness matrix raises nothing, for any displacement vector and for initial, secant and tangent stiffness: no spring divides by zero.", "quantifier": "all models of C104, displacement vectors and kinds of stiffness", "why_tests_cant": "The displacements at which a secant is taken are those of the iterations; a test sees only its own.", "anchors": ["src/openpile/core/kernel.py:build_stiffness_matrix", "src/openpile/core/kernel.py:elem_py_stiffness_matrix", "src/openpile/core/kernel.py:elem_tz_stiffness_matrix", "src/openpile/core/kernel.py:elem_mt_stiffness_matrix", "src/openpile/core/kernel.py:calculate_py_springs_stiffness", "src/openpile/core/kernel.py:calculate_base_spring_stiffness"]}
{"id": "C106", "title": "A pile in sound soil gives no spring warning", "statement": "Constructing a model of C104 prints no warning about negative or unknown spring values.", "quantifier": "all models of C104", "why_tests_cant": "The check is on all numbers of all springs.", "anchors": ["src/openpile/construct.py:create_springs", "src/openpile/construct.py:check_springs"]}
{"id": "C107", "title": "The analysis of a pile in sound soil ends with results", "statement": "An analysis of a model of C104 returns a result or reports a singular matrix, nothing else. It returns a result if the supports hold the pile; and for a pile without lateral support if one element lies in a layer whose lateral springs are not switched off, and the pile is supported along its axis or one element lies in a layer with shaft friction. Where the result has numbers, loads, reactions and soil resistance balance along, across and in moment. False of a model with moment springs but no lateral springs: it is constructed, and every analysis of it raises.", "quantifier": "all models of C104, boundary conditions, iteration limits and solvers that solve regular systems", "why_tests_cant": "Singularity depends on the displacements of every iteration; tests run a few load cases.", "anchors": ["src/openpile/winkler.py:winkler", "src/openpile/core/kernel.py:build_stiffness_matrix", "src/openpile/core/kernel.py:solve_equations", "src/openpile/construct.py:Model"]}
{"id": "C108", "title": "An analysis anywhere in a session is the analysis of the site", "statement": "A model is constructed from sections, layers and soil models that meet C104, and a program of setters, spring tables, analyses and resistances works on it. An analysis in the program, with no table of lateral or axial springs read before it, gives what analysing the site with the boundary conditions set so far gives (C107): the same displacement and reaction tables, the same number of passes, the same exception.", "quantifier": "all sites of C104, all programs before and after the analysis, all solvers", "why_tests_cant": "Programs and sites are unbounded; tests start every case from a fresh model.", "anchors": ["src/openpile/construct.py:Model", "src/openpile/construct.py:Model.solve", "src/openpile/winkler.py:winkler"]}
{"id": "C109", "title": "No program on a pile held by its soil fails", "statement": "On a site of C104 with lateral springs and shaft friction in some element, every operation of every program of setters, spring tables, analyses and resistances returns its kind of answer, in any order and also after the tables have rescaled the springs (C92). Only the distributed table of rotational springs raises (C64). Where the supports hold the pile the soil need not, and the analysis has numbers unless 100 passes are used up.", "quantifier": "all such sites, programs and solvers that solve regular systems", "why_tests_cant": "Reading tables changes the springs of the model; tests do not analyse after reading.", "anchors": ["src/openpile/construct.py:Model.solve", "src/openpile/construct.py:Model.get_distributed_axial_springs", "src/openpile/construct.py:Model.get_distributed_lateral_springs", "src/openpile/construct.py:Model.get_distributed_rotational_springs", "src/openpile/core/misc.py:get_distributed_soil_springs", "src/openpile/core/misc.py:get_lumped_soil_springs"]}
{"id": "C110", "title": "The resistances reported for a site are those of its soil models", "statement": "Up to the relative error of storage the shaft resistance of a site of C104 in compression and in tension is the sum over the elements of height times mean unit friction of the layer's soil model, plus the known excess at nodes between elements of different height (C101); the tip resistance is the end bearing of the layer of the lowest element over the area of the last section. Friction is zero above ground, in layers without an axial model and if switched off. Shaft resistance may be asked for at any time before the first table of axial springs is read, tip resistance at any time.", "quantifier": "all sites of C104, programs, and monotone storage functions with a relative error", "why_tests_cant": "Ties the springs of all elements to the soil models through mesh, stress and storage.", "anchors": ["src/openpile/construct.py:Model.shaft_resistance", "src/openpile/construct.py:Model.tip_resistance", "src/openpile/construct.py:create_springs"]}
{"id": "C111", "title": "The plot of a model shows its loads, supports, mesh and soil", "statement": "When Model.plot succeeds, there is exactly one arrow for every non-zero load of the load table, at its node, pointing in the direction of the load and with a length in proportion to the largest load of the same kind; an axial arrow ends at its node, at the tip it starts there; a whole load the user gave last at a place is drawn. There is exactly one mark for every support, at its node. Mesh, marks and arrows lie within the limits of the plot. Soil layers are drawn over the full width of the plot between their elevations, named after the layer. Every model can be plotted, everything that holds the pile is drawn and names are within the plot (all three refuted: a model loaded only by moments raises UnboundLocalError, prescribed displacements are not drawn, layer names are placed left of the limits).", "quantifier": "all meshes, soil profiles, lists of boundary conditions, sequences of calls and axis limits answered by matplotlib", "why_tests_cant": "The plot is compared by eye, if at all; the failing case needs moments without any force.", "anchors": ["src/openpile/utils/graphics.py:connectivity_plot", "src/openpile/construct.py:Model.plot"]}
{"id": "C112", "title": "The plot of a soil profile shows every layer", "statement": "An elevation is covered by a rectangle of SoilProfile.plot exactly if some layer covers it; for an accepted profile whose layers meet, all layers and their names lie within the limits of the plot, and the water line does unless it is below the lowest layer.", "quantifier": "all soil profiles", "why_tests_cant": "Drawings are not compared in tests, and layers may come in any order.", "anchors": ["src/openpile/utils/graphics.py:soil_plot", "src/openpile/construct.py:SoilProfile.plot"]}
{"id": "C113", "title": "Plots of results show the tables of the result", "statement": "The deflection and settlement curves have one point for every node, at its elevation, with the displacement in millimetres; the force curves are the rows of the force table, and the limits set for them contain zero and every value and have a positive width. The figures consist of the panels their names announce. Limits also have a width when the analysis failed (refuted: they are 0 to 0).", "quantifier": "all results and meshes", "why_tests_cant": "Drawings are not compared in tests; limits must hold for every sign and size of the forces.", "anchors": ["src/openpile/utils/graphics.py:plot_deflection", "src/openpile/utils/graphics.py:plot_settlement", "src/openpile/utils/graphics.py:plot_forces", "src/openpile/utils/graphics.py:plot_results", "src/openpile/utils/graphics.py:U_plot", "src/openpile/utils/graphics.py:F_plot", "src/openpile/winkler.py:WinklerResult.plot", "src/openpile/winkler.py:plot_deflection", "src/openpile/winkler.py:plot_axial_results", "src/openpile/winkler.py:plot_lateral_results"]}
{"id": "C114", "title": "A beam analysis of a model with soil leaves the springs along the pile out but not those at its base", "statement": "winkler.beam called with a model that has soil ignores all springs along the pile: its answer depends only on the boundary conditions in force and, if no base option is on, equals that of the same pile without soil. If base options are on, the base springs enter with the slope their curves start with; displacements and reactions are the equilibrium of the elastic pile with these springs; the sums of loads and reactions differ from zero by exactly what the base springs carry; the analysis succeeds exactly when supports and resisting base springs together prevent rigid motion, and otherwise raises LinAlgError. A beam analysis ignores the soil altogether (refuted: reactions do not balance the loads when the tip moves against a base spring, and piles without supports are solved).", "quantifier": "all models with soil, base curves, loads, prescribed displacements, supports, sequences of operations and exact solvers", "why_tests_cant": "Tests call beam without soil; the condition for success and the missing balance hold for every mesh.", "anchors": ["src/openpile/winkler.py:beam", "src/openpile/core/kernel.py:build_stiffness_matrix", "src/openpile/core/kernel.py:calculate_base_spring_stiffness", "src/openpile/core/kernel.py:calculate_base_axial_spring_stiffness"]}
{"id": "C115", "title": "The second-order matrix is consistent with the axial force", "statement": "elem_p_delta_stiffness_matrix is, for Euler-Bernoulli elements, minus the axial force over the length times the integral of the product of slopes of cubic deflections; compression takes energy and tension adds it; it is symmetric, free under translation, and under a rigid rotation t gives end shears P t and no moments. P is the compression of the element. The same holds for Timoshenko elements (refuted: the area is overwritten by the first coefficient, the shears are right only if both happen to be equal).", "quantifier": "all element data, axial forces and displacements", "why_tests_cant": "No test calls the function, and agreement on samples does not show consistency.", "anchors": ["src/openpile/core/kernel.py:elem_p_delta_stiffness_matrix", "src/openpile/core/kernel.py:pile_internal_forces"]}
{"id": "C116", "title": "A pile in soil has one state of rest", "statement": "With resistance curves that never soften, the loads and supports determine the displacements at which pile and soil balance: with base springs only, two balanced states differ by a rigid movement, and are equal when the supports hold the pile; more load never does negative work; analyses that leave nothing out of balance agree whatever the solver and the number of passes. The same holds with springs along the shaft (refuted: both springs of the last element follow its upper node, and an elastic and a plastic solution exist for one load).", "quantifier": "all piles of sound elements, base curves, loads, prescribed displacements, supports, solvers and numbers of passes", "why_tests_cant": "Uniqueness is a statement about all states, and a test sees the one the iteration reached.", "anchors": ["src/openpile/winkler.py:winkler", "src/openpile/core/kernel.py:build_stiffness_matrix", "src/openpile/core/kernel.py:calculate_base_spring_stiffness", "src/openpile/core/kernel.py:double_inner_njit"]}
{"id": "C117", "title": "The soil never resists with more than its ultimate resistance", "statement": "A pile that moves sideways without tilting is resisted with the sum over the elements of length times mean resistance on the curves, at most the ultimate one, plus the base. The same holds for every movement (refuted: stiffness and not resistance is interpolated, a tilted element whose two springs are at the ultimate resistance p resists with L p (1 + (u2-u1)^2/(6 u1 u2)), which is unbounded; and analyses converge with any load carried by soil of arbitrarily small resistance whose springs do not move).", "quantifier": "all piles, curves, displacements, loads and solvers", "why_tests_cant": "The excess depends on the ratio of two displacements and is unbounded; a test sees one ratio.", "anchors": ["src/openpile/core/kernel.py:elem_py_stiffness_matrix", "src/openpile/core/kernel.py:calculate_py_springs_stiffness", "src/openpile/core/kernel.py:build_stiffness_matrix", "src/openpile/winkler.py:winkler"]}
{"id": "C119", "title": "Neither the unit of force nor the linear solver matters", "statement": "A model whose moduli, resistances and loads are written in another unit of force goes through the same passes with the same displacements and ends with the reactions in the new unit, or with the same error; the element stiffness is proportional to the modulus; any two exact solvers give the same passes, displacements and reactions. The same holds for the unit of length (refuted: tangent stiffness is taken over a fixed 0.0005).", "quantifier": "all models, springs of every kind, loads, prescribed displacements, supports, numbers of passes, positive ratios of units and exact solvers", "why_tests_cant": "Every test uses kN and m and one solver; the claim relates two runs for every ratio and every pass.", "anchors": ["src/openpile/winkler.py:winkler", "src/openpile/core/kernel.py:build_stiffness_matrix", "src/openpile/core/kernel.py:elem_mechanical_stiffness_matrix", "src/openpile/core/kernel.py:calculate_py_springs_stiffness", "src/openpile/core/kernel.py:calculate_tz_springs_stiffness", "src/openpile/core/kernel.py:calculate_mt_springs_stiffness", "src/openpile/core/kernel.py:calculate_base_spring_stiffness", "src/openpile/core/kernel.py:calculate_base_axial_spring_stiffness", "src/openpile/core/kernel.py:solve_equations"]}
{"id": "C120", "title": "Left and right do not matter", "statement": "The mirror image of the loads and prescribed displacements of a model gives, pass by pass, the mirror image of displacements and reactions; axial loads alone move nothing sideways and call for no lateral reaction. Proved for models without moment springs; with them it is refuted, because the lateral resistance that scales the moments enters with its sign.", "quantifier": "all models of elements that do not couple bending and stretching (all elements of the code), loads, prescribed displacements, supports, numbers of passes and exact solvers", "why_tests_cant": "A test compares two runs of one pile; symmetry of the iteration is a statement about all piles and every pass.", "anchors": ["src/openpile/winkler.py:winkler", "src/openpile/core/kernel.py:build_stiffness_matrix", "src/openpile/core/kernel.py:calculate_mt_springs_stiffness", "src/openpile/core/kernel.py:elem_mechanical_stiffness_matrix", "src/openpile/core/kernel.py:elem_py_stiffness_matrix", "src/openpile/core/kernel.py:elem_tz_stiffness_matrix"]}
{"id": "C118", "title": "Beam analyses find the least potential energy; stiffer piles and more supports give way less", "statement": "The displacements of a beam analysis have the least potential energy of all that agree with the supports and prescribed displacements. With stiffer elements or more supports the loads do less work, a single load moves its own point no further, and imposing displacements takes more work. Euler-Bernoulli elements of larger EI and EA, elements of a larger modulus, and Euler-Bernoulli instead of Timoshenko elements are stiffer. That every displacement becomes smaller does not follow and is refuted.", "quantifier": "all numbers of elements, element matrices that are symmetric and semidefinite (all of the code for nu >= -3/4), loads, prescribed displacements, pairs of support sets and exact solvers", "why_tests_cant": "A comparison of two runs says nothing about other meshes, and minimality ranges over all displacement fields.", "anchors": ["src/openpile/winkler.py:beam", "src/openpile/core/kernel.py:solve_equations", "src/openpile/core/kernel.py:elem_mechanical_stiffness_matrix", "src/openpile/core/kernel.py:jit_build"]}
{"id": "C121", "title": "The lateral springs do not depend on the units of force and length", "statement": "Written in other units of force and length, a lateral soil model gives the same curves in the new units, or the same error: displacements in the unit of length, p in force per length, base shear in force, moments in force or force times length, rotations unchanged. This holds without any condition for the p-y springs of the PISA, API and modified Matlock clays and of the custom models, for matlock_1970, for every base spring and for the moment springs of the PISA models, and the hooks of the PISA models take ratios of lengths only. API sand needs a subgrade modulus given by the user and an extent or a depth of at least 0.1; weak rock and the moment springs of the API clays allow another unit of force only, and so do the moment springs of such an API sand as long as its friction stays below the limits of the table in both units. It is refuted for the default and the modified subgrade moduli, for weak rock in another unit of length (1.333 is not 4/3) for the padded rotations of the API clays, for the rotations of API sand in another unit of length, and for its moments where the table limits the friction (there they are the same numbers in every larger unit of force).", "quantifier": "all positive unit factors, soil models, parameters (numbers, lists, functions of depth), multipliers, positions, extents, numbers of points and random draws", "why_tests_cant": "A test in one set of units cannot tell a formula from one with a hidden dimensional constant; the claim compares all pairs of units.", "anchors": ["src/openpile/soilmodels.py:py_spring_fct", "src/openpile/soilmodels.py:Hb_spring_fct", "src/openpile/soilmodels.py:mt_spring_fct", "src/openpile/soilmodels.py:Mb_spring_fct", "src/openpile/utils/py_curves.py", "src/openpile/utils/mt_curves.py", "src/openpile/utils/Hb_curves.py", "src/openpile/utils/Mb_curves.py", "src/openpile/utils/hooks.py"]}
{"id": "C122", "title": "The axial springs do not depend on the units of force and length", "statement": "Written in other units, the axial models give the same curves in the new units. This holds for end bearing in clay, for shaft friction in clay where the effective stress is not zero, for the curve of Kraft in another unit of force, and in sand while the limiting values are not reached. It is refuted at the surface, where clay friction goes with the power 3/4 of the unit of force, where the limits of the API tables govern, for the displacements of t-z curves in sand and for the residual of the curve of Kraft in another unit of length.", "quantifier": "all positive unit factors, axial models with every plugging option and multiplier, perimeters, areas, stresses, positions, numbers of points, random draws and sort orders", "why_tests_cant": "A test in one set of units cannot tell a formula from one with a hidden dimensional constant.", "anchors": ["src/openpile/soilmodels.py:API_clay_axial", "src/openpile/soilmodels.py:API_sand_axial", "src/openpile/utils/misc.py", "src/openpile/utils/tz_curves.py", "src/openpile/utils/qz_curves.py"]}
{"id": "C123", "title": "The nodes and the elements of a model belong together after assignments to its fields", "statement": "Fields of a Model may be assigned to; the tables of nodes and of elements are cached separately. Once both have been read they stay as they are, whatever is assigned. A model with soil, whose elements are cached by its construction, keeps nodes and elements of one mesh if the nodes are read before the first assignment to pile, soil, x2mesh or coarseness; a model without soil takes the fields as they are at the first look, if none of these is assigned between the first look and the reading of both tables. It is refuted otherwise: a finer coarseness assigned right after construction gives 11 nodes for 6 elements, and another x2mesh gives nodes elsewhere than the ends of the elements, with loads put on the wrong place of the pile and no error.", "quantifier": "all piles, soils, meshes, options, solvers and all programs (lists of any length) of assignments, reads, setter calls and analyses", "why_tests_cant": "Tests construct a model and analyse it; the order of first reads and assignments has unboundedly many interleavings.", "anchors": ["src/openpile/construct.py:AbstractModel.model_config", "src/openpile/construct.py:Model.nodes_coordinates", "src/openpile/construct.py:Model.element_coordinates", "src/openpile/construct.py:Model.element_properties", "src/openpile/construct.py:Model.model_post_init", "src/openpile/core/_model_build.py:get_coordinates"]}
{"id": "C124", "title": "An analysis uses the present values of the fields of its model", "statement": "After assignments to element type, material and options that switch springs off, and any setter calls, reads and analyses, an analysis gives what it would give for a model constructed with these values; a model without soil that has not been looked at may have every field assigned. It is refuted for the rest: with the mesh read, no answer depends on which soil profile, x2mesh or coarseness was assigned; springs switched on by an assignment are arrays of zeros; and a model constructed without soil gives no results once a soil profile is assigned.", "quantifier": "all piles, soils, meshes, options, solvers, draws, storage functions and all programs of assignments, reads, setter calls and analyses", "why_tests_cant": "Stale state shows only for certain orders of assignments and reads, of which there are infinitely many; results look plausible.", "anchors": ["src/openpile/construct.py:Model.model_post_init", "src/openpile/construct.py:Model.solve", "src/openpile/winkler.py:beam", "src/openpile/winkler.py:winkler", "src/openpile/core/kernel.py:build_stiffness_matrix"]}
{"id": "C125", "title": "A model depends on the soil at each elevation, not on its division into layers", "statement": "If two profiles, from the same ground level to the same depth and with layers listed in any order, have the same unit weight and the same soil models with the same parameter values at every elevation, and the same elevations are asked for as ends of layers or additional depths, then the models constructed from them have equal nodes, elements and springs, and every analysis and every program of setters, tables, analyses and resistances gives equal answers, random draws being equal. In particular a layer may be cut in two, with its varying parameters given at the cut, and the layers may be listed in another order; what was accepted is accepted with the divided layers.", "quantifier": "all piles, profiles, parameters, depths, options, storage functions, draws, solvers and programs; all cuts and all orders", "why_tests_cant": "A test compares a few divisions of one profile; a layer-relative depth or height that enters a formula by mistake shows only for the soil models and positions tried.", "anchors": ["src/openpile/construct.py:Model.create_springs", "src/openpile/construct.py:Model.element_properties", "src/openpile/core/_model_build.py:get_coordinates", "src/openpile/core/_model_build.py:get_soil_properties", "src/openpile/soilmodels.py", "src/openpile/core/misc.py:get_value_at_current_depth"]}
{"id": "C126", "title": "Results do not depend on random()", "statement": "The spring functions place points of their curves at random displacements, so that two models constructed from the same input have different arrays. For all draws in [0, 1) the axial springs and the moment springs are equal, the p-y springs have the same resistance at every displacement, the same list of resistances and the same first step, and every analysis gives the same errors, passes, displacements and reactions. It is refuted for the modified Matlock clay, whose random points lie on the rise of the curve: at every admissible place two draws give springs with different resistance at some displacement.", "quantifier": "all draws, soil models with admissible parameters, places, storage functions, piles, profiles, loads, options and solvers; for the refutation, all modified Matlock models with positive multipliers, all admissible places and all storage functions with a relative error below a millionth", "why_tests_cant": "A test sees a few draws, and compares results with a tolerance; that no draw matters, or that one does, is a statement about a continuum of draws.", "anchors": ["src/openpile/utils/py_curves.py:api_clay", "src/openpile/utils/py_curves.py:modified_Matlock", "src/openpile/utils/tz_curves.py:backbone_api_clay", "src/openpile/utils/tz_curves.py:backbone_api_sand", "src/openpile/utils/qz_curves.py:_backbone_api", "src/openpile/soilmodels.py:Modified_Matlock_clay", "src/openpile/soilmodels.py:API_clay", "src/openpile/winkler.py:winkler"]}
{"id": "C127", "title": "Beam analyses of one pile superpose and are reciprocal", "statement": "Let beam analyses of one meshed pile be made with the same supports. If the loads and prescribed displacements of one are u times those of a second plus v times those of a third, at every node and axis, then it succeeds and its displacements, internal forces and reactions are u times and v times theirs (superposition). The loads and reactions of one analysis do the same work on the displacements of another as the other's on its own (Betti); with supports that do not move a load P at one place moves another as P there moves the first (Maxwell). The reaction of a support is minus the work of the loads on the displacements of the unloaded pile when that support moves by one (influence line). Loads must be whole numbers of kN and kNm: they are stored as integers, so half a kilonewton moves nothing and twice its result is not that of one kilonewton.", "quantifier": "all exact solvers, section lists, meshes, beam types, materials, lists of loads, supports and settlements at nodes, and factors u, v", "why_tests_cant": "A test superposes a few load cases on one pile; the theorems cover all piles, meshes and load cases, and relate different analyses.", "anchors": ["src/openpile/construct.py:Model.global_forces", "src/openpile/construct.py:Model.global_disp", "src/openpile/construct.py:Model.set_pointload", "src/openpile/construct.py:Model.set_pointdisplacement", "src/openpile/construct.py:Model.set_support", "src/openpile/winkler.py:beam", "src/openpile/winkler.py:structural_forces_to_df", "src/openpile/winkler.py:disp_to_df", "src/openpile/core/kernel.py:solve_equations", "src/openpile/core/kernel.py:jit_build", "src/openpile/core/kernel.py:pile_internal_forces"]}
{"id": "C128", "title": "Soil that is no weaker resists no less", "statement": "Take two models on one mesh whose soil layers have the same extent, where each layer of the second is no lighter and its axial soil model no weaker (undrained strength, interface friction angle, lateral earth pressure coefficient, multipliers; the same plugging), the water is no higher and the pile is no slimmer. Then the shaft resistances in compression and tension and the tip resistance that the second reports are no less than those of the first. Take two p-y springs of one kind of soil model at the same place, the second under no less stress, with no smaller strength and stiffness and no smaller p-multiplier: any point of the second curve resists no less than any point of the first curve at no larger a deflection, and its peak is no lower. The code refutes two cases: under cyclic loading a clay a third stronger has a lower residual resistance, since the transition depth grows with the strength; and the subgrade modulus that the code derives from the friction angle falls with the angle below about 26 degrees, so that the curve of the stronger sand starts less steeply. The same comparison holds for the base shear and base moment springs of the PISA models, and for every row of the moment springs of the PISA clays. A third case is refuted: in Dunkirk sand the ordinates of the moment curve within 0.01 of the ultimate rotation are set to the ultimate moment, and since the rotations scale with the vertical stress, sand under 17/13 times the stress resists 17/45 of the moment at one and the same rotation. For weak rock the comparison is refuted, since the exponents 0.25 and 1.333 of the code are not inverse enough for the two branches of the curve to meet: the curve steps down at the end of its elastic line, and is not even outdone by itself. It holds up to the factor of that step, which stays within half a percent whenever the ratio that places it lies between a millionth and a million. The moment springs of the API clays compare row by row. Those of API sand and of custom sand hold one curve per point of the p-y curve; they compare between points at the same share of the lateral resistance. At one and the same lateral resistance the comparison is refuted for API sand: where the shaft friction has reached its limit, sand under four times the stress gives at most 0.3 of the moment, since the moment grows with the share of the resistance that is mobilised and not with the resistance.", "quantifier": "all piles, meshes, layer lists, water levels, soil parameters and random draws; for the springs all places, soil models (PISA models for base springs, PISA models, API clays and API sand for moment springs), and parameters within their documented range", "why_tests_cant": "Tests compare a few curves with published values; that strengthening the soil never weakens the answer relates every pair of sites, and the exceptions lie in corners no test visits.", "anchors": ["src/openpile/soilmodels.py:AxialModel", "src/openpile/soilmodels.py:API_clay_axial", "src/openpile/soilmodels.py:API_sand_axial", "src/openpile/soilmodels.py:LateralModel", "src/openpile/utils/py_curves.py:api_sand", "src/openpile/utils/py_curves.py:api_clay", "src/openpile/utils/py_curves.py:modified_Matlock", "src/openpile/utils/py_curves.py:cowden_clay", "src/openpile/utils/py_curves.py:bothkennar_clay", "src/openpile/utils/py_curves.py:dunkirk_sand", "src/openpile/utils/py_curves.py:custom_pisa_sand", "src/openpile/utils/py_curves.py:custom_pisa_clay", "src/openpile/utils/py_curves.py:reese_weakrock", "src/openpile/utils/hooks.py:InitialSubgradeReaction", "src/openpile/construct.py:Model.shaft_resistance", "src/openpile/construct.py:Model.tip_resistance", "src/openpile/utils/Hb_curves.py", "src/openpile/utils/Mb_curves.py", "src/openpile/utils/mt_curves.py", "src/openpile/core/misc.py:conic", "src/openpile/soilmodels.py:API_clay.mt_spring_fct", "src/openpile/soilmodels.py:API_sand.mt_spring_fct", "src/openpile/soilmodels.py:Custom_pisa_sand.mt_spring_fct"]}
{"id": "C129", "title": "In the elastic range a pile in soil is a linear structure", "statement": "Call a spring elastic at a displacement if its curve is a straight line through the origin up to there. If all springs of a model are elastic at the displacements V then the initial, secant and tangent stiffness there are one matrix K. If V and R solve K V = F + R with the supports of the analysis, the supports hold the pile and F is not 2R everywhere, then the pile-soil analysis returns V and R after exactly two passes. Hence elastic analyses with the same supports superpose (weighted means of elastic states are elastic), any two of them are reciprocal (Betti), and for regular curves every load is proportional to its effect once scaled down far enough, unless it pulls the pile up where an axial spring starts with different slopes in tension and compression. Beyond the elastic range superposition fails: a load that moves a pile by one centimetre, doubled, does not move it by two.", "quantifier": "all exact solvers, meshes, spring tables whose moment springs do not depend on the lateral resistance, loads, supports, prescribed displacements, iteration limits and factors", "why_tests_cant": "A test compares a few small load cases on one pile; superposition and reciprocity relate all pairs of analyses, and the size of the elastic range depends on every curve.", "anchors": ["src/openpile/winkler.py:winkler", "src/openpile/core/kernel.py:jit_build", "src/openpile/core/kernel.py:build_stiffness_matrix", "src/openpile/core/kernel.py:calculate_py_springs_stiffness", "src/openpile/core/kernel.py:calculate_tz_springs_stiffness", "src/openpile/core/kernel.py:calculate_mt_springs_stiffness", "src/openpile/core/kernel.py:calculate_base_spring_stiffness", "src/openpile/core/kernel.py:calculate_base_axial_spring_stiffness", "src/openpile/core/kernel.py:solve_equations"]}
{"id": "C130", "title": "Results do not depend on the datum of the elevations", "statement": "Measuring all elevations (pile, layers, ground, water, extra nodes, loads and supports) from another datum moves every elevation of the mesh by the same amount, whatever the amount. If the datum moves by whole tenths of a millimetre (an even number, or no node is half-way between two tenths) and layers lie within 1000 km of both datums, the model is accepted or refused alike, with the same stresses and the same springs; if loads and supports reach the same nodes, every analysis and every program of setters, spring tables, analyses and resistances gives the same answers at the moved elevations, and so do models without soil, the weight of the pile, the weight of the soil inside it and the effective stress at the tip. Setting loads at nodes far from other nodes is enough. Otherwise the datum shows: a load 1.5 mm above the pile head is dropped at elevation 0 and applied at elevation 100, a node half-way between two tenths of a millimetre rounds the other way after an odd move, and a gap of 1.5 mm between layers is refused near the datum and accepted 2000 km away.", "quantifier": "All sections, soil models, profiles, options, random numbers, meshes, solvers, programs of any length and moves of the datum as stated", "why_tests_cant": "Two unbounded descriptions are compared for every move of the datum and every program; tests use one datum per case.", "anchors": ["src/openpile/core/_model_build.py:get_coordinates", "src/openpile/core/_model_build.py:apply_bc", "src/openpile/core/_model_build.py:get_tip_sig_v_eff", "src/openpile/construct.py:Model", "src/openpile/construct.py:SoilProfile.check_layers_elevations", "src/openpile/construct.py:Model.entrapped_soil_weight"]}
{"id": "C131", "title": "Every layer has a colour, and more than twelve layers share colours", "statement": "A layer is accepted exactly when its data are and its colour, if given, has seven characters. Its colour is then the one given or, if none was given, one of twelve hexadecimal colours, each drawn by exactly one outcome of the random number; nothing else in the layer depends on the draw. More than twelve layers without given colours always include two of one colour. A given colour of seven characters need not be a colour, and kinds of colours other than 'earth' raise UnboundLocalError.", "quantifier": "All elevations, weights, given colours, draws and lists of layers of any length", "why_tests_cant": "The colour is random: a test sees one draw per layer, and any string may be given.", "anchors": ["src/openpile/core/misc.py:generate_color_string", "src/openpile/construct.py:Layer.model_post_init", "src/openpile/construct.py:Layer.check_elevations"]}
{"id": "C132", "title": "The passes of an analysis approach the state of rest from one side", "statement": "A held pile on one lateral or moment spring at its tip has exactly one state of rest under any loads and prescribed displacements. When the curve of the spring never gets steeper, every pass of the analysis ends between the start and that state and never goes back, and what is missing shrinks in every pass at least by the factor wk/(1+wk), w being the movement of the tip of the pile alone under a load of 1 and k the stiffness of the spring at the start; so the analysis never overestimates the movement of the tip, and converges within m passes when the m-th power of the factor brings the force left out of balance below the tolerance. With loads at the tip alone and wk at most 8 the default number of passes always suffices. Every such analysis converges (refuted: for every pile there are an early yielding spring and a load with one state of rest for which the analysis gives up after 100 passes).", "quantifier": "all sound piles of any number of elements, concave curves, loads, prescribed displacements, supports, numbers of passes and linear solvers", "why_tests_cant": "The rate of convergence and the side of the approach are statements about every pass of every analysis; a test sees the last pass of one.", "anchors": ["src/openpile/winkler.py:winkler", "src/openpile/core/kernel.py:calculate_base_spring_stiffness", "src/openpile/core/kernel.py:build_stiffness_matrix", "src/openpile/core/kernel.py:solve_equations"]}
{"id": "C133", "title": "The analysis does not depend on how np.interp searches", "statement": "np.interp looks for the segment of a curve by bisection from a guess, and its documentation promises a value only for abscissae in order. The bisection ends in a segment around the abscissa wherever it starts. Where the displacements of a curve are in order, or its ordinates are equal, every function that keeps numpy's contract gives the same value, so stiffness matrix and analysis are the same for any of them, and are those of the other theorems. The springs of every soundly described site are of this kind, although the resistances of cyclic clay curves fall and are used as abscissae of the rotational springs. The same for any springs the kernel accepts (refuted: for resistances in disorder with moments that depend on them two searches give two stiffnesses).", "quantifier": "all interpolation functions with numpy's contract, starts of the bisection, models with ordered springs, displacements, loads, supports, numbers of passes and linear solvers; all soundly described sites, random draws and sorting results", "why_tests_cant": "A test runs one version of numpy or numba with one guess; whether another search gives another result depends on the order of the abscissae of every curve of every site.", "anchors": ["src/openpile/core/kernel.py:calculate_py_springs_stiffness", "src/openpile/core/kernel.py:calculate_mt_springs_stiffness", "src/openpile/core/kernel.py:calculate_tz_springs_stiffness", "src/openpile/core/kernel.py:calculate_base_spring_stiffness", "src/openpile/winkler.py:winkler", "src/openpile/soilmodels.py:mt_spring_fct"]}
{"id": "C134", "title": "The work of the loads lies between that of the first pass and that without soil", "statement": "Take a pile at rest in its soil with no prescribed displacements. The loads have done no negative work, and no more than on the same pile with the same supports and no soil. If no spring is stiffer than at first, they have done at least the work of the first pass of the analysis, which uses the initial stiffness. A single load therefore moves the point where it acts in its own direction, at least as far as in the first pass and at most as far as without soil. The displacements an analysis reports are a state of rest under loads that differ from the given ones by less than the tolerance, and have both bounds for those. The lower bound for rotational springs whose moments grow with the lateral resistance (refuted: they have no initial stiffness, and the first pass can overestimate the work).", "quantifier": "all models of any number of elements and springs, loads, supports, states of rest, numbers of passes and linear solvers; all springs with softening curves for the lower bound", "why_tests_cant": "A test compares a few displacements of one model; the bounds hold of every state of rest of every model because of the symmetry and sign of stiffness matrices of any size.", "anchors": ["src/openpile/winkler.py:beam", "src/openpile/winkler.py:winkler", "src/openpile/core/kernel.py:solve_equations", "src/openpile/core/kernel.py:build_stiffness_matrix", "src/openpile/core/kernel.py:calculate_py_springs_stiffness", "src/openpile/core/kernel.py:calculate_tz_springs_stiffness", "src/openpile/core/kernel.py:calculate_mt_springs_stiffness", "src/openpile/core/kernel.py:calculate_base_spring_stiffness", "src/openpile/core/kernel.py:jit_build"]}
{"id": "C135", "title": "No soil curve is stiffer than at first", "statement": "Every soil curve the program builds starts at the origin and none of its points lies above the line from the origin through its second point, so the initial stiffness used in the first pass is the largest secant stiffness: lateral curves of API sand, API clay, modified Matlock clay, Reese weak rock and the PISA models, base springs, distributed moments of the API models, the PISA clays and the custom PISA models and shaft and tip springs. Curves of two-sided springs keep it on both sides. Distributed moments of Dunkirk sand (refuted: values within 0.01 of the ultimate rotation, which is about 0.015, take the ultimate moment, so the seventh point is more than 2.6 times stiffer than the second one). Sand shafts plugged in compression only (refuted: the uplift branch is stiffer by the ratio of both perimeters to the outer one).", "quantifier": "all soil models with admissible parameters, all places in a layer, all numbers of points within the stated limits, all random draws, all multipliers that are not negative", "why_tests_cant": "The secant of every sample of every curve over continuous parameter ranges; the limits beyond which rounding to the ultimate value breaks it are found only by proof.", "anchors": ["src/openpile/utils/py_curves.py:api_sand", "src/openpile/utils/py_curves.py:api_clay", "src/openpile/utils/py_curves.py:modified_Matlock", "src/openpile/utils/py_curves.py:reese_weakrock", "src/openpile/utils/py_curves.py:bothkennar_clay", "src/openpile/utils/py_curves.py:cowden_clay", "src/openpile/utils/py_curves.py:dunkirk_sand", "src/openpile/utils/py_curves.py:custom_pisa_sand", "src/openpile/utils/py_curves.py:custom_pisa_clay", "src/openpile/utils/mt_curves.py:bothkennar_clay", "src/openpile/utils/mt_curves.py:cowden_clay", "src/openpile/utils/mt_curves.py:dunkirk_sand", "src/openpile/utils/mt_curves.py:custom_pisa_sand", "src/openpile/utils/mt_curves.py:custom_pisa_clay", "src/openpile/utils/Hb_curves.py", "src/openpile/utils/Mb_curves.py", "src/openpile/utils/tz_curves.py:api_clay", "src/openpile/utils/tz_curves.py:api_sand", "src/openpile/utils/qz_curves.py:api_clay", "src/openpile/utils/qz_curves.py:api_sand", "src/openpile/core/misc.py:conic", "src/openpile/soilmodels.py"]}
{"id": "C136", "title": "details() of the loop: passes, error and tolerance", "statement": "For every integer max_iter the pile-soil analysis ends with what its first hundred passes give, and details() shows the number of passes (at most max_iter), the norm of the forces out of balance and the tolerance of the last pass to three decimals, so that every result with numbers shows an error below its tolerance. Refuted in two points: after a hundred passes without convergence the loop goes on with NaN and reports max_iter + 1 passes under 'converged @ iter no.', and with loads and reactions below 5 kN error and tolerance are both shown as zero. After those passes the tolerance shown is NaN as soon as one reaction is. A negative max_iter raises UnboundLocalError.", "quantifier": "every pile-soil model, load, support and prescribed displacement, every integer max_iter, every behaviour of the linear solver on matrices with NaN", "why_tests_cant": "Tests look at single runs with the default number of passes; no test reaches the passes after the hundredth or varies max_iter, and rounding to three decimals is a statement about all norms.", "anchors": ["src/openpile/winkler.py:winkler", "src/openpile/winkler.py:WinklerResult.details", "src/openpile/winkler.py:reaction_forces_to_df"]}
{"id": "C137", "title": "The mesh has as few nodes as the coarseness allows", "statement": "Between two neighbouring requested elevations the elements are equal and as few as the coarseness allows, and there are no other nodes. No mesh that contains the requested elevations and keeps within the coarseness has fewer nodes; the number of elements is at least the height over the coarseness and exceeds it by less than the number of requested intervals. A smaller coarseness or further elevations never give fewer nodes, and an accepted model has at least five elements. The mesh depends on the set of requested elevations only. The nodes of a mesh are nodes of the mesh for a fraction of its coarseness.", "quantifier": "all piles, soil profiles, x2mesh lists and positive coarsenesses; all competing lists of elevations", "why_tests_cant": "Minimality compares with every other mesh, of any size; a test compares with a few.", "anchors": ["src/openpile/core/_model_build.py:get_coordinates", "src/openpile/construct.py:Model.max_coarseness"]}
{"id": "C138", "title": "The reported shaft resistance is close to the integral of the friction", "statement": "The reported shaft resistance, in compression and in tension, differs from the trapezoidal rule over the elements by no more than a quarter of the coarseness (plus the 0.1 mm of the rounding) times the sum of the jumps of the friction between elements. Where the friction does not decrease with depth inside an element, it differs from every Riemann sum of the friction along the pile, however fine and wherever the friction is read, by no more than that plus half the coarseness times the variation of the friction inside the elements. Soils whose strength does not decrease with depth have such a friction, clays where the effective stress is 1 Pa or more.", "quantifier": "all accepted models on the four-decimal grid with admissible axial models, all random draws, all divisions of the elements into pieces and all points in the pieces", "why_tests_cant": "The bound holds for every mesh and compares with all Riemann sums at once.", "anchors": ["src/openpile/construct.py:Model.shaft_resistance", "src/openpile/core/_model_build.py:get_coordinates", "src/openpile/utils/misc.py:_fmax_api_clay", "src/openpile/utils/misc.py:_fmax_api_sand"]}
{"id": "C139", "title": "The order of x2mesh and of the pile sections does not matter", "statement": "For every site (pile sections, soil layers, water, options) and every coarseness, two lists x2mesh that differ only in order, in repetitions, and in elevations that are ends of pile sections or ends of soil layers not below the pile give the same analysis: the same tables or the same exception. The same answers are given by every program of calls on the model, and by a pile without soil. Listing the pile sections in another order changes none of this.", "quantifier": "all site descriptions with proper sections, all pairs of x2mesh lists with the same requests, all permutations of the sections, all programs of calls, all solvers, random draws and storage roundings", "why_tests_cant": "The mesh is made by np.unique over a concatenated array, then divided; that the whole chain down to the result tables depends on the set of elevations only needs all lists and all programs.", "anchors": ["src/openpile/core/_model_build.py:get_coordinates", "src/openpile/construct.py:Model", "src/openpile/winkler.py:winkler"]}
{"id": "C140", "title": "A soil parameter given as a callable has the value the callable returns", "statement": "The parameters of the custom PISA models may be given as callables of the depth below ground. Wherever a parameter is evaluated, its value is what the callable returns for that depth; the same holds for multipliers. And an exception of a p-y or m-t function at an end of an element in its layer becomes an exception of Model(...), so that no model is made with springs left out. Each parameter of a custom PISA model reaches the curve, and the place in the curve, it is given for. (False of the code for parameters: only plain functions are called. Bound methods, functools.partial, built-ins and objects with __call__ are accepted as fields and raise TypeError in the spring functions.)", "quantifier": "all callables, depths, layers, custom PISA models, sites, options, random draws and storage roundings", "why_tests_cant": "A test passes a lambda. The claim is about every kind of callable the field type accepts and about every site in which a spring function raises.", "anchors": ["src/openpile/core/misc.py:get_value_at_current_depth", "src/openpile/core/misc.py:from_list2x_parse_top_bottom", "src/openpile/soilmodels.py:Custom_pisa_sand", "src/openpile/soilmodels.py:Custom_pisa_clay", "src/openpile/construct.py:Model"]}
{"id": "C141", "title": "Loads along the pile and loads across it do not influence each other", "statement": "The stiffness matrix of a pile with soil springs never couples movement along the pile with movement across it. Two analyses that differ along the pile only (axial loads, supports, prescribed displacements, t-z and Q-z springs, axial stiffness) report the same deflections, rotations, shear forces and moments; two that differ across it only report the same settlements and normal forces.", "quantifier": "all piles, meshes, springs, displacements and boundary conditions, every linear solver that is right, every number of passes; for whole programs all lists of setter calls that differ in one direction only", "why_tests_cant": "A test compares one pair of load cases. That the directions stay apart in every pass, for every pair of analyses and every spring curve, is a statement about two runs at once; and the joint tolerance that breaks it for the reported numbers shows only where one load is much larger than the other.", "anchors": ["src/openpile/core/kernel.py:build_stiffness_matrix", "src/openpile/core/kernel.py:solve_equations", "src/openpile/core/kernel.py:elem_mechanical_stiffness_matrix", "src/openpile/winkler.py:winkler", "src/openpile/winkler.py:beam", "src/openpile/construct.py:Model.set_pointload"]}
{"id": "C142", "title": "A pile pushed along itself only does not bend, and one pushed across only does not settle", "statement": "If no setter call asks for a load or a displacement across the pile (other than zero), every pass of the analysis leaves all lateral displacements and rotations at exactly zero, the reported displacements, shear forces, moments and reactions across the pile are zero at every elevation, and the table of mobilised resistance and the base shear and base moment report zero. The same holds along the pile, with displacements, normal forces and reactions along it, if no call asks for anything along it. It holds with and without soil, for any springs, also softening ones and springs that differ from element to element, for any supports and any number of passes, and whether or not the analysis settles.", "quantifier": "all piles, sites, springs, spring options, solvers that solve, sequences of setter calls that ask for nothing in one direction, numbers of passes, and both directions", "why_tests_cant": "A test shows a zero for one pile and one site; a term that couples the two directions for some springs or some displacements only would not show there.", "anchors": ["src/openpile/winkler.py:winkler", "src/openpile/winkler.py:beam", "src/openpile/winkler.py:structural_forces_to_df", "src/openpile/core/kernel.py:build_stiffness_matrix", "src/openpile/core/kernel.py:elem_py_stiffness_matrix", "src/openpile/construct.py:Model.set_pointload"]}
{"id": "C143", "title": "The stiffness in a whole analysis is that of the section each element lies in", "statement": "Every element of the mesh gets the stiffness matrix of a beam with the second moment of area, the area (and for Timoshenko elements the width and wall thickness) of a given section that contains it, and with the length of the element: clamped at one end it answers end loads with the textbook deflection, rotation and extension of that section, rigid movements give no force, and for Euler-Bernoulli elements its virtual work is EI times the product of curvatures plus EA times the product of strains, integrated along it. The coefficients of rotational springs are those of the same section and length. Whole analyses with Euler-Bernoulli elements satisfy the principle of virtual work: for every virtual displacement the bending and stretching work of the given sections (plus, in soil, the work of springs along the shaft and at the base with the secant stiffness reached) equals the work of the loads and reported reactions.", "quantifier": "all piles, meshes, sections, moduli, both element types, all boundary conditions, all sound sites and spring options, every right linear solver, all virtual displacements", "why_tests_cant": "A test compares a few deflections. That each element takes its values from the right section, whatever the mesh and the sections, and that the balance holds against every virtual displacement, are statements about infinitely many meshes and displacement fields.", "anchors": ["src/openpile/core/kernel.py:elem_mechanical_stiffness_matrix", "src/openpile/core/kernel.py:elem_mt_stiffness_matrix", "src/openpile/core/kernel.py:mesh_to_element_length", "src/openpile/winkler.py:winkler", "src/openpile/winkler.py:beam", "src/openpile/construct.py:Pile", "src/openpile/construct.py:Model.element_properties"]}
{"id": "C144", "title": "Small prescribed displacements are answered in proportion, after two passes", "statement": "On every sound site the displacements prescribed to a pile can be made so small that the whole analysis, from the description of the site to the result, ends after exactly two passes with displacements and reactions in proportion to the prescribed displacements, in both directions, provided that what is not moved (supports, or soil that resists laterally together with an axial support or friction) holds the pile. Nothing is asked of the stored spring curves beyond their first step. The same for loads is false: loads below 1 kN are cut off and the analysis ends without numbers.", "quantifier": "all sound sites, piles, meshes, soil models and spring options (moment springs only with Euler-Bernoulli elements and soil models whose moment curves do not depend on the lateral resistance, which are the clays), both element types, all lists of calls that set supports and displacements (with axial springs: across the pile in both directions, and along it where the linear answer moves no node upwards, or in every way without the spring at the tip where friction in tension equals that in compression), every factor that is small enough, every right linear solver, all limits on the passes", "why_tests_cant": "A test runs one displacement and cannot tell a proportional answer from one that is proportional for that displacement. That there is always an elastic range, whatever the soil, and that the loop stops in it, is a statement about all sites.", "anchors": ["src/openpile/winkler.py:winkler", "src/openpile/core/kernel.py:calculate_py_springs_stiffness", "src/openpile/core/kernel.py:calculate_base_spring_stiffness", "src/openpile/core/kernel.py:calculate_tz_springs_stiffness", "src/openpile/core/kernel.py:build_stiffness_matrix", "src/openpile/construct.py:Model.set_pointdisplacement", "src/openpile/construct.py:Model.global_disp", "src/openpile/construct.py:Model.global_forces"]}
{"id": "C145", "title": "What Model(...) raises was raised by a spring function, and callables end in TypeError", "statement": "On a site whose geometry is sound, with soil models of any kind and any parameters, the construction of a model either ends with the pile and mesh described and every spring function called for every element in its layer has returned 15 numbers, or it raises an exception that one of the spring functions raised for an element in its own layer (or ValueError because its arrays do not have 15 numbers). It swallows no exception and makes up none. Parameters that pydantic accepts can always fail: a callable object that is not a plain function in a custom PISA layer, or an axial multiplier given as a function, raises TypeError in every otherwise sound site with an element in that layer.", "quantifier": "all geometrically sound sites, all soil models and parameters (sound or not), all spring options, coarse levels, places of extra nodes, random draws and orders of the section table; for the second part all sites that are sound once the callables are left aside", "why_tests_cant": "Tests construct models with parameters that work. Which exceptions can leave the constructor for arbitrary parameters, and that none is lost on the way through the loops over layers and elements, is a statement about all sites.", "anchors": ["src/openpile/construct.py:Model.model_post_init", "src/openpile/construct.py:create_springs", "src/openpile/core/misc.py:get_value_at_current_depth", "src/openpile/core/misc.py:from_list2x_parse_top_bottom", "src/openpile/soilmodels.py:Custom_pisa_sand", "src/openpile/soilmodels.py:Custom_pisa_clay", "src/openpile/soilmodels.py:API_clay_axial", "src/openpile/soilmodels.py:API_sand_axial"]}
{"id": "C146", "title": "Switching springs off on an existing model gives the analysis of a model built without them, but not its spring report", "statement": "A model with soil is constructed, its spring options, element type or material are assigned anew (springs only switched off, the mesh left alone), boundary conditions are set, and it is solved. The result has the same displacements, forces, reactions and number of passes as the result of a model constructed with the new options, and the same table of every kind of spring that is still on. The tables of springs switched off are not the same: wherever the soil has lateral resistance and the pile moves, the report of the existing model shows a lateral resistance mobilised by springs that took no part in the analysis, while the model constructed without them reports zero.", "quantifier": "all sound sites, all programs of assignments and setter calls that leave the mesh alone and only switch springs off, all element types, materials, random draws, orders of the section table and solvers", "why_tests_cant": "Tests set the options in the constructor. The difference needs an object whose arrays were made with other options than those it is solved with, over all sites and programs.", "anchors": ["src/openpile/winkler.py:winkler", "src/openpile/winkler.py:springs_mob_to_df", "src/openpile/core/kernel.py:build_stiffness_matrix", "src/openpile/construct.py:Model.model_post_init", "src/openpile/construct.py:create_springs", "src/openpile/construct.py:Model.solve"]}
{"id": "C147", "title": "Assignments to the spring options of a model can only take springs away", "statement": "A model with soil is constructed with some spring options; then its options, element type, material and boundary conditions are assigned and set in any order, the mesh left alone, and it is solved. The analysis gives the same number of passes, displacements and reactions as that of a model constructed with the springs that were on at the construction and are on now: springs switched on afterwards add nothing, springs switched off are as if never made, and switching one off and on again restores it. If moment springs are on at the end while lateral springs are off, solving raises, whatever was constructed.", "quantifier": "all sound sites, all programs of assignments and setter calls that leave the mesh alone, all options before and after (moment springs on only together with lateral springs, for the first part), element types, materials, random draws, orders of the section table and solvers", "why_tests_cant": "Tests set the options in the constructor. The statement compares two objects with different arrays of springs through every pass of the iteration, over all sites and programs.", "anchors": ["src/openpile/construct.py:Model.model_post_init", "src/openpile/construct.py:create_springs", "src/openpile/construct.py:Model.solve", "src/openpile/core/kernel.py:build_stiffness_matrix", "src/openpile/core/kernel.py:elem_mechanical_stiffness_matrix", "src/openpile/winkler.py:winkler"]}
{"id": "C148", "title": "Stiffer springs, a stiffer pile or more supports give way less", "statement": "Two models with elements of the same lengths are analysed under the same loads. Every spring of the first is present in the second with a slope at least as large, every element of the second is at least as stiff, and everything supported in the first is supported in the second. As long as both piles stay in the elastic range of their springs, both analyses succeed, the loads do no more work on the second pile, and a single load moves its own degree of freedom no more. The same holds for all loads that are small enough, whatever the shape of the curves, and at any load for the first pile at rest if its springs never exceed their initial stiffness and the second pile is elastic. It is false that every displacement becomes smaller, and false that a single load moves its own degree of freedom no more when both piles are beyond their elastic range (both refuted; the second with springs at the tip only, where each pile has one state of rest).", "quantifier": "all pairs of sound models of any size, loads, supports without prescribed displacements and solvers; partial: elastic range (small loads for curves of any shape), moment springs whose curves do not depend on the lateral resistance, settlement only for axial springs of different slope in tension and compression", "why_tests_cant": "A comparison of two analyses over all meshes, stiffnesses, loads and supports; a test compares two numbers, and for a displacement away from the load the comparison may go the other way.", "anchors": ["src/openpile/winkler.py:winkler", "src/openpile/core/kernel.py:build_stiffness_matrix", "src/openpile/core/kernel.py:elem_py_stiffness_matrix", "src/openpile/core/kernel.py:elem_tz_stiffness_matrix", "src/openpile/core/kernel.py:elem_mt_stiffness_matrix", "src/openpile/core/kernel.py:solve_equations"]}
{"id": "C149", "title": "Small errors in the stiffness of pile and soil give small errors in the answers; keeping the spring curves in single precision does no harm", "statement": "Take two piles in soil such that no element and no spring of either is more than 1 + eps times as stiff as its counterpart of the other, with the same loads, supports and prescribed displacements, in the elastic range of the springs. Both analyses succeed. With K the system of the first pile, the difference x of the displacements satisfies (1-eps)^2 x.Kx <= eps^2 v.Kv, and at every degree of freedom the squared difference is at most (eps/(1-eps))^2 times the displacement a unit load causes there times v.Kv (the work of the loads if nothing is prescribed). Where a single load acts, the displacements differ by at most eps/(1-eps) times the displacement. For prescribed displacements without loads the reactions do work within the factor 1 + eps of each other, and a single prescribed displacement has reactions within that factor. If the points of the curves agree up to a relative error d < 1/3, eps = 2d/(1-d). For the program itself: when two copies of openpile keep their spring arrays with different precision, each with a relative error of at most d < 1/7, the analyses of the same site (without moment springs, or with moment springs of clays) under the same small prescribed displacements agree in this sense with eps = 4d/(1-3d), whatever the soil models.", "quantifier": "for all pairs of piles in soil with corresponding springs, all loads, supports and prescribed displacements whose answers are in the elastic range (or all directions of a load, made small), all relative errors eps < 1 (d < 1/3), all linear solvers and iteration limits; for the program: all sites with sound pile and soil, all programs of prescribed displacements and supports that hold the pile, all pairs of storage precisions", "why_tests_cant": "a test compares one model with one perturbed copy; the bound has to hold for every perturbation of every stiffness at once and at every degree of freedom", "anchors": ["src/openpile/construct.py:Model.create_springs", "src/openpile/core/kernel.py:build_stiffness_matrix", "src/openpile/winkler.py:winkler"]}
{"id": "C150", "title": "Small loads in proportion are answered in proportion, also by springs that are stiffer one way than the other", "statement": "For every pile in soil with curves of regular shape, every direction of loads and prescribed displacements, every choice of supports and every iteration limit there is a size below which the analyses of all multiples of these loads end alike: with the same exception, or after the same number of passes, with NaN results in all or in none, with displacements (after every pass) and reactions in proportion to the loads, and squared error and tolerance in proportion to the square of the loads. Unlike in C129 the pile may be pulled up against axial springs that start with different slopes in tension and in compression, so that the first pass, made with the slope in compression, is not the last; whether a pile carries small loads, and after how many passes, depends on their directions only. The same holds for analyses of one site from its layers, sections and calls (springs stored with rounding), under prescribed displacements in proportion. It is false that small loads superpose in general: there is a pile in regular soil that small pulls of every size lift by twice as much as pushes of the same size sink it (refuted).", "quantifier": "for all models of any size with regular curves (moment springs whose curves do not depend on the lateral resistance), all loads, prescribed displacements, supports and iteration limits, all pairs of small positive factors and all pairs of exact linear solvers; for the program as a whole all sound sites, storages, calls without loads and factors; partial: loads in the program as a whole, moment springs as said", "why_tests_cant": "a test scales one load of one model by one factor; the claim is about all directions of loads, the whole run of the iteration including its failures, and all factors below a size that depends on the model", "anchors": ["src/openpile/winkler.py:winkler", "src/openpile/core/kernel.py:build_stiffness_matrix", "src/openpile/core/kernel.py:calculate_tz_springs_stiffness", "src/openpile/core/kernel.py:calculate_base_axial_spring_stiffness", "src/openpile/core/kernel.py:calculate_py_springs_stiffness", "src/openpile/construct.py:Model.create_springs"]}
