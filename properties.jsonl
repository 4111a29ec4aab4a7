{"id": "C01", "title": "Field registry is a stable bijection", "statement": "After any sequence of field requests, the ids handed out are exactly 0..n-1, two requests with the same relation, length, temporal kind and label get the same id, different labels never share an id even when they differ only by upper/lower case (such a request is refused), and the specification and label of an id never change afterwards; a refused request leaves the registry unchanged.", "quantifier": "every finite history of getFieldId requests with arbitrary specs and labels, and every id and label looked up at any later point", "why_tests_cant": "The claim is about all interleavings of registrations made by materials, damage models, computes and output; a unit test registers a handful of fixed names.", "anchors": ["src/core/Peridigm_Field.hpp:FieldManager,FieldSpec", "src/core/Peridigm_Field.cpp:FieldManager::getFieldId,hasField,getFieldSpec"]}
{"id": "C02", "title": "Two-step fields keep exactly one step of history", "statement": "Through the data manager, updateState makes the value written at step N+1 readable at step N for every point, bond and global field, leaves single-step (NONE) data untouched, and after k updates the N slot holds precisely the last value written to N+1 before the latest update; N+1 data written before one update are not visible at N+1 after it until rewritten (except globals, which are copied).", "quantifier": "every data manager contents, every field, and every finite sequence of writes and updateState calls", "why_tests_cant": "The swap/copy mechanism differs by field kind and the claim is about arbitrarily long histories of writes and updates.", "anchors": ["src/core/Peridigm_DataManager.cpp:DataManager::updateState,getData,allocateData", "src/core/Peridigm_DataManager.hpp", "src/core/Peridigm_State.cpp:State"]}
{"id": "C03", "title": "Field data follow their global ids when copied or redistributed", "statement": "Copying the locally owned data of one state or data manager into another gives every entity of the target exactly the values its global id has in the source, whatever the two orderings; an id missing from the source, a different element size or a different number of vectors is reported as an error and is never silently turned into data of another entity.", "quantifier": "all pairs of maps (orders, sizes), all data, all subsets of shared global ids", "why_tests_cant": "Needs all permutations and subsets of ids.", "anchors": ["src/core/Peridigm_State.cpp:copyLocallyOwnedMultiVectorData,copyLocallyOwnedDataFromState", "src/core/Peridigm_DataManager.cpp:copyLocallyOwnedDataFromDataManager"]}
{"id": "C04", "title": "Block-local maps and neighbour lists describe the same bonds as the global ones", "statement": "For every block: its owned points are exactly the owned points of the problem assigned to that block, in the global order; its overlap points are the owned points followed by exactly those neighbours that are not owned in the block, without repetition; and reading the block's local neighbour list back through its local-to-global map gives the global neighbour list of each owned point, bond by bond in the same order. Every owned point is in exactly one block when blocks partition the points.", "quantifier": "all meshes, block assignments and neighbourhood lists", "why_tests_cant": "The construction must be right for every assignment of points to blocks and every overlap pattern between blocks.", "anchors": ["src/core/Peridigm_BlockBase.cpp:createMapsFromGlobalMaps,createNeighborhoodDataFromGlobalNeighborhoodData"]}
{"id": "C05", "title": "Assembling block forces into the global vector loses and invents nothing", "statement": "Exporting a field from the overlap data of the blocks into the global vector with addition gives each global point the sum of the values all blocks hold for that id, so that the global total equals the total over all blocks including ghosts, and importing a global vector into a block gives each overlap point the value of its global id.", "quantifier": "all blocks, overlaps and values", "why_tests_cant": "Totals have to be right for every pattern of ghosts shared by several blocks.", "anchors": ["src/core/Peridigm_Block.cpp:Block::importData,exportData", "src/core/Peridigm_ModelEvaluator.cpp", "src/core/Peridigm.cpp:executeExplicit"]}
{"id": "C06", "title": "Bonds broken by the critical stretch model never heal and damage stays in [0,1]", "statement": "With the critical stretch damage model, a bond whose damage value is 1 at some step has value 1 at every later step, for arbitrary (even NaN) positions; a bond breaks exactly when its relative extension exceeds the critical stretch at some step; the damage reported for a point is the fraction of its bonds that are broken, lies in [0,1] and never decreases from one step to the next.", "quantifier": "every sequence of deformed configurations, every neighbourhood, every history of evaluate-then-update steps, in IEEE double arithmetic for the bond part", "why_tests_cant": "The statement is about all future steps of every simulation.", "anchors": ["src/damage/Peridigm_CriticalStretchDamageModel.cpp:computeDamage", "src/core/Peridigm_DataManager.cpp:updateState"]}
{"id": "C07", "title": "Bonds never heal with the other bond-breaking models", "statement": "The same irreversibility is expected of the user-defined time-dependent critical stretch model and of the interface-aware model, and of the damage computed in the initial evaluation of an explicit run.", "quantifier": "every sequence of configurations and every number of steps", "why_tests_cant": "Healing appears only after particular multi-step histories because the state buffers are swapped between steps.", "anchors": ["src/damage/Peridigm_UserDefinedTimeDependentCriticalStretchDamageModel.cpp:computeDamage", "src/damage/Peridigm_InterfaceAwareDamageModel.cpp:computeDamage", "src/core/Peridigm.cpp:executeExplicit"]}
{"id": "C08", "title": "A broken bond carries no force", "statement": "If a bond's damage is 1, the pairwise force it contributes to either end is zero in every elastic, bond-based, viscoelastic and plastic material, so the forces of a body do not depend on how the ends of a broken bond move relative to one another (apart from the shared dilatation).", "quantifier": "all configurations, materials and damage states", "why_tests_cant": "Must hold for every configuration including coincident deformed points.", "anchors": ["src/materials/elastic.cxx:computeInternalForceLinearElastic", "src/materials/elastic_bond_based.cxx", "src/materials/viscoelastic.cxx", "src/materials/elastic_plastic.cxx"]}
{"id": "C09", "title": "Internal forces conserve linear momentum", "statement": "For every pairwise-force material (linear peridynamic solid, bond-based, viscoelastic, elastic-plastic, hardening, partial-volume) the volume-weighted sum of the internal force density computed by the kernel over all owned and ghost points is zero, and equals the previous total when the force vector is not cleared.", "quantifier": "all point clouds, neighbour lists (symmetric or not), damage, histories and material constants", "why_tests_cant": "Unit tests use two- or eight-point bodies; the claim must hold for any neighbour list.", "anchors": ["src/materials/elastic.cxx:computeInternalForceLinearElastic", "src/materials/elastic_bond_based.cxx", "src/materials/viscoelastic.cxx", "src/materials/elastic_plastic.cxx", "src/materials/elastic_plastic_hardening.cxx", "src/materials/elastic_pv.cxx"]}
{"id": "C10", "title": "Internal forces conserve angular momentum", "statement": "For the same ordinary state-based and bond-based materials the total moment (volume-weighted sum of position cross force density) of the internal forces is zero.", "quantifier": "all point clouds, neighbour lists, damage, histories and material constants", "why_tests_cant": "Depends on forces being directed along every deformed bond.", "anchors": ["src/materials/elastic.cxx", "src/materials/elastic_bond_based.cxx", "src/materials/viscoelastic.cxx", "src/materials/elastic_plastic.cxx"]}
{"id": "C11", "title": "Material response is frame indifferent", "statement": "Superposing a rigid rotation and translation on the deformed configuration rotates the internal force density by the same rotation and leaves dilatation unchanged; a body that has only been moved rigidly from its reference configuration has zero dilatation and zero internal force.", "quantifier": "all point clouds, neighbour lists, rotations, translations and material constants", "why_tests_cant": "Continuum of rotations and configurations.", "anchors": ["src/materials/material_utilities.cxx:computeDilatation,computeWeightedVolume", "src/materials/elastic.cxx", "src/materials/elastic_bond_based.cxx"]}
{"id": "C12", "title": "Dilatation and weighted volume are calibrated", "statement": "The weighted volume is non-negative, positive as soon as some neighbour with positive volume and influence lies at a positive distance; an isotropic expansion by factor (1+e) of an undamaged neighbourhood gives dilatation exactly 3e; the resulting LPS bond force state is 3*K*theta*omega*zeta/m, i.e. the pressure response depends on the bulk modulus only.", "quantifier": "all neighbourhoods, volumes, influence values and expansions", "why_tests_cant": "Holds for every discretisation, not only regular ones.", "anchors": ["src/materials/material_utilities.cxx:computeDilatation,computeWeightedVolume", "src/materials/elastic.cxx"]}
{"id": "C13", "title": "Influence functions are non-negative and vanish where documented", "statement": "The built-in influence functions return a value in [0,1] for every bond length not exceeding the horizon; the parabolic decay equals 1 up to half the horizon, decreases to 0 at the horizon, is continuous and is 0 beyond; the Gaussian is positive and strictly decreasing; selecting a text that is neither a built-in name nor an expression the run-time compiler accepts is an error, and an unset name means the constant function.", "quantifier": "all bond lengths and horizons", "why_tests_cant": "Continuous ranges; breakpoints.", "anchors": ["src/core/Peridigm_InfluenceFunction.cpp", "src/core/Peridigm_InfluenceFunction.hpp"]}
{"id": "C14", "title": "Elastic-perfectly-plastic solid: yield consistency and monotone plastic multiplier", "statement": "After every evaluation the deviatoric force state lies on or inside the yield surface (half its squared norm does not exceed the point's yield value), it equals the trial state when the trial state is admissible, the consistency multiplier never decreases, and plastic deviatoric extension changes only when yielding.", "quantifier": "all trial states, neighbourhoods, constants, and all histories of evaluations", "why_tests_cant": "Return-mapping correctness over arbitrary loading histories.", "anchors": ["src/materials/elastic_plastic.cxx:computeInternalForceIsotropicElasticPlastic,computeDeviatoricForceStateNorm"]}
{"id": "C15", "title": "Isotropic hardening update solves the consistency equation", "statement": "When the trial state exceeds the hardened yield value, the multiplier increment returned by the closed-form cubic solver is positive and satisfies the discrete consistency condition ||t_trial||^2/(2(1+alpha*dl)^2) = psi + H*(lambda_n+dl); when it does not, the increment is zero; lambda never decreases.", "quantifier": "all trial norms, accumulated multipliers, yield values, moduli (hardening modulus > 0)", "why_tests_cant": "The solver has a trigonometric and a radical branch and picks a root; samples cannot show the right root is always picked.", "anchors": ["src/materials/elastic_plastic_hardening.cxx:updateDeltaLambda,computeInternalForceIsotropicHardeningPlastic"]}
{"id": "C16", "title": "Viscoelastic back-extension update is exact and stable", "statement": "The back-extension update integrates the standard linear solid exactly for piecewise linear deviatoric extension: for constant extension it converges monotonically to that extension, never overshoots, k steps of size dt from the same state equal one step of size k*dt, and relaxation with lambda_i=0 reproduces the elastic force.", "quantifier": "all time steps dt>0, time constants tau>0, extensions and numbers of steps", "why_tests_cant": "Statement about every number of steps and every step size.", "anchors": ["src/materials/viscoelastic.cxx:computeInternalForceViscoelasticStandardLinearSolid"]}
{"id": "C17", "title": "Correspondence kinematics reproduce affine deformations", "statement": "If the deformed positions are an affine image y = A x + b of the reference positions and the shape tensor of a point is invertible, the approximate deformation gradient returned for the point is exactly A and the hourglass force is exactly zero; a singular shape tensor is reported by a non-zero return code; the 3x3 inverse is a true two-sided inverse whenever the return code is zero.", "quantifier": "all neighbourhoods, volumes, horizons, A and b", "why_tests_cant": "All neighbourhood geometries and all matrices.", "anchors": ["src/materials/correspondence.cxx:Invert3by3Matrix,MatrixMultiply,TransposeMatrix,computeShapeTensorInverseAndApproximateDeformationGradient,computeHourglassForce"]}
{"id": "C18", "title": "The tracked rotation stays a rotation", "statement": "The rotation tensor updated by the correspondence kinematics remains orthogonal (R^T R = I) with determinant unchanged at every step for every history, the unrotated rate of deformation and the rotated Cauchy stress are symmetric with invariants (trace, deviatoric norm) preserved, and a failed inversion is reported to the caller.", "quantifier": "all velocity gradients, stretches, time steps and number of steps, starting from an orthogonal rotation", "why_tests_cant": "Orthogonality must not drift over arbitrarily many steps.", "anchors": ["src/materials/correspondence.cxx:computeUnrotatedRateOfDeformationAndRotationTensor,rotateCauchyStress"]}
{"id": "C19", "title": "J2 perfect plasticity: stress never leaves the yield surface, plastic strain never decreases", "statement": "After every step of the elastic-perfectly-plastic correspondence model the von Mises stress of the stored Cauchy stress is at most the yield stress and equals the reported von Mises stress; the pressure is the elastic one; elastic steps are pure Hooke steps; the equivalent plastic strain never decreases.", "quantifier": "all rates of deformation, stresses, constants, time steps and histories", "why_tests_cant": "History property over unboundedly many steps.", "anchors": ["src/materials/elastic_plastic_correspondence.cxx:updateElasticPerfectlyPlasticCauchyStress", "src/materials/elastic_correspondence.cxx:updateElasticCauchyStress"]}
{"id": "C20", "title": "Critical time step estimate bounds every point", "statement": "The returned critical time step is positive, is no larger than the stable step of any owned point of the block, is attained by some point, scales with sqrt(density), and the global step used by the explicit integrator is no larger than the estimate of any block and any processor times the safety factor.", "quantifier": "all meshes, material constants and safety factors", "why_tests_cant": "Minimum over all points, blocks and processors.", "anchors": ["src/core/Peridigm_CriticalTimeStep.cpp:ComputeCriticalTimeStep", "src/core/Peridigm.cpp:executeExplicit"]}
{"id": "C21", "title": "Bond filters cut exactly the bonds that cross the surface and only those", "statement": "A bond is flagged by a plane, disk, triangle or quadrilateral filter only if the open segment between the two points meets the surface; a bond that crosses the interior of the surface transversally is flagged; filtering is symmetric in the two end points; flags are only ever added, so the order of filters is irrelevant; and a filter never removes a point other than by a flag of its own neighbour position.", "quantifier": "all point pairs and surface placements and all lists of filters", "why_tests_cant": "Continuous geometry; symmetry matters for every pair.", "anchors": ["src/io/pdneigh/BondFilter.cxx:FinitePlane,FinitePlaneFilter,DiskFilter,TriangleFilter,QuadFilter"]}
{"id": "C22", "title": "Neighbour search returns exactly the points within the radius", "statement": "The kd-tree radius search returns every point within the requested radius of the query point exactly once and no other point.", "quantifier": "all point clouds, query points and radii", "why_tests_cant": "Depends on tree shape, cut planes and box tests for all clouds.", "anchors": ["src/io/kdtree.h:kdtree,all_neighbors_sphere", "src/io/Peridigm_JAMSearchTree.cpp:FindPointsWithinRadius"]}
{"id": "C23", "title": "Building the search tree terminates", "statement": "Constructing the search tree finishes for every finite point cloud.", "quantifier": "all point clouds, including clouds with repeated points and clouds whose extent is close to the resolution of double", "why_tests_cant": "Non-termination needs special clouds.", "anchors": ["src/io/kdtree.h"]}
{"id": "C24", "title": "Nearest-neighbour query returns a nearest point", "statement": "The nearest-neighbour query returns a point of the cloud whose distance to the query is minimal.", "quantifier": "all non-empty point clouds and query points", "why_tests_cant": "Branch-and-bound pruning must be safe for all clouds.", "anchors": ["src/io/kdtree.h:nearest_neighbor_search"]}
{"id": "C25", "title": "Parallel neighbour lists equal serial ones", "statement": "When points are distributed over processors by axis-aligned cuts, each processor's neighbour list (after exchanging frame points) contains for each owned point exactly the points of the whole cloud within that point's horizon.", "quantifier": "all clouds, all decompositions, all (possibly point-dependent) horizons", "why_tests_cant": "All decompositions and process counts.", "anchors": ["src/io/pdneigh/NeighborhoodList.cxx:createAndAddNeighborhood", "src/io/utilities/Sortable.cxx:constructFrameSet"]}
{"id": "C26", "title": "Flat neighbourhood lists stay well formed", "statement": "The flat list (count followed by ids, per point) produced by the search, by discretisation, by block splitting and by rebalancing decodes to exactly the intended list of neighbours for every point, pointers index the counts, the recorded size is the length, and decode(encode(l)) = l.", "quantifier": "all neighbour lists", "why_tests_cant": "Offsets depend on all previous entries.", "anchors": ["src/io/pdneigh/NeighborhoodList.cxx:buildNeighborhoodList,createLocalNeighborList", "src/io/Peridigm_ProximitySearch.cpp:RebalanceNeighborhoodList", "src/core/Peridigm_BlockBase.cpp", "src/core/Peridigm_NeighborhoodData.hpp"]}
{"id": "C27", "title": "QuickGrid distributes every cell exactly once", "statement": "Iterating the tensor-product mesh generator over the processors assigns every cell of the nx x ny x nz grid to exactly one processor, with global ids 0..nx*ny*nz-1 in order, coordinates at the cell centre of that id and equal cell volumes adding up to the volume of the box.", "quantifier": "all grid sizes and processor counts", "why_tests_cant": "The hand-over of the cell locator between processors depends on where each share ends.", "anchors": ["src/io/mesh_input/quick_grid/QuickGrid.cxx:TensorProduct3DMeshGenerator::computePdGridData,getNumCellsPerProcessor,getDiscretization"]}
{"id": "C28", "title": "QuickGrid neighbour lists are exact and fit their buffer", "statement": "With the spherical norm the neighbour list of every cell is exactly the set of other cells whose centre lies strictly within the horizon; the list never writes past the buffer allocated for it, whatever the norm.", "quantifier": "all grid sizes, spacings, horizons and processor shares", "why_tests_cant": "Buffer size is computed by a separate traversal; rounding of the cell horizon must never lose a cell.", "anchors": ["src/io/mesh_input/quick_grid/QuickGrid.cxx:computePdGridData,getSizeNeighborList,computeNumNeighbors,Spec1D::getCellNeighborhoodSize", "src/io/mesh_input/quick_grid/QuickGrid.h:Horizon"]}
{"id": "C29", "title": "Short-range contact forces are pairwise, repulsive and dissipative", "statement": "The contact force between two points is zero at or beyond the contact radius, repels along the line of centres inside it with magnitude decreasing to zero at the radius, conserves total linear momentum over the whole body, and the friction part opposes the relative tangential velocity with magnitude mu times the normal force (zero for zero relative velocity).", "quantifier": "all configurations, velocities, radii, coefficients and neighbour lists", "why_tests_cant": "Universal over configurations.", "anchors": ["src/contact/Peridigm_ShortRangeForceContactModel.cpp:computeForce"]}
{"id": "C30", "title": "Contact search pairs exactly the close, unbonded points", "statement": "The contact neighbour list built for each point contains exactly those points within the search radius that are not bonded to it and not itself, and every id it mentions is available on the processor.", "quantifier": "all configurations, bond lists and decompositions", "why_tests_cant": "Set-difference must be right for every id ordering.", "anchors": ["src/core/Peridigm_ContactManager.cpp:contactSearch,createRebalancedContactNeighborhoodData"]}
{"id": "C31", "title": "Each pair of blocks has one contact model", "statement": "After reading the contact input every unordered pair of blocks has at most one contact model, and it is the one defined last / most specifically in the input.", "quantifier": "all contact input decks", "why_tests_cant": "Depends on combinations of general, self and individual definitions.", "anchors": ["src/core/Peridigm_ContactManager.cpp:createContactInteractionsList"]}
{"id": "C32", "title": "Explicit run: times and kinematics", "statement": "An explicit run performs floor((tf-ti)/dt) steps, step k is at time ti+k*dt, never beyond the final time and with less than one step missing; after every step the current position equals the model position plus the displacement and the velocity is the Verlet half-step update of acceleration.", "quantifier": "all initial/final times, steps, forces and numbers of steps", "why_tests_cant": "All numbers of steps; rounding effects in double.", "anchors": ["src/core/Peridigm.cpp:executeExplicit"]}
{"id": "C33", "title": "An isolated body keeps its momentum throughout an explicit run", "statement": "Without boundary conditions and external forces, with forces given by any momentum-conserving force evaluation, total linear momentum after any number of explicit steps equals the initial one, and the centre of mass moves uniformly.", "quantifier": "all numbers of steps, initial states and pairwise forces", "why_tests_cant": "Composition over unboundedly many steps of the integrator with the force kernels.", "anchors": ["src/core/Peridigm.cpp:executeExplicit", "src/materials/elastic.cxx"]}
{"id": "C34", "title": "Quasi-static load stepping reaches the final time or stops with an error", "statement": "The adaptive load stepping visits strictly increasing times, every accepted step ends at a scheduled time, the loop ends after finitely many attempts, and a successful run ends exactly at the final time and never goes beyond it.", "quantifier": "all time-step lists, all patterns of solver success and failure, both subdivision modes", "why_tests_cant": "All patterns of failures.", "anchors": ["src/core/Peridigm.cpp:executeQuasiStatic"]}
{"id": "C35", "title": "Line search returns its best finite trial", "statement": "The line search returns a step length among its candidates (or the default 1), never one whose residual was not finite, leaves the displacement increment unchanged, and when some candidate reduces the residual by more than the documented fraction the returned one has the smallest residual of those tried.", "quantifier": "all residual functions (including NaN/infinite results) and increments", "why_tests_cant": "Universal over residual landscapes.", "anchors": ["src/core/Peridigm.cpp:quasiStaticsLineSearch"]}
{"id": "C36", "title": "Implicit (Newmark) kinematics are consistent", "statement": "After any number of Newton corrections within a step and over any number of steps, displacement, velocity and acceleration satisfy the Newmark relations with the values at the beginning of the step, y = x + u, and prescribed displacements are imposed.", "quantifier": "all beta>0, gamma, dt, solver increments, numbers of iterations and steps", "why_tests_cant": "Arbitrary solver outputs.", "anchors": ["src/core/Peridigm.cpp:executeImplicit"]}
{"id": "C37", "title": "Tangent matrix: sparsity covers every coupling and finite differences are exact for affine forces", "statement": "The allocated sparsity pattern is structurally symmetric, contains the diagonal and every entry that assembly of any point's neighbourhood can touch; the central finite-difference tangent equals the exact derivative when the force depends affinely (or quadratically) on positions; no entry carries data of another point.", "quantifier": "all neighbourhoods, degrees of freedom layouts and probe lengths", "why_tests_cant": "All neighbour graphs.", "anchors": ["src/core/Peridigm.cpp:allocateJacobian", "src/materials/Peridigm_Material.cpp:computeFiniteDifferenceJacobian", "src/core/Peridigm_SerialMatrix.cpp:addValues"]}
{"id": "C38", "title": "Prescribed boundary conditions act exactly on their node set and component", "statement": "Applying a Dirichlet-type condition changes only the chosen component of nodes in the node set; the displacement increments applied over any partition of a time interval add up to the prescribed value at the end minus that at the beginning; the corresponding velocity is increment/dt.", "quantifier": "all node sets, functions of time and position, and time partitions", "why_tests_cant": "Telescoping over arbitrarily many steps.", "anchors": ["src/core/Peridigm_BoundaryCondition.cpp", "src/core/Peridigm_BoundaryAndInitialConditionManager.cpp"]}
{"id": "C39", "title": "Constrained rows are removed consistently", "statement": "Inserting zeros for kinematic conditions zeroes the rows and columns of constrained degrees of freedom in the tangent (with a non-zero diagonal) and the corresponding residual entries, and touches nothing else, so the linear solve leaves the constrained increments at zero.", "quantifier": "all matrices, vectors and constraint sets", "why_tests_cant": "All patterns of constraints.", "anchors": ["src/core/Peridigm_BoundaryAndInitialConditionManager.cpp:applyKinematicBC_InsertZeros,applyKinematicBC_InsertZerosAndSetDiagonal"]}
{"id": "C40", "title": "Node sets mean the listed nodes", "statement": "A node set given as text contains exactly the listed node numbers (converted from 1-based to 0-based), whatever white space separates or follows them.", "quantifier": "all lists of node numbers and all separators", "why_tests_cant": "Parsing edge cases such as trailing blanks or an empty set.", "anchors": ["src/core/Peridigm_BoundaryAndInitialConditionManager.cpp:initializeNodeSets"]}
{"id": "C41", "title": "Elastic constants: any two define the same material", "statement": "The bulk and shear moduli computed from any two of bulk modulus, shear modulus, Young's modulus and Poisson's ratio agree with the moduli of the isotropic material having these constants, independently of which pair was given; fewer or more than two constants are rejected; plane strain/stress options act the same way whichever pair is given.", "quantifier": "all admissible materials and all pairs", "why_tests_cant": "Continuum of constants and all pair combinations.", "anchors": ["src/materials/Peridigm_Material.cpp:calculateBulkModulus,calculateShearModulus"]}
{"id": "C42", "title": "Horizon lookup", "statement": "The horizon used for a block is the one specified for that block if any, otherwise the default one; asking for a block without either is an error; the last definition wins.", "quantifier": "all block/horizon specifications and lookups", "why_tests_cant": "All combinations of default and specific definitions in any order.", "anchors": ["src/core/Peridigm_HorizonManager.cpp"]}
{"id": "C43", "title": "Degrees of freedom layout is a bijection", "statement": "Offsets and counts of the active displacement, temperature, concentration and pressure unknowns partition 0..ndof-1 with no overlap, so (node, unknown) maps one-to-one onto matrix rows.", "quantifier": "all subsets of active physics, all nodes, all (re)initialisations", "why_tests_cant": "All combinations and repeated initialisation.", "anchors": ["src/core/Peridigm_DegreesOfFreedomManager.cpp"]}
{"id": "C44", "title": "Element volumes and centroids are exact", "statement": "Tetrahedron and hexahedron volumes are invariant under translation, non-negative for correctly oriented elements, exact for parallelepipeds, additive for elements sharing a face, and centroids are equivariant under translation and exact for parallelepipeds; an inverted tetrahedron is reported.", "quantifier": "all node coordinates", "why_tests_cant": "Continuum of shapes.", "anchors": ["src/io/discretization/Peridigm_GeometryUtils.cpp:tetVolume,tetCentroid,hexCentroidAndVolume"]}
{"id": "C45", "title": "Element/sphere classification is right", "statement": "INSIDE is returned only if the whole element is inside the sphere, OUTSIDE only if no point of the element is strictly inside the sphere, INTERSECTS only if the element has points in (or on) the sphere.", "quantifier": "all elements and spheres", "why_tests_cant": "Geometry with many degenerate positions.", "anchors": ["src/io/discretization/Peridigm_GeometryUtils.cpp:triangleSphereIntersection,tetrahedronSphereIntersection,hexahedronSphereIntersection"]}
{"id": "C46", "title": "Block names map to their block number", "statement": "A block named with the documented convention (text, underscore, number, or the Dream3D form GRAIN<number>_SET) is given that number as block id.", "quantifier": "all names of the documented form and all numbers", "why_tests_cant": "All names.", "anchors": ["src/io/discretization/Peridigm_Discretization.cpp:blockNameToBlockId"]}
{"id": "C47", "title": "Restart accepts the time it wrote", "statement": "A run restarted with Initial Time equal to the time at which the restart files were written is accepted, for every time.", "quantifier": "all double times", "why_tests_cant": "All doubles.", "anchors": ["src/core/Peridigm.cpp:writeRestart,readRestart,InitializeRestart"]}
{"id": "C48", "title": "Global output quantities are what their names say", "statement": "Global kinetic energy is the sum over all points of 0.5 m v^2 (independent of the decomposition into blocks and processors), global linear and angular momentum are the magnitude of the total momentum, Block_Data minimum/maximum/sum are the minimum/maximum/sum over the owned points of the block, and the nearest point is the owned point with minimal distance, lowest id on ties.", "quantifier": "all data, blocks and processor decompositions", "why_tests_cant": "Independence of the decomposition and sign of data.", "anchors": ["src/compute/Peridigm_Compute_Kinetic_Energy.cpp", "src/compute/Peridigm_Compute_Linear_Momentum.cpp", "src/compute/Peridigm_Compute_Angular_Momentum.cpp", "src/compute/Peridigm_Compute_Block_Data.cpp", "src/compute/Peridigm_Compute_Nearest_Point_Data.cpp"]}
{"id": "C49", "title": "Output is written exactly at the requested steps", "statement": "With output frequency f and first/last output step a, b, a run writes output for step s exactly when a <= s <= b and f divides s, consecutive writes get consecutive output indices starting at 1, and a non-positive frequency writes nothing.", "quantifier": "all frequencies, ranges and numbers of steps", "why_tests_cant": "All step counts and settings.", "anchors": ["src/io/Peridigm_OutputManager_ExodusII.cpp:write"]}
{"id": "C50", "title": "Time-dependent data files are interpolated linearly", "statement": "Loading data at time t gives, for every node, the linear interpolation in time of the file's values, whatever the sequence of times requested before; a time outside the file is an error.", "quantifier": "all files (increasing times), all request sequences", "why_tests_cant": "Caching makes the result depend on history.", "anchors": ["src/core/Peridigm_DataLoader.cpp:loadData,loadDataFromFile"]}
{"id": "C51", "title": "Diffusive fluxes are conserved", "statement": "For the nonlocal diffusion kernels the volume-weighted sum of flux divergence (or fluid flow) over all points is zero, no flux flows for a uniform field, and more bond damage does not lower the fluid flux between two points.", "quantifier": "all configurations, fields and neighbour lists", "why_tests_cant": "Universal statement.", "anchors": ["src/materials/nonlocal_diffusion.cxx:computeInternalFluidFlow", "src/materials/Peridigm_DiffusionMaterial.cpp"]}
{"id": "C52", "title": "Input keywords round-trip", "statement": "Converting an enumerated setting to text and back gives the same setting, any unknown text is an error, and keyword comparison ignores case and blanks/underscores consistently.", "quantifier": "all strings", "why_tests_cant": "All strings.", "anchors": ["src/core/Peridigm_Enums.cpp"]}
{"id": "C53", "title": "A state lists its own fields", "statement": "Asking a state for its field ids without arguments gives the complete list of its fields, as its documentation says, and any set of registered fields can be allocated together.", "quantifier": "all states and registries", "why_tests_cant": "Must hold for every set of fields.", "anchors": ["src/core/Peridigm_State.hpp:getFieldIds", "src/core/Peridigm_State.cpp:getFieldIds,allocatePointData"]}
{"id": "C54", "title": "Stress and plastic-strain driven damage never decreases", "statement": "With the von Mises stress and the Johnson-Cook damage models the damage of every bond stays in [0,1] and never decreases from one step to the next, whatever stresses and plastic strains the material reports.", "quantifier": "all sequences of stresses, plastic strains and triaxialities, all parameters with threshold below critical damage", "why_tests_cant": "A statement about every later step of every simulation.", "anchors": ["src/damage/Peridigm_VonMisesStressDamageModel.cpp:computeDamage", "src/damage/Peridigm_JohnsonCookDamageModel.cpp:computeDamage"]}
{"id": "C55", "title": "An isolated body keeps its angular momentum throughout an explicit run", "statement": "Without boundary conditions and external forces, with forces that have no total moment about the origin in the deformed configuration, the total angular momentum (sum of mass times position cross velocity) at every output of an explicit run equals the initial one, whatever the number and size of the steps.", "quantifier": "all numbers and sizes of steps, initial states and moment-free force evaluations (in particular the linear peridynamic solid)", "why_tests_cant": "Composition over unboundedly many steps; tests compare a few steps to a tolerance.", "anchors": ["src/core/Peridigm.cpp:executeExplicit", "src/materials/elastic.cxx"]}
{"id": "C56", "title": "Largest distance from a point to the nodes of an element", "statement": "The query for the largest distance between a point and the nodes of an element returns the distance of one of the nodes, and no node (hence no point of the convex hull of the nodes) is farther away.", "quantifier": "all node lists and points", "why_tests_cant": "All inputs, including every number of nodes.", "anchors": ["src/io/discretization/Peridigm_GeometryUtils.cpp:maxDistanceToNode"]}
{"id": "C57", "title": "Omitting bonds between blocks keeps exactly the bonds within blocks", "statement": "With 'Omit Bonds Between Blocks' set to All, the neighbour list of every point keeps, in their order, exactly those neighbours that belong to the same block as the point; symmetric lists stay symmetric; the block numbers of the mesh may be any positive numbers.", "quantifier": "every number of blocks, every assignment of points to blocks, every neighbour list", "why_tests_cant": "The filter uses block numbers as subscripts of a table sized by the number of blocks; a test on blocks 1 and 2 cannot show what happens for other numberings.", "anchors": ["src/io/discretization/Peridigm_ExodusDiscretization.cpp: filterBonds", "src/io/discretization/Peridigm_TextFileDiscretization.cpp: filterBonds"]}
{"id": "C58", "title": "Processor 0 distributes the mesh without blocking", "statement": "When processor 0 hands every other processor its share of the generated mesh, no schedule and no choice of MPI buffering can block: every processor returns, with exactly the share computed for it, and no message is left over. A mesh with fewer cells than processors is distributed like any other.", "quantifier": "every number of processors, all meshes, every interleaving of the processors, every choice of buffered or waiting sends", "why_tests_cant": "Deadlocks depend on the schedule and on the MPI library's buffering; a test with small messages runs with buffered sends only.", "anchors": ["src/io/mesh_input/quick_grid/QuickGrid.cxx: getDiscretization"]}
{"id": "C59", "title": "J2 plasticity with hardening: stress stays within the hardened yield surface", "statement": "The isotropic hardening materials (linear and power law) keep the von Mises stress of the stress they return within the yield stress belonging to the equivalent plastic strain they report; that strain grows by the equivalent of the plastic strain increment and never decreases; the pressure is the elastic one; steps below the yield stress follow Hooke's law; the von Mises stress and the stress triaxiality reported are those of the stress returned.", "quantifier": "all rates of deformation, stresses, plastic strains, material constants, time steps, flaw data and lengths of the history", "why_tests_cant": "A statement about every stress state, every strain increment and unboundedly many steps.", "anchors": ["src/materials/isotropic_hardening_correspondence.cxx:updateElasticIsotropicHardeningPlasticCauchyStress,updateElasticIsotropicPowerlawHardeningPlasticCauchyStress", "src/materials/Peridigm_IsotropicHardeningPlasticCorrespondenceMaterial.cpp"]}
{"id": "C60", "title": "The iterated radial return ends, on the yield surface of the new plastic strain", "statement": "The radial return of the bond-associated hardening materials (power law and saturation exponential) ends within its iteration limit for every strain increment, and then the von Mises stress equals the yield stress of the new equivalent plastic strain to within the stated tolerance, the plastic strain has grown by the equivalent of the plastic strain increment, the pressure is the elastic one and the deviator keeps its direction; steps below the yield stress follow Hooke's law.", "quantifier": "all concave, non-decreasing hardening laws (in particular the two of the code), all rates of deformation, stresses, plastic strains, moduli and time steps, and histories of any length", "why_tests_cant": "Convergence of an iteration for all real inputs; unboundedly many steps.", "anchors": ["src/materials/isotropic_hardening_correspondence.cxx:radialReturnPowerlaw,radialReturnSaturationExponential"]}
{"id": "C61", "title": "The stored elastic energy is the potential of the internal forces", "statement": "For the elastic and the multiphysics elastic material, along every motion of the points the total of the reported stored elastic energy changes at exactly the rate at which work is done against the reported internal forces (fluid pressures held fixed count as potential of the dilatation). Hence a body that moves by Newton's law under those forces keeps the sum of kinetic and stored energy. The reported density is never negative, is zero for rigid motions, and is zero at a point only if every unbroken bond of the point has its reference length. Broken bonds do not change this.", "quantifier": "all bodies, neighbourhoods, influence functions, moduli, temperatures, surface corrections, damage states and all differentiable motions that keep bonded points apart", "why_tests_cant": "A statement about derivatives along all motions of all bodies; a test can only compare a few finite differences to a tolerance.", "anchors": ["src/materials/Peridigm_ElasticMaterial.cpp:computeStoredElasticEnergyDensity", "src/materials/Peridigm_MultiphysicsElasticMaterial.cpp:computeStoredElasticEnergyDensity", "src/materials/elastic.cxx:computeInternalForceLinearElastic"]}
{"id": "C62", "title": "The energy output reports the energies of the body", "statement": "The compute class Energy writes for every point half its mass times its speed squared, a strain energy density that is never negative and is that of a pure volume change for uniformly expanded bodies, and the volume times that density; the two global values are the sums over all points of all blocks on all processors.", "quantifier": "all bodies, motions, numbers of blocks and processors", "why_tests_cant": "All inputs; sign of a sum over all deformations.", "anchors": ["src/compute/Peridigm_Compute_Energy.cpp:compute"]}
{"id": "C63", "title": "The position-aware solid matches homogeneous strains at every point", "statement": "After initialisation of the position-aware linear solid, at every point whose bonds feel the strain in question, also near a surface: a small homogeneous deformation gives to first order the dilatation trace of the displacement gradient; uniform expansion gives dilatation and energy density exactly; stretches along the axes in any combination and shear in each coordinate plane give to second order the energy density of classical elasticity. The total stored energy is the potential of the forces, which add up to zero, have no moment, turn with the body and vanish under rigid motion; a broken bond carries no force.", "quantifier": "all point clouds, neighbourhoods, volumes, initial influence functions, moduli, strains and motions, every correct linear solver", "why_tests_cant": "All neighbourhoods and deformations; limits and derivatives.", "anchors": ["src/materials/pals.cxx:compute_lagrange_multipliers", "src/materials/pals.cxx:computeDilatationAndPalsPressure", "src/materials/pals.cxx:computeInternalForcePals", "src/materials/pals.h:pals_influence", "src/materials/Peridigm_Pals_Model.cpp:initialize"]}
{"id": "C64", "title": "The shear correction factor makes the worst coordinate shear classical", "statement": "With 'Apply Shear Correction Factor' the factor of every owned point is such that a pure shear of strain 1e-6 of the body in one of the three coordinate planes stores at the point, beyond the energy of its dilatation, the 2 mu gamma^2 of classical elasticity, and in none of the three planes more. The factor is positive, does not depend on the coordinates' scratch copy or on where the body is, does not depend on how the body is oriented, is finite for every neighbourhood, and acts the same in every material that uses it.", "quantifier": "all point clouds, neighbourhoods, volumes, influence functions and moduli; all owned points", "why_tests_cant": "All neighbourhoods; the value depends on square roots of all bonds.", "anchors": ["src/materials/material_utilities.cxx:set_pure_shear", "src/materials/material_utilities.cxx:compute_norm_2_deviatoric_extension", "src/materials/material_utilities.cxx:computeShearCorrectionFactor", "src/materials/Peridigm_MultiphysicsElasticMaterial.cpp:initialize", "src/materials/Peridigm_ElasticPlasticHardeningMaterial.cpp:initialize"]}
{"id": "C65", "title": "The viscoplastic update ends on the flow surface of its strain and rate", "statement": "One step of the Needleman viscoplastic correspondence material: below the (flaw-reduced) yield stress the step is elastic; otherwise the root search ends next to a root of its equation and the von Mises stress after the step is the smaller of the elastic one and the flow stress at the plastic strain and plastic strain rate of the step; the reported von Mises stress is that of the stored stress, the pressure is elastic, symmetric stresses stay symmetric, the stored plastic strain never decreases and is that of the step; over any number of steps.", "quantifier": "all stresses, rates, time steps, material constants and histories, whatever the size of the step", "why_tests_cant": "All inputs and histories; a root search that must end for every residual.", "anchors": ["src/materials/viscoplastic_needleman_correspondence.cxx:updateElasticViscoplasticCauchyStress", "src/materials/viscoplastic_needleman_correspondence.cxx:ViscoplasticNeedlemanYieldFunction", "src/materials/Peridigm_ViscoPlasticNeedlemanCorrespondenceMaterial.cpp:computeCauchyStress"]}
{"id": "C66", "title": "The Error output is the integral of the squared displacement error over the element", "statement": "The Error field of a hexahedral element is the integral over the element of the squared difference between the displacement of its point and the reference displacement the class is written for, elements the formula is not made for are refused, and the global value is the sum over all points of all processors.", "quantifier": "all node positions, displacements, numbers of elements, blocks and processors", "why_tests_cant": "A value that must be right for every element shape and size; the test uses one mesh of equal cubes.", "anchors": ["src/compute/Peridigm_Compute_Error.cpp:compute"]}
{"id": "C67", "title": "Node_Set_Data reports the minimum, maximum or sum over the node set", "statement": "The reported value is the minimum, maximum or sum of the variable over exactly the points of the node set, each once, whatever the number of processors and blocks, the order of the list, repeated ids, and the values; an empty set is no error.", "quantifier": "all node sets, values, distributions of the points over blocks and processors", "why_tests_cant": "All values and all distributions; a start value of the reduction can be wrong for only some data.", "anchors": ["src/compute/Peridigm_Compute_Node_Set_Data.cpp:initialize", "src/compute/Peridigm_Compute_Node_Set_Data.cpp:compute"]}
{"id": "C68", "title": "The fields filled point by point hold what their names say", "statement": "Number_Of_Neighbors is the length of the neighbour list, Neighborhood_Volume the sum of the own volume and the (partial) volumes of the neighbours, Radius that of the ball with the volume of the point, Force and Contact_Force volume times force density, Acceleration the acceleration used by the time integrator, Deformation_Gradient the matrix of the motion wherever the neighbourhood moves by an affine map; for every point of every block.", "quantifier": "all point clouds, neighbourhood lists, numbers of blocks, volumes, forces and densities", "why_tests_cant": "All lists and all combinations of blocks; one block can change what is written for another.", "anchors": ["src/compute/Peridigm_Compute_Number_Of_Neighbors.cpp:initialize", "src/compute/Peridigm_Compute_Neighborhood_Volume.cpp:initialize", "src/compute/Peridigm_Compute_Radius.cpp:initialize", "src/compute/Peridigm_Compute_Force.cpp:compute", "src/compute/Peridigm_Compute_Contact_Force.cpp:compute", "src/compute/Peridigm_Compute_Acceleration.cpp:compute", "src/compute/Peridigm_Compute_Deformation_Gradient.cpp:compute", "src/core/Peridigm.cpp:synchDataManagers"]}
{"id": "C69", "title": "The bonds drawn by Bond_Visualization are the bonds of the processor", "statement": "The VTK file written by a processor is well-formed and, read back, shows exactly the bonds in the neighbourhood lists of the owned points (of the wanted point only, if Node Id is given, counting from one), as lines between the reference positions of their ends; its points are the ends of these bonds, each once, although blocks overlap.", "quantifier": "all numbers of blocks, global ids, neighbourhood lists and positions", "why_tests_cant": "All lists and overlaps of blocks; no test reads the file back.", "anchors": ["src/compute/Peridigm_Compute_Bond_Visualization.cpp:initialize", "src/compute/Peridigm_Compute_Bond_Visualization.cpp:writeVTK"]}
{"id": "C70", "title": "A mesh file becomes one material point per element", "statement": "Loading a genesis file turns every element, counted through the blocks, into one material point: with the number of the element in the file (that of the auxiliary map original_global_id_map if present, minus one), in the block of the element, at the position of a sphere or at the centroid of a tetrahedron or hexahedron and with its volume. The element blocks list exactly their elements, a node set the elements that contain one of its nodes, each once. Unnamed blocks are called block_<id>. Files with unknown element types, inverted elements, repeated names or an unknown auxiliary map are refused, no other well-formed file is.", "quantifier": "all meshes: any numbers of nodes, blocks, elements, node sets, all names, numberings, element types and coordinates", "why_tests_cant": "All files, numberings and mixtures of element types; tests read a handful of small meshes.", "anchors": ["src/io/discretization/Peridigm_ExodusDiscretization.cpp:loadData"]}
{"id": "C71", "title": "Interfaces between elements are found, once each, with their corners", "statement": "With Construct Interfaces, every pair of neighbouring elements that share a face is recorded exactly once, whichever of the two processors or neighbour lists names it, with the two global ids and the corners of the common face in polygon order; pairs that share less are not recorded.", "quantifier": "all meshes, numberings, neighbourhood lists, element types and ghosts", "why_tests_cant": "All meshes and numberings; no test inspects the list of interfaces.", "anchors": ["src/io/discretization/Peridigm_ExodusDiscretization.cpp:constructInterfaceData", "src/core/Peridigm_InterfaceData.cpp:InitializeIntefaceData"]}
{"id": "C72", "title": "The interface file shows the aperture of every interface at every output", "statement": "Each output of the interface file holds, for every interface, the distance of the two material points minus their distance in the reference configuration, at the time of the output; quadrilaterals and triangles appear each in the order of the interfaces, with the numbers of their nodes.", "quantifier": "all lists of interfaces, configurations and histories of outputs", "why_tests_cant": "All histories of outputs; no test reads the interface file.", "anchors": ["src/core/Peridigm_InterfaceData.cpp:InitializeExodusOutput", "src/core/Peridigm_InterfaceData.cpp:WriteExodusOutput", "src/core/Peridigm.cpp:Peridigm", "src/core/Peridigm.cpp:execute"]}
{"id": "C73", "title": "With element-horizon intersections, neighbours are the elements that meet the horizon", "statement": "With Compute Element-Horizon Intersections the neighbour search is enlarged by the largest dimension of an element, and of the elements found every list keeps those that meet the horizon of its point: every element whose surface enters the horizon is kept, and every kept one meets it. Local numbers are renewed consistently, ghosts no longer needed are dropped. The options can be combined with Construct Interfaces.", "quantifier": "all meshes of hexahedra with proper faces, points, horizons, neighbourhood lists, owned and ghost elements and numbers of processors; all combinations of the options", "why_tests_cant": "All positions of elements and spheres, all lists and distributions; tests cannot enumerate the geometry.", "anchors": ["src/io/discretization/Peridigm_ExodusDiscretization.cpp:ExodusDiscretization", "src/io/discretization/Peridigm_ExodusDiscretization.cpp:computeMaxElementDimension", "src/io/discretization/Peridigm_ExodusDiscretization.cpp:removeNonintersectingNeighborsFromNeighborhoodList"]}
{"id": "C74", "title": "A run resumed from restart files continues where the last one stopped", "statement": "With Restart, every solver of every session writes a new directory, numbered in order, and leaves the earlier ones untouched. A later run finds the newest one and starts with the time, all vectors and all two-step data of all blocks with which the last session ended, so that stopping and resuming cannot be seen in the result. After a crash while a restart is written, the run can be resumed from the last complete one.", "quantifier": "all sessions and solvers, states, block names, sizes, crash points, times and time steps", "why_tests_cant": "All histories of sessions and all crash points; tests restart once from a complete directory.", "anchors": ["src/core/Peridigm.cpp:InitializeRestart", "src/core/Peridigm.cpp:writeRestart", "src/core/Peridigm.cpp:readRestart", "src/core/Peridigm.cpp:setRestartNames", "src/core/Peridigm_DataManager.hpp:writeBlocktoDisk", "src/core/Peridigm_State.cpp:writeStateData"]}
{"id": "C75", "title": "A mesh turned into spheres describes the same body", "statement": "The mesh converter reads a genesis file and writes one with a sphere per element, in the same blocks. Reading the result gives the same points with the same numbers, volumes, blocks and node sets; with Scale Factor the body is scaled, lengths by the factor and volumes by its cube; with Boundary Layer Thickness node sets are added that hold exactly the points closer than the thickness to each of the six faces. The result can be converted again.", "quantifier": "all meshes, numberings, names, node sets, scales and thicknesses", "why_tests_cant": "All numberings and names; the converter has no test that reads its output back.", "anchors": ["src/mesh_converter/Peridigm_MeshConverter_Main.cpp:main"]}
{"id": "C76", "title": "A cylinder mesh covers the tube, about its centre, with complete neighbour lists", "statement": "The cylinder generator fills the tube between the inner and the outer radius, about the given ring centre, with cells no longer than a ring is wide. Every cell is on exactly one processor, its point is the middle of the cell, its volume that of the sector, and the volumes add up to that of the tube. The list of a point holds every other cell within the horizon exactly once.", "quantifier": "all radii, lengths, centres, numbers of rings and processors, and horizons", "why_tests_cant": "All sizes, horizons and numbers of processors; tests generate a few small meshes about the origin.", "anchors": ["src/io/mesh_input/quick_grid/QuickGrid.cxx:TensorProductCylinderMeshGenerator", "src/io/mesh_input/quick_grid/QuickGrid.h:RingHorizon", "src/io/discretization/Peridigm_PdQuickGridDiscretization.cpp:getDiscretization"]}
{"id": "C77", "title": "Bond-associated gradients are exact for polynomials of the chosen order", "statement": "With the bond-associated correspondence material and Gradient Order Of Accuracy n, a displacement or velocity that is a polynomial of degree at most n in the position is differentiated exactly at every point whose neighbours tell such polynomials apart; an affine deformation has exactly its matrix as deformation gradient, at the points and at the bonds. The gradient at a bond maps the bond to the deformed bond and is the same from both ends. Broken bonds do not take part, and the weights used are always those of the present bond damage. A neighbourhood that cannot tell polynomials apart, or an order without meaning, is reported.", "quantifier": "all neighbourhoods, orders, polynomial fields and histories of damage", "why_tests_cant": "All orders, point sets and damage histories; tests use regular lattices with order 1 or 2 and no trials within a step.", "anchors": ["src/materials/correspondence.cxx:computeLagrangianGradientWeights", "src/materials/correspondence.cxx:computeDeformationGradient", "src/materials/correspondence.cxx:computeBondLevelVelocityGradient", "src/materials/correspondence.cxx:invertAndCond", "src/materials/Peridigm_BondAssociatedCorrespondenceMaterial.cpp:precompute"]}
{"id": "C78", "title": "Forces of the bond-associated material conserve momentum and do the work of the stress", "statement": "Every force evaluation of the bond-associated correspondence material gives forces without resultant. When the two ends of a bond list each other, have the same horizon and see the same bond damage, the power of the forces in any velocity field is minus the sum over the bonds of volume share times first Piola stress times the bond's velocity gradient, and there is no resultant moment in the deformed position, after any number of steps from the start with damage that shows in the point damage. Under a uniform stress an undamaged body does the work of its whole volume. Bonds without influence carry nothing. An evaluation stops the run exactly if the deformation gradient of a bond with influence is singular.", "quantifier": "all mutual neighbourhoods, stress updates that keep stresses symmetric, histories of displacements, velocities and damage", "why_tests_cant": "All neighbour graphs, velocity fields and histories; a test sees one configuration, in which an error of one term in the stress integral shows as a plausible force.", "anchors": ["src/materials/Peridigm_BondAssociatedCorrespondenceMaterial.cpp:computeForce", "src/materials/correspondence.cxx:computeStressIntegral", "src/materials/correspondence.cxx:computeBondLevelPiolaStress", "src/materials/correspondence.cxx:computeNodeLevelUnrotatedRateOfDeformationAndRotationTensor", "src/materials/correspondence.cxx:computeBondLevelUnrotatedRateOfDeformationAndRotationTensor", "src/materials/elastic_correspondence.cxx:updateBondLevelElasticCauchyStress"]}
{"id": "C79", "title": "Stresses of bonds follow the material law and turn with the body", "statement": "In every force evaluation of the bond-associated correspondence material the unrotated stress of a bond with influence is the stress update of the material applied to the rate of deformation of the bond's velocity gradient in the deformed body, unrotated with the bond's new rotation; for the elastic material this is Hooke's law. A bond without influence keeps its state and stress. A body that moves rigidly changes no unrotated stress, and over any number of steps the stretch of every bond stays one and its rotation stays a rotation.", "quantifier": "all mutual neighbourhoods, positions, deformations, velocities, damage histories and any number of steps", "why_tests_cant": "The rotation drifts a little in each step; a test of a few steps in one configuration cannot tell drift from rounding.", "anchors": ["src/materials/correspondence.cxx:computeBondLevelUnrotatedRateOfDeformationAndRotationTensor", "src/materials/elastic_correspondence.cxx:updateBondLevelElasticCauchyStress", "src/materials/Peridigm_BondAssociatedCorrespondenceMaterial.cpp:computeForce", "src/materials/Peridigm_ElasticBondAssociatedCorrespondenceMaterial.cpp:computeCauchyStress"]}
{"id": "C80", "title": "Plastic bonds stay within yield and report their own triaxiality", "statement": "With the plastic bond-associated correspondence materials (perfectly plastic, power law and saturation exponential hardening) the forces have no resultant and no moment, as with the elastic one, after any history; their power is the stress found for each bond times its gradient. After any number of steps from initialize no bond is beyond the yield stress that belongs to its plastic strain (up to the tolerance of the iteration), and the plastic strain of no bond has decreased. A bond without influence, and every bond of a body that moves rigidly, keeps stress and plastic strain. The triaxiality reported for a bond is that of its new stress.", "quantifier": "all mutual neighbourhoods, positions, deformations, velocities, damage histories, yield laws and any number of steps", "why_tests_cant": "Stress, strain and triaxiality of a bond are carried from step to step in separate arrays that change places; whether each is of the right step shows only in relations over all histories.", "anchors": ["src/materials/Peridigm_ElasticPlasticBondAssociatedCorrespondenceMaterial.cpp:computeCauchyStress", "src/materials/Peridigm_IsotropicHardeningPlasticBondAssociatedCorrespondenceMaterial.cpp:computeCauchyStress", "src/materials/elastic_plastic_correspondence.cxx:updateBondLevelElasticPerfectlyPlasticCauchyStress", "src/materials/isotropic_hardening_correspondence.cxx:updateBondLevelElasticIsotropicPowerlawHardeningPlasticCauchyStress", "src/materials/isotropic_hardening_correspondence.cxx:updateBondLevelElasticIsotropicSaturationExponentialHardeningPlasticCauchyStress"]}
{"id": "C81", "title": "The volume of a bond is the part of the neighbour's cell within the horizon", "statement": "The bond volume calculators for grids of bricks and for cylinders give for a point and a neighbour a volume between zero and the volume of the neighbour's cell: all of it if the whole cell is within the horizon of the point, none of it if none is, and otherwise a value between the volume of the parts of the cell that lie within and that of the parts that reach within, with sixteen parts along each direction. Whether a cell can be cut shows from the cell diagonal. On a grid two points give each other the same volume, only their relative position matters and a larger horizon gives no less. The volume of a cell of a cylinder is that of its sector, wherever the centre of the cylinder is. Volumes are listed in the order of the neighbourhood list.", "quantifier": "all horizons, cell sizes, positions, cylinders with any centre and neighbourhood lists", "why_tests_cant": "The cells cut by the sphere are the rare ones, and symmetry and the limits hold for every pair of points or for none; a cylinder at the origin hides what the centre does.", "anchors": ["src/io/bond_volume/quick_grid/calculators.cxx:VolumeFractionCalculator::operator()", "src/io/bond_volume/quick_grid/calculators.cxx:RingVolumeFractionCalculator::operator()", "src/io/bond_volume/quick_grid/calculators.cxx:compute_bond_volume", "src/io/utilities/Vector3D.h:InsideSphere"]}
{"id": "C82", "title": "The compute classes asked for are built once, with their parameters, and run in order", "statement": "Every compute class named in an output list of the input, or in the compute class parameters, is built, spaces and underscores in names being the same. A class that has parameter lists is built once for each of them, with its parameters, and not also without; any other class asked for is built exactly once, however many output lists name it. Names that are no compute class are passed over; the run ends with an error exactly if an output list is no list or an entry of the parameters names no class. The fields of all objects are reported sorted and without duplicates, a service is provided exactly if an object asks for it, and at every step each object is run once, in order, on what the one before has left.", "quantifier": "all inputs (names, output lists, parameter lists), sets of compute classes and behaviours of the objects", "why_tests_cant": "The rules interact through names: one that occurs in two lists, with and without spaces or with and without parameters; the number of combinations is unbounded.", "anchors": ["src/core/Peridigm_ComputeManager.cpp:ComputeManager", "src/core/Peridigm_ComputeManager.cpp:FieldIds", "src/core/Peridigm.cpp:instantiateComputeManager", "src/core/Peridigm_ServiceManager.cpp:isRequested"]}
{"id": "C83", "title": "Dilatation and deviatoric extension by bond volumes see an even expansion as one", "statement": "Weighted volume, dilatation and norm of the deviatoric extension computed with bond volumes are the ordinary ones when the volume of each bond is that of the neighbour's cell. Whatever the volumes of the bonds, a neighbourhood that grows evenly by the factor 1 + e, and is moved and turned in any way, has the dilatation 3 e and no deviatoric extension, with the influence function given by the caller.", "quantifier": "all points, neighbourhoods, bond volumes, influence functions and even expansions", "why_tests_cant": "The existing convergence study uses one grid and the default influence function and compares up to a tolerance.", "anchors": ["src/materials/material_utilities.cxx:WITH_BOND_VOLUME::computeWeightedVolume", "src/materials/material_utilities.cxx:WITH_BOND_VOLUME::computeDilatation", "src/materials/material_utilities.cxx:WITH_BOND_VOLUME::compute_norm_2_deviatoric_extension"]}
{"id": "C84", "title": "The linear material superposes, resists no rigid motion, and its broken bonds carry nothing", "statement": "In the linear peridynamic solid dilatations and, with the improved quadrature, forces of superposed displacements superpose, for any quadrature weights, influence function values and bond damage. A translation with a small rotation gives neither dilatation nor force; an even expansion by e of an undamaged neighbourhood gives the dilatation 3 e if the weighted volume is that of the same weights. A broken bond takes no part in the dilatation and carries no force.", "quantifier": "all positions, displacements, neighbourhoods, weights, influence values, damage and moduli", "why_tests_cant": "Linearity and rigid motions are statements about all displacements; broken bonds together with the improved quadrature occur in no test.", "anchors": ["src/materials/Peridigm_LinearLPSPVMaterial.cpp:precompute", "src/materials/Peridigm_LinearLPSPVMaterial.cpp:computeForce"]}
