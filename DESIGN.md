# Formal model of peridigm: design

## 1. What this is

`rocq/theories` contains an executable Gallina model of selected functions of
`/repo` (peridigm, C++) and machine-checked proofs of the properties listed in
`properties.jsonl`.  The model was written by reading the sources; nothing in
`/repo` was built or run.

Layout of `rocq/theories` (one group per area `X`):

* `ModelX.v` – definitions only; every definition cites file and lines in `/repo`.
* `SpecX.v` (where useful) – the small, independent vocabulary in which the
  properties are stated; it never mentions model helpers.
* `ProofX.v` – lemmas.
* `PropX.v` – the property theorems only, each closed by `exact lemma.` and
  followed by `Print Assumptions`, with `Example`s showing that concrete,
  non-trivial inputs satisfy the hypotheses.

`MANIFEST.json` maps property ids to theorem names.

## 2. Conventions of the model

* **Arithmetic.** Kernels are written once, over a record `Num` of scalar
  operations, in the order of operations of the C++ source.  Instances:
  `RN` (Coq reals, used for algebraic properties; says nothing about rounding)
  and `FN` (IEEE-754 binary64 from `Coq.Floats.SpecFloat`, purely computational
  and axiom free, used where rounding, NaN or overflow matters).
  Division by zero over `RN` is totalised by Coq; theorems that divide state
  the non-zero hypothesis.
* **Errors and undefined behaviour** are distinct outcomes: `Err` for a thrown
  exception / termination, `UB` for undefined behaviour (null dereference,
  out-of-bounds index, uninitialised read, signed overflow), `Diverge`/out of
  fuel for non-termination.
* **Integers** are `nat`/`Z`; wrap-around is written out where it matters.
* **Memory** written through pointers becomes a list/map that is returned.
* **Unspecified library behaviour** (ties in `std::sort`, hash orders, MPI
  message arrival order) is modelled by quantifying over every allowed result.
* **Findings.**  If the property is false of the faithful model, a theorem
  `..._refuted` gives a witness, and the strongest true version is proved.

## 3. Trusted base

* Coq 8.16.1's kernel, including `vm_compute` (used for closed computations, most
  of them on binary64 numbers).
* The reading of the C++ sources: the definitions in `Model*.v` are translations by
  hand; section 6 says what is translated and what is not.
* The specifications in `Spec*.v` and the theorem statements in `Prop*.v`.
* Axioms: only those that `Print Assumptions` lists, all from Coq's standard library
  (construction of the reals and what it uses).  Section 8 has the list for every
  theorem.  No axiom is declared here; no plugin, functor, module type or switched
  off kernel check is used.
* Over the reals (`RN`) the theorems say nothing about rounding.  Theorems about
  rounding are stated over `FN` (binary64, round to nearest even, as in the
  standard library's `SpecFloat`); fused multiply-add and excess precision are not
  modelled.

## 4. Plan per property

Written before the proofs; rows from C53 on were added as the model grew.  What came
of it is in section 5.

| id | property | modelled | proof method |
|---|---|---|---|
| C01 | Field registry is a stable bijection | state machine over request list (registry = list of specs + label map) | invariant by induction over the history |
| C02 | Two-step fields keep exactly one step of history | data manager as record of N/NP1/NONE slots and shared globals, op sequence | refinement to a one-step-history spec, induction over ops |
| C03 | Field data follow their global ids when copied or redistributed | multivector = (gid list, element size, values); copy loop | functional correctness by induction over target ids |
| C04 | Block-local maps and neighbour lists describe the same bonds as the global ones | map construction and list translation loops over flat lists | decode(local) mapped through LID->GID equals global list |
| C05 | Assembling block forces into the global vector loses and invents nothing | import/export on id-indexed vectors | sums over lists, permutation arguments |
| C06 | Bonds broken by the critical stretch model never heal and damage stays in [0,1] | computeDamage loop + updateState swap, over FN and RN | invariant over all histories |
| C07 | Bonds never heal with the other bond-breaking models | same loops with the buffers the code really uses | refutation by a short history, positive theorem for what does hold |
| C08 | A broken bond carries no force | bond force formulas of each kernel | algebra over R; NaN counterexample over FN |
| C09 | Internal forces conserve linear momentum | force kernels over flat neighbour lists with accumulation into a shared array | induction over the list, sum V_i f_i invariant |
| C10 | Internal forces conserve angular momentum | same kernels | same induction with cross products, collinearity lemma |
| C11 | Material response is frame indifferent | same kernels, rotation matrices as orthogonal maps | relational induction: two runs related by the rigid motion |
| C12 | Dilatation and weighted volume are calibrated | weighted volume / dilatation loops | induction, field |
| C13 | Influence functions are non-negative and vanish where documented | three influence functions + selection by name | real analysis, continuity by cases |
| C14 | Elastic-perfectly-plastic solid: yield consistency and monotone plastic multiplier | elastic-plastic kernel per point, history | algebra of return mapping; induction over steps |
| C15 | Isotropic hardening update solves the consistency equation | updateDeltaLambda over R with cos/acos/cube root | trigonometric identities, root uniqueness by monotonicity |
| C16 | Viscoelastic back-extension update is exact and stable | back extension update | closed form by induction, exp |
| C17 | Correspondence kinematics reproduce affine deformations | Invert3by3, MatrixMultiply, shape tensor, deformation gradient, hourglass | linear algebra by field/ring + induction over neighbours |
| C18 | The tracked rotation stays a rotation | rotation update | Rodrigues orthogonality; induction over steps |
| C19 | J2 perfect plasticity: stress never leaves the yield surface, plastic strain never decreases | J2 update | algebra; induction over steps |
| C20 | Critical time step estimate bounds every point | min loop over points, blocks, processors | order theory |
| C21 | Bond filters cut exactly the bonds that cross the surface and only those | the four filters over R | geometry by nlinarith; symmetry |
| C22 | Neighbour search returns exactly the points within the radius | kd-tree build and search over an ordered field (R), any tie-breaking | structural induction on the built tree |
| C23 | Building the search tree terminates | fuelled build | measure for distinct points over R; refutation for repeated points and for adjacent doubles (FN) |
| C24 | Nearest-neighbour query returns a nearest point | branch-and-bound search | structural induction |
| C25 | Parallel neighbour lists equal serial ones | frame set, box assignment, exchange, local search | set reasoning over R; refutation for variable horizon |
| C26 | Flat neighbourhood lists stay well formed | flat encodings | round trip by induction |
| C27 | QuickGrid distributes every cell exactly once | iteration over processors with cell locator | invariant linking locator to linear cell index |
| C28 | QuickGrid neighbour lists are exact and fit their buffer | cell horizon rounding, triple loop | membership characterisation; size bound by induction |
| C29 | Short-range contact forces are pairwise, repulsive and dissipative | contact kernel | algebra, induction over neighbours |
| C30 | Contact search pairs exactly the close, unbonded points | contact search filter | set reasoning |
| C31 | Each pair of blocks has one contact model | interaction set construction | refutation + characterisation |
| C32 | Explicit run: times and kinematics | explicit loop | induction over steps; rounding counterexample in FN |
| C33 | An isolated body keeps its momentum throughout an explicit run | explicit loop with abstract conserving force, instantiated with the kernel | induction over steps |
| C34 | Quasi-static load stepping reaches the final time or stops with an error | load stepping loop driven by an oracle of residuals | termination measure, invariants; refutation of overshoot |
| C35 | Line search returns its best finite trial | line search driven by a residual oracle | case analysis over FN comparison |
| C36 | Implicit (Newmark) kinematics are consistent | Newmark loop with oracle increments | induction |
| C37 | Tangent matrix: sparsity covers every coupling and finite differences are exact for affine forces | sparsity construction, FD tangent | set reasoning, algebra |
| C38 | Prescribed boundary conditions act exactly on their node set and component | boundary condition application | induction over node set, telescoping sum |
| C39 | Constrained rows are removed consistently | matrix/vector edits | pointwise characterisation |
| C40 | Node sets mean the listed nodes | character-level stream parsing | induction over the text; refutation for trailing blank / empty |
| C41 | Elastic constants: any two define the same material | option-valued parameters | field |
| C42 | Horizon lookup | association map | history induction |
| C43 | Degrees of freedom layout is a bijection | offset computation | case analysis, div/mod bijection |
| C44 | Element volumes and centroids are exact | tet/hex formulas over R | ring |
| C45 | Element/sphere classification is right | separating-axis tests over R | convexity; closest point case analysis; refutation for enclosed sphere |
| C46 | Block names map to their block number | string search functions | induction over strings; refutation |
| C47 | Restart accepts the time it wrote | decimal printing with 6 significant digits | refutation |
| C48 | Global output quantities are what their names say | reduction loops over blocks and processors | induction; refutations |
| C49 | Output is written exactly at the requested steps | write counter | induction over calls |
| C50 | Time-dependent data files are interpolated linearly | cached interpolation | history invariant |
| C51 | Diffusive fluxes are conserved | diffusion kernels | as C09 |
| C52 | Input keywords round-trip | string tables | finite case analysis + all strings |
| C53 | A state lists the fields it holds | state allocation and getFieldIds, field lists per type | case analysis over the allocated lists |
| C54 | Stress-driven bond breaking is monotone | bond loops of the von Mises and Johnson-Cook models with the state swap | invariant over all histories |
| C55 | An isolated body keeps its angular momentum throughout an explicit run | explicit loop with a moment-free force, instantiated with the kernel | induction over steps |
| C56 | Largest distance to a node | maximum loop | induction over the nodes |
| C57 | Bonds between blocks can be left out | the filter of the Exodus reader with its table | induction over the list, UB for the table |
| C58 | Distribution of a generated mesh never blocks | processes with blocking sends (waiting or buffered) and receives, any interleaving | invariant and decreasing measure over the transition system |
| C59 | Isotropic hardening correspondence update in one step | the three one-step updates | algebra, history induction, refutations with witnesses |
| C60 | Newton radial return ends on the yield surface | the iteration with its tolerance and limit, over R and FN | monotone convergence for concave laws; binary64 computation for the refutation |
| C61 | Stored elastic energy is the potential of the forces | the energy sums after a force evaluation, elastic and multiphysics | generic power identity for kernels and derivatives of bond lengths; mean value theorem for conservation; a rod with a broken bond for the refutation |
| C62 | Energy output | the compute class point by point, block and processor sums | induction over points, blocks and processors; a bent neighbourhood for the refutation |
| C63 | Position-aware linear solid | the 6x6 systems with the treatment of unfelt strains (the LAPACK solution an argument), influence functions, dilatation, pressure, force, energy | entries of the accumulated matrices by induction over the bonds; derivatives of bond lengths; the power identity of C61; a star of 18 neighbours shows the hypotheses are met |
| C64 | Shear correction factor | the three probe shears with the scratch coordinates they overwrite, the norms, the loop over points and the two materials that use the factor | closed forms of the loop; energy of the modelled evaluation at the sheared body; explicit square root bounds for the refutations; binary64 evaluation |
| C65 | Viscoplastic update | the stress update of one point with its bisection loop, the loop over points, exp and pow as arguments | case analysis shared with C59; invariant of the bisection interval and the intermediate value theorem; explicit bounds for the refutations |
| C66 | Error output | limits of the element, box test, formula, loops and reduction | the triple integral by the fundamental theorem (Coquelicot); iff characterisation of the box test; witnesses over whole classes for the refutations |
| C67 | Node_Set_Data | local ids by block name, loops over blocks, reduction over processors | fold invariants of the running extreme; equality of the filtered list with the listed local ids |
| C68 | Point fields | the loops of seven compute classes, and the import of the force before the output | induction over the flat list with a prefix; arithmetic; C17 for the gradient |
| C69 | Bond_Visualization | the loops over blocks and bonds, std::set and std::map, the lines of the file as tokens | round trip through an independent reader of the format |
| C70 | Mesh reading | loadData: ids, blocks, connectivity, element conversion, node sets | fold invariant over blocks and elements; the geometry is that of C44 |
| C71 | Interfaces | constructInterfaceData: the loops over neighbours, faces and nodes, with the array of four | fold over the lists; the six faces by cases; witnesses for the refuted kinds of elements |
| C72 | Apertures | shell blocks and the vector of apertures across the writes | induction over the history of outputs |
| C73 | Intersections | options, largest dimension, the filter of the lists and the new overlap map | C44 and C45 for the geometry; invariants of the filtered lists and the sorted set of ghosts |
| C74 | Restart | directories and files, InitializeRestart, writeRestart, readRestart; crashes as prefixes of the list of file operations | invariant of the histories of sessions; splitting of the explicit loop |
| C75 | Mesh converter | the loaded mesh (C70) turned into a mesh of spheres: blocks and sets by name, layers, ids; read back with the model of C70 | inversion of the conversion, permutation by name, reading by the theorems of C70 |
| C76 | Cylinder meshes | make_ring, arc_horizon, make_cylinder and the loops over cells and rays as in the code, with undefined conversions | the induction over shares of C27 for rings; occurrences counted per ray; distances from the addition theorems over the reals; both refutations for whole classes of tubes |
| C77 | Bond-associated correspondence, gradients | the two neighbour loops, the moment matrix, invertAndCond with the singular value decomposition as an argument, evaluation flags, initialize and precompute over histories | weights from the rows of the inverse by exchanging finite sums; flags and weights by induction over points and evaluations; refutations for whole classes |
| C78 | Bond-associated correspondence, forces | bond level kinematics, elastic stress update, Piola stress, stress integral and the force loop, over histories of whole steps | pairing the two halves of every bond under finite sums; two-sidedness, symmetry and exactness as an invariant by induction over the steps; a rigid turn as test field for the moment |
| C79 | Bond-associated correspondence, stress and rotation of the bonds | bond level velocity gradient, rotation step, elastic update, over histories of whole steps | algebra of the rotation step as for C18; exactness of the gradients gives the spin of the bond; invariant by induction over the steps |
| C80 | Plastic bond-associated correspondence | the three plastic stress updates per bond, over histories of whole steps | the forces are those of the elastic material with the stress given (C78); yield and plastic strain by induction over the steps from C19 and C60; zero rate of deformation leaves the trial stress alone |
| C81 | Bond volumes | both calculators (16 x 16 x 16 parts of a cell) and the loop over the neighbourhood list; cos, sin and atan2 are parameters | the loops become one sum over the parts; counting by duplicate-free lists; mirror image of the parts for symmetry; chord shorter than arc for the diagonal of a sector |
| C82 | Compute classes | names as strings, output lists and parameter lists of the input, the two passes, the macro over all classes as a loop; constructors, fields and steps of the classes are parameters | membership through the two passes; duplicate-free unions; sortedness of insertion and removal of neighbours that are equal |
| C83 | Bond volume sums | the three functions of namespace WITH_BOND_VOLUME for one point; influence functions are parameters | induction over the neighbours: each term of the dilatation is 3 e times that of the weighted volume |
| C84 | Linear solid | precompute and, with the improved quadrature, computeForce of the linear material; the quadrature weights are an argument | induction over the bonds with the accumulators of two or three runs side by side |

## 5. Results per property

"proved" means that the positive statement is proved of the model; "partial" that
part of it is false of the code (REFUTED, with a theorem that shows it) or missing.
The theorem names are in `MANIFEST.json`.

* **C01** Field registry is a stable bijection (proved, 9 theorems). Registry histories of arbitrary length.
* **C02** Two-step fields keep exactly one step of history (proved, 9 theorems). Refinement to a two-box reference for local, bond and global fields over arbitrary histories of several managers; handles kept across an update are not modelled.
* **C03** Field data follow their global ids when copied or redistributed (proved, 6 theorems). Multivector and state copy; the files of restarts are the subject of C74.
* **C04** Block-local maps and neighbour lists describe the same bonds as the global ones (proved, 2 theorems). Owned, overlap, bond and neighbour maps of BlockBase, and the partition of the points; block ids as integers.
* **C05** Assembling block forces into the global vector loses and invents nothing (partial, 6 theorems). Proved for all blocks, processors and commutative additions (gather, totals, import, repeated evaluations). REFUTED for the multiphysics branch of the NOX residual, which never zeroes the force vector (exact characterisation proved).
* **C06** Bonds broken by the critical stretch model never heal and damage stays in [0,1] (proved, 8 theorems). Bond part in binary64 and in the reals; fraction/range/monotonicity of the damage in the reals.
* **C07** Bonds never heal with the other bond-breaking models (partial, 4 theorems). REFUTED for the user-defined model (exact characterisation proved), the interface-aware model and the initial evaluation of an explicit run.
* **C08** A broken bond carries no force (partial, 22 theorems). Proved in the reals for all materials (force of a broken bond, cut-off points, independence of relative motion, dilatation). REFUTED in binary64 when the deformed ends of the broken bond coincide: NaN (C08_coincident_ends_binary64_refuted). REFUTED for the correspondence materials: bond damage has no effect on them (C08_correspondence_refuted).
* **C09** Internal forces conserve linear momentum (partial, 10 theorems). Proved in the reals for LPS, bond-based, viscoelastic, elastic-plastic, hardening, linearised, fluid-coupled and vector Poisson kernels; for partial volumes under the balance condition. REFUTED for arbitrary partial volumes. Also the correspondence materials with any stress update, hourglass force included.
* **C10** Internal forces conserve angular momentum (proved, 9 theorems). Real arithmetic; linearised solid about the reference positions. Correspondence materials: for symmetric stresses. The elastic, J2, hardening and Newton stress updates keep symmetric stresses symmetric (C10_stress_update_moment).
* **C11** Material response is frame indifferent (proved, 13 theorems). Real arithmetic; dilatation, forces and plastic/viscous states of six kernels.
* **C12** Dilatation and weighted volume are calibrated (proved, 5 theorems). Real arithmetic.
* **C13** Influence functions are non-negative and vanish where documented (proved, 9 theorems). Over the reals (exp for the Gaussian); selection state machine included. Expressions are accepted or rejected by an arbitrary run-time compiler parameter.
* **C14** Elastic-perfectly-plastic solid: yield consistency and monotone plastic multiplier (proved, 4 theorems). Over the reals. Whole evaluations and all load histories, with re-evaluation idempotent; weighted volumes of points with neighbours, shear modulus, yield stress and horizon positive, volumes non-negative.
* **C15** Isotropic hardening update solves the consistency equation (proved, 5 theorems). Over the reals with exact cos, acos and cube root. Requires H>0 and n^2/(2H) below DBL_MAX (the solver's 'no root' sentinel); uniqueness of the positive root, whole evaluations and histories included.
* **C16** Viscoelastic back-extension update is exact and stable (proved, 7 theorems). Over the reals with the real exponential. Exactness end to end over any list of steps of any sizes (fixed bond damage); constant-extension consequences; lambda_i=0 equals the elastic kernel with influence function 1.
* **C17** Correspondence kinematics reproduce affine deformations (partial, 11 theorems). Proved over the reals: products, two-sided inverse with code 0 and code 1 exactly for singular matrices; code of the deformation loop is 0 exactly when every shape tensor is regular (with positive weights: no neighbourhood is coplanar); affine neighbourhoods get exactly their matrix and no hourglass force; singular shape tensors stop the evaluation; partial stress is the first Piola-Kirchhoff stress. REFUTED in binary64: an exactly planar neighbourhood gets code 0 (C17_planar_binary64_refuted).
* **C18** The tracked rotation stays a rotation (partial, 12 theorems). REFUTED: the square term of the rotation formula has the wrong sign, so a step leaves an orthogonal tensor orthogonal only without spin or after whole turns (C18_orthogonal_iff); under rigid spin the determinant after k steps is (5-4cos(dt|w|))^k (C18_spin_refuted) and hydrostatic stress does not stay hydrostatic (C18_spin_stress_refuted); a failed inversion of tr V I - V is not reported (C18_singular_stretch_refuted). Proved: exact characterisation of every step, drift bound, determinant never falls over any run, stretch, rate and stress stay symmetric, invariants kept if the tensor is orthogonal, singular deformation gradients reported.
* **C19** J2 perfect plasticity: stress never leaves the yield surface, plastic strain never decreases (proved, 12 theorems). Real arithmetic, every stress, rate of deformation, material and number of steps: within the yield surface, on it when plastic, reported von Mises stress and triaxiality those of the returned stress, pressure elastic, plastic strain grows by sqrt(2/3) times the norm of the plastic strain increment and never decreases; Hooke's law with and without temperatures. The update of elastic_plastic_correspondence.cxx lines 437 onwards (bond-level) is not modelled.
* **C20** Critical time step estimate bounds every point (proved, 5 theorems). Over the reals. Estimates above the internal cap 1e50 are cut to it; a user-supplied fixed step replaces the estimate.
* **C21** Bond filters cut exactly the bonds that cross the surface and only those (partial, 16 theorems). Proved over the reals: exactly which bonds a rectangle, disk, triangle or plane quadrilateral cuts (tolerances 1e-14 and 1e-15 included), transversal crossings are cut, symmetry of cuts and of filtered lists, well-formed lists with kept neighbours in order, independence of filter order, points themselves, initial damage. REFUTED: a bond that merely ends on the surface is cut; a crossing bond with extent below 1e-15 (absolute) is kept; in binary64 the two ends can disagree, so that neighbour lists become unsymmetric (C21_symmetric_binary64_refuted).
* **C22** Neighbour search returns exactly the points within the radius (partial, 2 theorems). Proved over the reals for every cloud of distinct points, every result of sorting, every centre and radius: found exactly once each, and no other (C22_radius). REFUTED in binary64: points of the rounded inscribed cube are accepted although they are farther away than the radius. Clouds with coincident points have no tree (C23).
* **C23** Building the search tree terminates (partial, 3 theorems). Over the reals: the construction succeeds for all clouds of distinct points and writes beyond the array of nodes for EVERY cloud with two coincident points, so the statement is REFUTED for these; in binary64 also for two neighbouring numbers.
* **C24** Nearest-neighbour query returns a nearest point (partial, 2 theorems). Proved over the reals for every non-empty cloud of distinct points, every result of sorting and every query. Missing: clouds with coincident points, which have no tree (C23), and rounding.
* **C25** Parallel neighbour lists equal serial ones (partial, 5 theorems). REFUTED for point-dependent horizons and on boundary ties: a point is sent according to its own horizon (C25_variable_refuted), a point exactly at (greatest coordinate - horizon) does not leave its processor (C25_frame_refuted), a processor without points reads beyond an array (C25_empty_processor_refuted). Proved: exact lists for a uniform horizon when processors share no points on a cutting plane (C25_uniform), for all clouds, bisections, processor counts and message orders; for variable horizons soundness and completeness below both horizons (C25_neighbors_partial). What Zoltan computes is specified by SpecParallel.assigns/bisects.
* **C26** Flat neighbourhood lists stay well formed (proved, 7 theorems). Flat lists from the search, its localisation, block splitting and rebalancing; the 'no neighbours' placeholder included.
* **C27** QuickGrid distributes every cell exactly once (proved, 2 theorems). Any numbers and norm: every share is computed and the shares hold cells 0, 1, 2, ... in order, each once (C27_shares). Over the reals: points at the cell centres, equal volumes adding up to the volume of the box (C27_points). Hypothesis: the mesh is small enough for int.
* **C28** QuickGrid neighbour lists are exact and fit their buffer (partial, 2 theorems). Proved over the reals for every mesh small enough for int: lists through the pointers are exactly the other cells strictly within the horizon; no buffer is overrun for any norm (C27_shares over any numbers). REFUTED for meshes whose share exceeds INT_MAX: the size conversion is undefined.
* **C29** Short-range contact forces are pairwise, repulsive and dissipative (partial, 9 theorems). Proved for all clouds, lists, parameters: the force on each point is the sum of the prescribed pair forces (C29_sum_of_contacts), equal and opposite (C29_two_points, C29_momentum), no moment without friction, friction dissipates. REFUTED: two coincident points make every component of their force NaN in binary64 (C29_coincident_refuted); with friction the pair forces have a moment (C29_friction_moment_refuted). Missing: a statement about rounding in general.
* **C30** Contact search pairs exactly the close, unbonded points (partial, 4 theorems). REFUTED for ties: C30_lists_partial proves the lists right after any history of searches and redistributions (bonds kept by C30_bonds_kept), with points at exactly the search radius only when no two processors share a coordinate across their separating plane; C30_tie_refuted shows the points that are missed otherwise. Real arithmetic; every processor owns a point (C25_empty_processor_refuted).
* **C31** Each pair of blocks has one contact model (partial, 8 theorems). REFUTED as stated: the kept model is the last in the order of strings, not the one defined last or most specifically (C31_last_definition_refuted, C31_specific_definition_refuted); entries for (f,g) and (g,f) are both kept (C31_pair_twice_refuted); an input that defines nothing, such as general contact with one block, is undefined behaviour (C31_nothing_defined, C31_one_block_refuted); the list is not used for the choice of models (C31_interactions_unused_refuted). Proved for all inputs: one entry per ordered pair, exactly for the defined pairs, with the greatest name (C31_list_partial); the statement holds when entries name the smaller id first and definitions agree (C31_unordered).
* **C32** Explicit run: times and kinematics (partial, 5 theorems). Proved over the reals: number of steps, times, completeness and the Verlet relation between consecutive outputs for every run; success of runs. REFUTED in binary64 (C32_final_time_binary64_refuted: every run from 0 to 1.7 with step 0.1 ends beyond 1.7) and for 2^31 steps or more (undefined conversion, the check for too many steps comes after it).
* **C33** An isolated body keeps its momentum throughout an explicit run (proved, 2 theorems). Over the reals, any number of steps, any balanced evaluation (contact included), first evaluation or restart; instance for the linear peridynamic solid with any damage model.
* **C34** Quasi-static load stepping reaches the final time or stops with an error (partial, 11 theorems). Proved over the reals for every pattern of solver results, both subdivision modes: the loop ends, number of attempts, accepted steps contiguous and solved, schedule visited and final time exact when only the failed step is subdivided, uniform schedules. REFUTED: with 'Reduce all remaining load steps' a finished run can end beyond the final time (by less than its last step, proved); giving up returns normally instead of raising an error; residuals up to 100 times the tolerance are accepted; in binary64 a uniform schedule can end beyond the final time.
* **C35** Line search returns its best finite trial (partial, 9 theorems). Proved over the reals and, for finite doubles, in binary64 (C35_search_binary64): the returned step is the candidate with the smallest residual among those tried and finite, otherwise the increase nearest to ten percent; the search succeeds. REFUTED: when no trial is finite (or none is below 1e50) the step 1 is returned although it was tried and not finite; with multiphysics the first round evaluates every candidate at the same step 1e-4 and returns the first whatever its residual; an increase of exactly ten percent can be passed over.
* **C36** Implicit (Newmark) kinematics are consistent (partial, 7 theorems). Proved over the reals for every linear solver, every number of corrections and steps: times, Newmark relations, positions, residual of the equation of motion, when a step ends, success of runs. REFUTED: prescribed displacements are never imposed (the run does not depend on the prescribed values at all; constrained components stay where they were); the body force is that of the beginning of the step; steps that do not converge are accepted; the fluid residual changes its formula after the first correction.
* **C37** Tangent matrix: sparsity covers every coupling and finite differences are exact for affine forces (partial, 14 theorems). Proved for any number of processors, points and neighbours: the pattern is exactly the pairs of points that share a neighbourhood, symmetric, with every diagonal block, and assembly into it never misses an entry; finite differences give the row volume times the central difference of the total force whatever the scratch matrices held before (displacements only and temperatures only; full and block diagonal), exact for forces at most quadratic; for the elastic material the automatic differentiation matrix holds the derivatives of the assembled internal force. REFUTED: with more than three degrees of freedom per point finite differences read past the force array (C37_four_dofs_refuted); a point without neighbours stops the computation (C37_lone_point_refuted); the elastic-plastic materials ignore the request for a block diagonal matrix (C37_plastic_block_diagonal_refuted).
* **C38** Prescribed boundary conditions act exactly on their node set and component (partial, 13 theorems). Proved over the reals for all lists of conditions and all explicit or quasi-static histories: exactly the named entries change, initial conditions, body forces and temperatures take the last applicable value, displacement increments and velocities add up to u(t)-u(t0). REFUTED: a start value that is not the resting value, thermal flux writes zero, a numeric value passes through six digits.
* **C39** Constrained rows are removed consistently (partial, 6 theorems). Residual entries proved; rows and columns proved on one processor, rows on any number; increments of constrained unknowns vanish in every solution (any number of processors). REFUTED: columns of unknowns constrained on another processor are not cleared.
* **C40** Node sets mean the listed nodes (partial, 9 theorems). Proved for all texts recognisable as lists (order and set), for files with comments, and for all sets of a processor. REFUTED: empty text (undefined behaviour), single word with leading zero and an 8 or 9 (taken for a file name), a number above INT_MAX (rest dropped), a stray character in a file line (rest dropped).
* **C41** Elastic constants: any two define the same material (partial, 6 theorems). Proved for all admissible pairs without the plane options. REFUTED with plane stress / plane strain: the option changes the bulk modulus only when the pair is (E, nu), never the shear modulus.
* **C42** Horizon lookup (proved, 7 theorems). For every printing function of numbers and every expression evaluator. Extra finding: C42_constant_value_of_variable_horizon_refuted (documented error is not raised); C42_constant_horizon_is_not_exact_refuted (a numeric horizon passes through a 16-digit text).
* **C43** Degrees of freedom layout is a bijection (partial, 3 theorems). Proved for the first initialisation, all 16 choices of physics. REFUTED for re-initialisation: the total accumulates (C43_reinitialisation_refuted, for all choices).
* **C44** Element volumes and centroids are exact (partial, 20 theorems). Proved over the reals: tetrahedron volume equals base times height over three, is additive and translation invariant; hexahedron volume equals the integral of the Jacobian of the trilinear map whenever all 24 sub-tetrahedra are not inverted, both routines agree, volumes add over cuts, renumbering and conforming meshes, exact volume and centroid of parallelepipeds, centroid in the hull of the nodes, inverted elements are rejected. REFUTED: a hexahedron with positive Jacobian everywhere can be rejected as inverted (C44_valid_hexahedron_refuted); the centroid of a flat element is NaN (C44_flat_element_centroid_refuted).
* **C45** Element/sphere classification is right (partial, 8 theorems). Proved over the reals: triangle test right and decided up to tangency; tetrahedra of non-zero volume and parallelepipeds right for INSIDE and INTERSECTS, and for OUTSIDE unless the centre is in the element; hexahedra with proper surface triangles with respect to their surface and hull. REFUTED: every sphere enclosed in an element without reaching its surface is reported OUTSIDE. Missing: degenerate (flat) elements, OUTSIDE for non-parallelepiped hexahedra beyond the surface triangles.
* **C46** Block names map to their block number (partial, 4 theorems). Dream3D form proved for all numbers; underscore form proved when the text has none of the letters G, R, A, I, N. REFUTED otherwise.
* **C47** Restart accepts the time it wrote (partial, 4 theorems). REFUTED for every reader (C47_every_time_refuted): the time is written with six digits and compared exactly. Proved: times that are six-digit decimals are accepted; at most one time per text is.
* **C48** Global output quantities are what their names say (partial, 13 theorems). Proved over the reals: kinetic energy for every decomposition, block minimum and sum, nearest point, momenta of a single block. REFUTED: momenta of several blocks (sum of block magnitudes, exact characterisation proved), block maximum when all values are below DBL_MIN.
* **C49** Output is written exactly at the requested steps (partial, 4 theorems). Proved with lower bound a-1 for all schedules and run lengths; REFUTED for the lower bound a (C49_first_step_refuted, every a); last step INT_MAX overflows.
* **C50** Time-dependent data files are interpolated linearly (partial, 3 theorems). Proved for every request up to and including the first error, for all files and histories. REFUTED: first request at time -1, repeated request after an error (both for every file).
* **C51** Diffusive fluxes are conserved (partial, 14 theorems). Conservation proved for the fluid flow and, for mutual neighbour lists on any number of processors, for the heat flux divergence; no flux in a uniform field. REFUTED: more damage lowers the fluid flow for a positive curve parameter (C51_damage_refuted, the setting of the shipped input decks; C51_damage_partial is the true direction for two points); lists that are not mutual (C51_one_sided_refuted); species when temperatures differ (C51_species_refuted; C51_species_conserved_partial at uniform temperature). The improved quadrature weights are modelled but not covered.
* **C52** Input keywords round-trip (proved, 4 theorems). All texts, three enumerations, initial-condition test.
* **C53** A state lists its own fields (partial, 1 theorems). REFUTED: getFieldIds() without arguments is always empty (C53_getFieldIds_default_is_empty); allocating SCALAR and LENGTH_1 fields together is refused (Example C53_scalar_and_length1_refused).
* **C54** Stress and plastic-strain driven damage never decreases (proved, 2 theorems). Real arithmetic; the bond loops and state swaps, not the volume averages.
* **C55** An isolated body keeps its angular momentum throughout an explicit run (proved, 2 theorems). Over the reals, any number and size of steps, any moment-free evaluation; instance for the linear peridynamic solid.
* **C56** Largest distance from a point to the nodes of an element (proved, 2 theorems). Over the reals, every non-empty list of nodes.
* **C57** Omitting bonds between blocks keeps exactly the bonds within blocks (partial, 3 theorems). Proved for every mesh with blocks numbered 1 to the number of blocks: lists keep exactly the neighbours of the same block in order, symmetric lists stay symmetric. REFUTED: a block number above the number of blocks (blocks 1 and 3) makes the filter read outside its table.
* **C58** Processor 0 distributes the mesh without blocking (partial, 4 theorems). Proved: for shares with at least one cell, every schedule and buffering, no blocking, at most 20 steps per processor, every processor returns its share, no message left; meshes with at least as many cells as processors meet this. REFUTED for every mesh with fewer cells than processors (three or more) when sends wait: processor 0 goes on sending the empty arrays to a processor that no longer receives them.
* **C59** J2 plasticity with hardening: stress stays within the hardened yield surface (partial, 11 theorems). REFUTED: a step into the plastic range from a virgin state reports less than half of the plastic strain it made (C59_first_yield_refuted); trial stresses beyond the yield surface can be taken as elastic because the multiplier leaves out the hardening already made (C59_overshoot_refuted); the power law keeps the triaxiality of an earlier step on elastic steps (C59_triaxiality_refuted). Proved over the reals: reported von Mises stress, elastic pressure, elastic steps, the yield surface never shrinks and plastic strain never decreases over any history, exact agreement with perfect plasticity without hardening, effect of the flaw.
* **C60** The iterated radial return ends, on the yield surface of the new plastic strain (partial, 8 theorems). Proved over the reals for every concave non-decreasing law and for the two laws of the code: the return ends (slope at most 3G: for every excess up to 1e14 times the bulk modulus), on the yield surface of the new plastic strain to within 1e-16 of the bulk modulus, with the exact plastic strain, elastic pressure, direction kept; invariants over histories of any length. REFUTED in binary64: the tolerance 1e-16 K is below one unit in the last place, so the iteration can reach its limit and abort for an ordinary step (C60_binary64_refuted).
* **C61** The stored elastic energy is the potential of the internal forces (partial, 10 theorems). Proved over the reals for every body, neighbourhood, influence function, temperature and motion: undamaged elastic bodies (C61_elastic), conservation of kinetic plus stored energy under Newton's law, sign, vanishing exactly at reference lengths, rigid motions; with broken bonds and for the multiphysics material the exact potential is the reported energy plus a named term (C61_damaged, C61_multiphysics). REFUTED: with a broken bond the reported energy itself is not the potential, for any non-zero shear modulus (C61_damaged_refuted).
* **C62** The energy output reports the energies of the body (partial, 4 theorems). Kinetic energies, point values, global sums over blocks and processors and uniform expansion proved. REFUTED: the deviatoric extension is not squared, so for every positive shear modulus some deformed body has negative strain energy while the stored elastic energy is positive (C62_strain_energy_refuted).
* **C63** The position-aware solid matches homogeneous strains at every point (partial, 9 theorems). Proved over the reals for every cloud, neighbourhood, pair of initial influence functions and every solver whose answers solve the equations: potential, momentum, moment, frame indifference, rigid motion, first order dilatation, exact uniform expansion, second order energy for axis stretches in any combination and for each coordinate shear. Not claimed: energy of shear combined with other strains, which the multipliers do not control. REFUTED: bond damage is never read, so a body with all bonds broken still has forces (C63_broken_bonds_refuted).
* **C64** The shear correction factor makes the worst coordinate shear classical (partial, 8 theorems). Proved over the reals for every body, influence function and owned point whose bonds some coordinate shear stretches unevenly: classical energy in the worst of the three shears, no more in the others, positive factor, independent of the scratch coordinates and of translations (C64_total, C64_energy, C64_translation); elastic steps of the hardening solid scale their shear stiffness by its factors (C64_hardening_response). REFUTED: the hardening solid, which applies the correction by default, is given the inverse factors, so the energy is 2 mu gamma^2 / f^2 (C64_hardening_refuted); the factor depends on the orientation of the body, by more than twelve orders of magnitude for six neighbours along the axes (C64_isotropy_refuted); points without neighbours get NaN and isolated pairs infinite factors and NaN forces at rest (C64_lonely_refuted, C64_pair_refuted).
* **C65** The viscoplastic update ends on the flow surface of its strain and rate (partial, 11 theorems). Proved over the reals: reported stress, pressure, elastic steps, symmetry, direction and bounds of the plastic strain, histories (any power function); for steps below 100 per cent strain the bisection ends within 1e-6 of a root of its equation and the von Mises stress is the smaller of the elastic one and the flow stress of the multiplier (C65_root_partial). Missing from it because false: REFUTED that the step ends on the flow surface of its own plastic strain (C65_consistency_refuted, more than 5 per cent off); the stored plastic strain is less than half of the true one for every first yield (C65_first_yield_refuted); every step whose elastic deviator exceeds 2G plus the flow radius at 100 per cent strain loses its deviatoric stress after 100000 iterations (C65_large_step_refuted).
* **C66** The Error output is the integral of the squared displacement error over the element (partial, 7 theorems). Proved for cubes (element, block and global value, C66_cube_partial, C66_output_partial). REFUTED for other boxes: the test for cubes compares with 1.0e12, so every box is accepted and the value is off by the factor side_x^2/(side_y side_z) (C66_box_refuted); boxes with a side below 1e-10 are refused as non-rectangular (C66_small_refuted); collapsed elements are accepted (C66_collapsed_refuted).
* **C67** Node_Set_Data reports the minimum, maximum or sum over the node set (partial, 5 theorems). Sum, minimum and empty sets proved. REFUTED for the maximum: it starts from DBL_MIN, the smallest positive number, so a set of negative values reports DBL_MIN (C67_maximum_refuted); right as soon as one value reaches DBL_MIN (C67_maximum_partial).
* **C68** The fields filled point by point hold what their names say (partial, 11 theorems). Proved for neighbour counts, neighbourhood volumes, radius and forces. REFUTED for Acceleration where body forces act (C68_acceleration_refuted: the body force is missing; equal elsewhere, C68_acceleration_partial) and for Deformation_Gradient after a block with a singular shape tensor (C68_gradient_refuted: all later blocks keep old values; right if there is none, C68_gradient_partial).
* **C69** The bonds drawn by Bond_Visualization are the bonds of the processor (proved, 3 theorems). For all blocks whose arrays fit and in which a global id has one position; the numbers are tokens, their decimal representation (six digits) is outside the model.
* **C70** A mesh file becomes one material point per element (proved, 7 theorems). For all well-formed files: node numbers exist, every element has a number, spheres have two attributes; C70_sphere_attributes_refuted shows that the last condition is not checked by the code. One processor; the calls of the Exodus library are the data of the model.
* **C71** Interfaces between elements are found, once each, with their corners (partial, 8 theorems). Proved for hexahedra and for elements of one other kind sharing at most four nodes. REFUTED for quadratic elements (C71_quadratic_refuted: array overrun), meshes of several kinds (C71_mixed_refuted, C71_mixed_false_refuted), wedges written as hexahedra (C71_wedge_refuted) and hexahedra with exactly three common corners (C71_three_corners_refuted).
* **C72** The interface file shows the aperture of every interface at every output (partial, 4 theorems). REFUTED: every output holds the apertures of the output before it, the first one zeros (C72_late, C72_current_refuted); nodes and order are proved (C72_blocks), the element numbers in the file are the interface numbers only if no triangle precedes a quadrilateral (C72_numbers_refuted).
* **C73** With element-horizon intersections, neighbours are the elements that meet the horizon (partial, 7 theorems). Neighbours, lists and radius proved for hexahedra with proper faces (the only elements the code accepts here). REFUTED for combinations of options: C73_options_refuted (Construct Interfaces = false forgets the stored mesh), C73_interfaces_refuted (interfaces in parallel use stale local numbers).
* **C74** A run resumed from restart files continues where the last one stopped (partial, 13 theorems). Proved for complete histories of sessions: names, order, the state found and used (C74_resume, C74_session) and, over the reals, that an explicit run stopped after a whole number of steps and resumed gives the states of a single run (C74_continue). REFUTED: the clock of a run that ends between steps (C74_clock_refuted), temperatures and flux divergences (C74_temperature_refuted), crashes while writing (C74_crash_refuted, C74_silent_refuted), missing files (C74_missing_refuted) and long block names (C74_long_names_refuted). The text of numbers in the matrix files is taken as read back exactly; the text of the time is C47.
* **C75** A mesh turned into spheres describes the same body (partial, 12 theorems). Points, volumes, blocks, layers and, if the elements are numbered in order, node sets are proved (C75_points, C75_blocks, C75_sets, C75_layers), and that the result can be read (C75_readable). REFUTED: volumes are not scaled (C75_scale_refuted), node sets of meshes numbered otherwise name other points or make the file unreadable (C75_sets_refuted, C75_missing_refuted), a second conversion with layers is refused (C75_twice_refuted, C75_again_refuted), blocks with equal numbers in their names stop the converter (C75_one_number_refuted).
* **C76** A cylinder mesh covers the tube, about its centre, with complete neighbour lists (partial, 8 theorems). Numbers of rays and layers (C76_counts), shares (C76_shares), points about the axis x = y = 0, sector volumes and their sum (C76_points) are proved over the reals, and which cells the lists hold (C76_lists); lists are complete when the innermost cells beyond the rays looked at are no nearer than the horizon (C76_complete). REFUTED: the ring centre is ignored (C76_centre_refuted); thick tubes miss neighbours at the inner radius (C76_missed_refuted); with few rays neighbours are listed twice (C76_repeated_refuted).
* **C77** Bond-associated gradients are exact for polynomials of the chosen order (partial, 14 theorems). Proved over the reals for every neighbourhood, order and history in which changes of bond damage show in the point damage (which bonds that break for good give, C77_reported): the monomials (C77_exponents), the moments of the weights (C77_moments), exact gradients of polynomials and affine maps (C77_gradient, C77_affine) where no singular value is thrown away (a condition on the positions alone, C77_margin, for any decomposition that is one), the bond level gradient (C77_bond_level, C77_bond_affine), broken bonds (C77_broken), no failure on data of the right length (C77_runs). REFUTED: a bond broken in one trial of a step and whole in the next keeps no weight (C77_trial_refuted); flat neighbourhoods are accepted and give the unit tensor for every deformation across the plane (C77_flat_refuted); an order below one is accepted and gives the unit tensor always (C77_order_refuted).
* **C78** Forces of the bond-associated material conserve momentum and do the work of the stress (partial, 11 theorems). REFUTED: the gradients of the points, computed for output only, stop the run as well (C78_output_refuted: a cube with one corner pressed in, every bond gradient regular). Proved over the reals: C78_momentum for every evaluation; C78_power and C78_moment for one evaluation with two-sided data; C78_history for any number of accepted steps from initialize, in which the two-sidedness and the exactness of the weights are shown to last (C78_weights); C78_elastic instantiates the stress update; C78_uniform gives the power with the present over the initial weighted volume, which initialize alone computes, C78_intact the undamaged case; C78_broken; C78_stops says exactly when a run stops. All points of the force evaluation are on one processor.
* **C79** Stresses of bonds follow the material law and turn with the body (partial, 5 theorems). REFUTED for the rotation: after n steps of a body that only spins, the determinant of the rotation of every bond with influence is (1+excess)^n, with excess 0 only where cos(dt|w|) = 1 (C79_spin_refuted), the sign error of C18 in the copy for bonds. Proved over the reals: C79_law for every bond with influence, any stress update and any kinematics, with the characterisation of stretch and rotation; C79_hooke; C79_kept; C79_spin: the unrotated stress does not change, whatever the present deformation.
* **C80** Plastic bonds stay within yield and report their own triaxiality (partial, 14 theorems). REFUTED for the triaxiality of the saturation exponential material: it is computed from the stress field before the new stress is stored, hence 0 in the first step whatever the load, and of the stress of two steps before afterwards (C80_triaxiality_refuted, for all inputs, and for a pulled cube with every bond at 1/2). Proved over the reals: balance over histories and power for any stress update that keeps symmetry (C80_history, C80_power, C80_law) and that the three materials do (C80_symmetric); yield and growth of the plastic strain over histories (C80_yield_perfect, C80_yield_power, C80_yield_satexp); the stress updates themselves, with elastic range, return and plastic strain (C80_updates); rest (C80_laws_rest, C80_kept, C80_spin); triaxiality of the other two (C80_triaxiality); the perfectly plastic material finishes whenever the gradients are regular (C80_runs).
* **C81** The volume of a bond is the part of the neighbour's cell within the horizon (partial, 18 theorems). REFUTED for cylinders away from the z axis: the parts of the cell are laid around the z axis, so that for every ring far from it a cell wholly within the horizon counts nothing (C81_ring_refuted; C81_ring_centre says what is computed instead). Proved over the reals: for bricks the parts counted (C81_quadrature), limits (C81_bracket, C81_bounds, C81_whole, C81_none), the diagonal (C81_diagonal), symmetry, translation and horizon (C81_symmetric, C81_moved, C81_monotone); for rings the exact volume of a cell with any centre (C81_ring_cell), bounds (C81_ring_bounds) and, around the z axis, whole and empty cells and the diagonal (C81_ring_whole, C81_ring_diagonal); order of the list (C81_bonds) and the cells of the grid (C81_grid, C81_ring_grid).
* **C82** The compute classes asked for are built once, with their parameters, and run in order (partial, 7 theorems). REFUTED for a class named both with spaces and with underscores in output lists: two objects are built (C82_once_refuted, for every class). Proved: which objects are built with and without parameters (C82_built); once each and in the order of the parameter lists if no two variables differ in spaces only (C82_once); errors, both ways (C82_errors); any constructors, which may fail (C82_constructed); fields and services (C82_fields); one run of each object in order (C82_run).
* **C83** Dilatation and deviatoric extension by bond volumes see an even expansion as one (partial, 4 theorems). REFUTED for an influence function other than that of the program: the deviatoric extension takes its dilatation with the default one and is not zero (C83_deviatoric_refuted, for all functions that differ at the neighbour). No caller in the sources passes one. Proved: agreement with the ordinary functions (C83_same, for any arithmetic); defined exactly if every neighbour has a volume (C83_defined); dilatation with any influence function, and no deviatoric extension with that of the program (C83_expansion, over the reals).
* **C84** The linear material superposes, resists no rigid motion, and its broken bonds carry nothing (partial, 7 theorems). REFUTED for broken bonds with the improved quadrature: the half of the force that comes from the neighbour is added without the bond damage, so that two points whose only bond is broken still pull at each other (C84_broken_refuted, for all moduli, weights and stretches). Proved over the reals: superposition (C84_dilatation, C84_superposition), the force as the sum over the bonds of the force states of both ends (C84_law), rigid motion (C84_rigid), expansion (C84_expansion), dilatation blind to broken bonds (C84_broken_dilatation). With cell volumes a broken bond is force free: C08_linear_lps_broken_bond_is_force_free. Superposition and rigid motion of forces are stated for the improved quadrature only.

## 6. What is modelled and what is not

Every definition in a `Model*.v` file cites the lines it models and says where it
simplifies.  By source directory:

**src/core.**  Modelled: Field registry (ModelField); DataManager and State, without
handles kept across an update (ModelData, ModelCopy); BlockBase maps, neighbourhood
splitting and the assembly of block vectors (ModelBlock); boundary and initial
conditions, node sets and their text (ModelBC, ModelNodeSet); horizons, degrees of
freedom, block names, keywords, output schedule (ModelInput); influence functions and
critical time step (ModelScalar); DataLoader interpolation (ModelGlobal); the explicit
loop (ModelExplicit); load stepping, line search and Newmark solver of Peridigm.cpp
with the linear or nonlinear solver as an arbitrary oracle (ModelQuasi, ModelLine,
ModelNewmark); tangent allocation, SerialMatrix and ScratchMatrix (ModelTangent);
restart time text (ModelPrint), restart files (ModelRestart); interfaces and their file
(ModelInterface); contact search and interaction list
(ModelContactSearch, ModelInteractions).
The compute and service managers are modelled (ModelCompute), with the compute classes as parameters.
Not modelled: the NOX interface beyond the residual assembly, implicit diffusion
(executeImplicitDiffusion), preconditioners, the linear solvers, the text of
matrix files, timers, memory
statistics, the parsing of the input deck by Teuchos, run-time compiled functions
(RTCompiler; an arbitrary function where one is used).

**src/materials.**  Modelled: weighted volume, dilatation and the force kernels of the
linear peridynamic solid, with partial volumes, bond-based, viscoelastic,
elastic-plastic, hardening, linearised (ModelForce, ModelPlastic); multiphysics fluid
coupling, heat, species and vector Poisson (ModelDiffusion); correspondence tensors,
deformation gradient, rotation tracking, force and hourglass force (ModelCorr); the
stress updates of elastic, perfectly plastic, isotropically hardening materials and the
Newton return (ModelJ2); elastic constants (ModelScalar); finite difference tangents of
any material with displacements or temperatures only and the automatic differentiation
tangent of the elastic material (ModelTangent); stored elastic energy (ModelEnergy); the position-aware linear solid with the LAPACK
solution an argument (ModelPals); the shear correction factor (ModelShear); the
viscoplastic update of Needleman (ModelNeedle).
The bond-associated correspondence material with the elastic stress update (ModelBondAssoc) and
the three plastic ones (ModelBondPlastic; not their output at the points).
Not modelled: LCM, the hypoelastic correspondence materials, the bond-level plastic
stress updates (elastic_plastic_correspondence.cxx from line 437,
isotropic_hardening_correspondence.cxx from line 722), the automatic differentiation tangents of the plastic and the
multiphysics materials, the quadrature library of the improved quadrature (its weights are arguments, ModelLinear), the partial stress output of elastic.cxx, time-dependent
material parameters.

**src/damage.**  Modelled: all models' bond loops and buffers (ModelDamage), initial
damage (ModelFilter).  Not modelled: the run-time compiled critical stretch (an
arbitrary function of time and position).

**src/contact.**  Modelled: short range force with and without friction (ModelContact).
Not modelled: the expression parser of the time dependent variant.

**src/io.**  Modelled: kd-tree (ModelTree), parallel search with what Zoltan computes as
an argument (ModelParallel), bond filters (ModelFilter), tensor product mesh generator
and its distribution over MPI (ModelGrid, ModelDistribute), element geometry (ModelGeom),
neighbourhood rebalancing (ModelBlock), loading of genesis meshes on one processor
(ModelMesh), interfaces between elements and their aperture file (ModelInterface),
element-horizon intersections (ModelRefine).  The generator of cylinders is modelled (ModelCylinder). Not modelled: the generators of rings in the plane and of solid cylinders, the text and Albany readers
other than the block filter, the ExodusII and VTK
writers other than the write schedule, the YAML reader of the bond volume calculators (which are modelled, ModelBondVolume), Array.h.

**src/compute.**  Modelled: kinetic energy, momenta, block data, nearest point data
(ModelGlobal), energy and stored elastic energy (ModelEnergy), error (ModelError), node
set data, number of neighbours, neighbourhood volume, radius, force, contact force,
acceleration, deformation gradient (ModelOutput), bond visualisation (ModelVtk).  Not modelled: the other compute
classes.

**src/mesh_converter.**  Modelled: the conversion of a genesis mesh on one processor
(ModelConvert).  Not modelled: its input deck, the neighbourhood file it can also write.

Bond-associated correspondence (correspondence.cxx:560-600 and 3040-4480,
Peridigm_BondAssociatedCorrespondenceMaterial.cpp) is modelled in ModelBondAssoc, with the
influence function, the singular value decomposition, sine and cosine as arguments.  Not
modelled there: Green-Lagrange strains and the node level stresses and rotations, which are
output only (the return code of the latter is modelled).

Everywhere: `int` is unbounded unless the comment says otherwise, memory allocation
succeeds, and MPI (outside ModelDistribute) delivers what the collective operation
promises.

## 7. Findings

Places where the code, as modelled, does not do what a user would rely on.  The
theorem that shows it is in brackets; findings without one come from reading only.

1. The tracked rotation: the square term of the rotation formula has the wrong sign
   (correspondence.cxx:1140 and four more places); under spin the tensor grows
   [C18_spin_refuted, C18_spin_stress_refuted]; a failed inversion of tr V I - V is
   ignored [C18_singular_stretch_refuted].
2. Bonds heal in the user-defined and the interface-aware damage models and after the
   first evaluation of an explicit run [C07].
3. Bond damage has no effect on correspondence materials [C08_correspondence_refuted]; a
   broken bond with coincident ends gives NaN [C08_coincident_ends_binary64_refuted].
4. Partial volumes break linear momentum unless they are balanced [C09].
5. The multiphysics branch of the NOX residual never zeroes the force vector [C05].
6. The kd-tree overruns its nodes for every cloud with two coincident points [C23];
   in binary64 the inscribed cube accepts points beyond the radius [C22].
7. Parallel neighbour lists miss pairs when horizons differ or a point lies exactly at
   the frame boundary [C25]; the contact search misses such pairs too [C30_tie_refuted].
8. A processor without points reads beyond an array [C25_empty_processor_refuted]; a mesh
   with fewer cells than processors can block [C58].
9. Explicit and quasi-static runs can end beyond the final time [C32, C34]; giving up
   returns normally; residuals up to 100 times the tolerance are accepted [C34].
10. The line search can return a step whose residual was not finite; with multiphysics it
    compares equal steps [C35].
11. The Newmark solver never imposes prescribed displacements [C36].
12. The contact interaction list is never used, keeps two entries per pair and picks the
    greatest name [C31]; friction has a moment, coincident points give NaN [C29].
13. Prescribed values pass through a six digit text; thermal flux writes zero [C38].
    Columns of unknowns constrained on other processors are not cleared [C39].
14. Node set text: empty text, leading zeros, large numbers, stray characters [C40].
15. Plane stress and plane strain change the bulk modulus for one pair of inputs only and
    never the shear modulus [C41].
16. Re-initialising the degrees of freedom accumulates them [C43].
17. A valid hexahedron can be rejected as inverted; a flat element has centroid NaN [C44];
    an enclosed sphere is reported outside [C45].
18. Block names containing letters of GRAIN map to the wrong number [C46].
19. Restart rejects its own time unless it has at most six digits [C47].
20. Momenta of several blocks are sums of magnitudes; block maximum of very negative
    values [C48]; output starts one step early [C49]; data files at time -1 [C50].
21. More damage lowers the fluid flow in the shipped decks; one-sided lists and species
    flux do not conserve [C51].
22. getFieldIds() is always empty [C53]; the block filter reads outside its table [C57].
23. Isotropic hardening: wrong multiplier at first yield, overshoot accepted, stale
    triaxiality [C59]; the Newton tolerance is below one unit in the last place [C60].
24. Finite difference tangents with a temperature read past the force array; a lone point
    stops the run; elastic-plastic materials ignore the block diagonal request [C37].
25. Exactly planar neighbourhoods can pass as regular in binary64 [C17]; the two ends of a
    bond can disagree about a filter in binary64 [C21].
26. Mesh shares beyond INT_MAX are undefined [C28].
27. With broken bonds the stored elastic energy is not the potential of the forces
    [C61_damaged_refuted]; the energy output does not square the deviatoric extension and
    can be negative [C62_strain_energy_refuted].
28. The position-aware solid never looks at bond damage [C63_broken_bonds_refuted].
29. The hardening solid inverts the shear correction factor (a todo in the code asks) and
    applies it by default [C64_hardening_refuted]; the factor depends on the orientation
    of the body [C64_isotropy_refuted] and is NaN or infinite for points with no or one
    neighbour [C64_lonely_refuted, C64_pair_refuted].
30. The viscoplastic update solves with one plastic strain and evaluates the surface with
    another [C65_consistency_refuted], stores less than half of the first plastic strain
    [C65_first_yield_refuted] and loses the stress of very large steps
    [C65_large_step_refuted].
31. The Error output accepts every box although its formula is for cubes (a test compares
    with 1.0e12 where 1.0e-12 is meant) [C66_box_refuted], refuses small elements
    [C66_small_refuted] and accepts collapsed ones [C66_collapsed_refuted].
32. Node_Set_Data: the maximum of negative values is DBL_MIN [C67_maximum_refuted].
33. The Acceleration output leaves out the body forces [C68_acceleration_refuted].
34. Deformation_Gradient: `retval = retval || f()` skips all blocks after one with a
    singular shape tensor [C68_gradient_refuted].
35. Sphere elements with fewer than two attributes are read past the end of the attributes
    [C70_sphere_attributes_refuted].
36. Interfaces between elements with ten or twenty nodes overrun an array of four
    [C71_quadratic_refuted]; in meshes with several kinds of elements the neighbour is read
    with the wrong number of nodes [C71_mixed_refuted, C71_mixed_false_refuted]; wedges and
    faces with three common corners are stored wrongly [C71_wedge_refuted,
    C71_three_corners_refuted].
37. The interface file is one output late: apertures are computed after they are written
    [C72_current_refuted]; with triangles before quadrilaterals its element numbers are not
    those of the interfaces [C72_numbers_refuted].
38. `Construct Interfaces = false` overwrites the request to store the mesh
    [C73_options_refuted]; after the removal of neighbours the interfaces are built from
    stale local numbers when there are ghosts [C73_interfaces_refuted].
39. Restart: temperatures and flux divergences are not saved [C74_temperature_refuted]; a crash
    while a restart is written leaves a newest directory that blocks every later start
    [C74_crash_refuted] or resumes silently with wrong bond data [C74_silent_refuted]; a
    missing file goes unnoticed and the vector takes the values of the one before
    [C74_missing_refuted]; long block names overrun `VectorName[50]`
    [C74_long_names_refuted]; the time recorded is the final time asked for, not the one
    reached [C74_clock_refuted].
40. The mesh converter scales coordinates but not volumes or radii [C75_scale_refuted]; it writes
    node sets with the global numbers of the elements where the file format has local ones, so
    that sets of meshes not numbered in order name other points [C75_sets_refuted] or none
    [C75_missing_refuted]; a second conversion with layers repeats the names of the sets and the
    file is refused [C75_again_refuted]; blocks named alike but for the prefix of the number
    stop it [C75_one_number_refuted].
41. The cylinder generator ignores `Ring Center x` and `y` [C76_centre_refuted]. It looks at as many
    rays on each side as the horizon has arcs at the mean radius, where arcs at the inner radius
    are shorter: inner cells of thick tubes miss neighbours [C76_missed_refuted]. When it looks at
    more rays than there are it lists neighbours twice [C76_repeated_refuted].
42. The bond-associated material recomputes the gradient weights of a point only when its damage
   exceeds that of the last step. In a second evaluation of the same step in which a bond is
   whole again (a trial of an implicit solver), the bond keeps the weight zero
   [C77_trial_refuted]. `invertAndCond` always returns 0, so the error "failed to compute
   gradient weights" cannot occur: flat neighbourhoods get the unit tensor for every
   deformation across the plane [C77_flat_refuted], and a `Gradient Order Of Accuracy` below
   one gives the unit tensor always [C77_order_refuted].
43. The bond-associated material computes rotations at the points for output only, and stops the
    run when one of their gradients is singular although every bond could be evaluated
    [C78_output_refuted]. The weighted volume is computed once, so that the work of a uniform
    stress falls with damage by the ratio of present to initial weighted volume [C78_uniform].
44. The rotation update of bonds in the bond-associated material repeats the sign error of the
    update of points: a body that only spins gets rotations whose determinant grows by the same
    factor in every step [C79_spin_refuted].
45. The saturation exponential material stores the triaxiality of a bond before it stores the new
    stress: 0 in the first step whatever the load, then that of the stress of two steps before
    over the present von Mises stress [C80_triaxiality_refuted]. The Johnson-Cook damage model
    reads it.
46. RingVolumeFractionCalculator lays the parts of a cell around the z axis instead of the centre of the
    cylinder: a cell wholly within the horizon may count nothing [C81_ring_refuted]. The header
    says that the centre may need checking; nothing in the code checks it.
47. A compute class named in the output lists with spaces and with underscores is built twice and
    computed twice [C82_once_refuted].
48. compute_norm_2_deviatoric_extension takes its dilatation with the influence function of the program
    whatever function it is given (material_utilities.cxx:403 and 638); no caller in the sources
    passes another [C83_deviatoric_refuted].
49. LinearLPSPVMaterial with the improved quadrature adds the neighbour's half of a bond force without
    the bond damage (Peridigm_LinearLPSPVMaterial.cpp:372-374): a broken bond still pulls
    [C84_broken_refuted].
50. By reading only: contact treats broken bonds as bonds (todo at ContactManager.cpp:741)
    and starts with the bonded list until the first rebalance; Search Frequency 0 divides
    by zero; polygonal bond filters with neither three nor four nodes reuse the previous
    filter; rebalancing takes the address of the first element of empty vectors;
    `deltaT++` on a null pointer in the diffusion kernel without temperatures; the partial
    stress and Array.h (`deep_copy`, `l2_norm`) oddities. The third coordinate of the interface
    file is named `coordinates_x`; element dimensions skip spheres.

## 8. Print Assumptions, theorem by theorem

Abbreviations: `forall_dec` = `ClassicalDedekindReals.sig_forall_dec`, `not_dec` =
`ClassicalDedekindReals.sig_not_dec`, `funext` =
`FunctionalExtensionality.functional_extensionality_dep`, `classic` =
`Classical_Prop.classic`.

**No axioms** (193 theorems): `C01_ids_dense`, `C01_ids_identify_labels`, `C01_lookup_stable`, `C01_no_undefined_behaviour`, `C01_refused_iff`, `C01_refused_leaves_no_trace`, `C01_same_request_same_id`, `C01_unknown_id_rejected`, `C01_unknown_label_rejected`, `C02_allocated_fields_readable`, `C02_history_global`, `C02_history_local`, `C02_history_single_step_global`, `C02_history_single_step_local`, `C02_last_write_becomes_N`, `C02_update_globals`, `C02_update_local`, `C02_update_other_manager`, `C03_copy_by_global_id`, `C03_copy_manager`, `C03_copy_state`, `C03_manager_refused`, `C03_never_undefined`, `C03_refused_iff`, `C04_block_describes_same_bonds`, `C04_blocks_partition_points`, `C05_evaluations_do_not_accumulate`, `C05_import_gives_owner_value`, `C05_nox_multiphysics_accumulates`, `C05_nox_multiphysics_refuted`, `C05_point_gets_sum_of_held_values`, `C05_total_is_preserved`, `C06_breaks_iff_exceeded_binary64`, `C06_broken_stays_broken_binary64`, `C06_steps_are_defined`, `C06_tentative_evaluations_leave_no_trace`, `C07_initial_evaluation_lost_refuted`, `C07_interface_model_irreversible_refuted`, `C07_user_model_irreversible_refuted`, `C07_user_model_remembers_every_second_step`, `C08_coincident_ends_binary64_refuted`, `C08_correspondence_force_refuted`, `C08_correspondence_refuted`, `C13_last_selection_in_force`, `C13_unknown_predefined_name_is_error`, `C13_unset_means_constant`, `C13_unusable_selection_is_error`, `C21_neighbors`, `C21_order`, `C21_symmetric_binary64_refuted`, `C22_binary64_refuted`, `C23_binary64_refuted`, `C26_block_list_well_formed`, `C26_decode_encode`, `C26_decode_only_encodings`, `C26_globalized_list`, `C26_local_list_well_formed`, `C26_rebalanced_list_well_formed`, `C26_search_list_well_formed`, `C27_shares`, `C28_large_refuted`, `C29_coincident_refuted`, `C29_negative_id`, `C31_interactions_unused_refuted`, `C31_last_definition_refuted`, `C31_list_partial`, `C31_nothing_defined`, `C31_one_block_refuted`, `C31_pair_twice_refuted`, `C31_specific_definition_refuted`, `C31_unordered`, `C32_final_time_binary64_refuted`, `C34_failure_is_not_an_error_refuted`, `C34_uniform_schedule_binary64_refuted`, `C35_finite_step_refuted`, `C35_multiphysics_refuted`, `C35_search_binary64`, `C35_succeeds`, `C35_ten_percent_refuted`, `C36_unconverged_steps_refuted`, `C37_allocation_succeeds`, `C37_four_dofs_refuted`, `C37_lone_point_refuted`, `C37_pattern`, `C37_pattern_diagonal`, `C37_pattern_symmetric`, `C37_plastic_block_diagonal_refuted`, `C38_application_succeeds`, `C38_body_forces`, `C38_initial_conditions`, `C38_nothing_else_changes`, `C38_numeric_value_is_not_exact_refuted`, `C39_residual_entries`, `C39_rows_and_columns_one_processor_partial`, `C39_rows_in_parallel_partial`, `C40_empty_set_refuted`, `C40_file_of_nodes`, `C40_leading_zero_refuted`, `C40_listed_nodes`, `C40_listed_nodes_in_order`, `C40_same_name_twice`, `C40_sets_of_a_processor`, `C40_stray_character_in_a_line_refuted`, `C40_too_large_number_refuted`, `C42_block_names_are_the_words`, `C42_constant_horizon_is_not_exact_refuted`, `C42_definition_in_force_is_unique`, `C42_definition_in_force_is_used`, `C42_load_fails_only_on_malformed`, `C42_no_definition_is_error`, `C43_layout_is_a_bijection_after_first_initialisation_partial`, `C43_reinitialisation_refuted`, `C43_total_accumulates`, `C44_flat_element_centroid_refuted`, `C46_dream3d_name`, `C46_underscore_name_partial`, `C46_underscore_name_refuted`, `C46_underscore_number_ignored_refuted`, `C47_at_most_one_time_per_text`, `C47_every_time_refuted`, `C49_first_step_refuted`, `C49_last_step_int_max_overflows`, `C49_no_frequency_no_output`, `C49_written_steps_partial`, `C51_coincident_stops`, `C52_accepted_texts`, `C52_initial_conditions`, `C52_round_trip`, `C52_unknown_text_is_error`, `C53_getFieldIds_default_is_empty`, `C57_between_blocks`, `C57_block_numbers_refuted`, `C57_symmetric`, `C58_distribution`, `C58_empty_share_refuted`, `C64_lonely_refuted`, `C64_pair_refuted`, `C69_bonds`, `C69_picture`, `C69_points`, `C70_blocks`, `C70_names`, `C70_node_sets`, `C70_points`, `C70_refused`, `C70_sphere_attributes_refuted`, `C70_unnamed_block`, `C71_conforming`, `C71_hexahedra`, `C71_mixed_false_refuted`, `C71_mixed_refuted`, `C71_others`, `C71_quadratic_refuted`, `C71_three_corners_refuted`, `C71_wedge_refuted`, `C72_blocks`, `C72_numbers_refuted`, `C73_interfaces_refuted`, `C73_lists`, `C73_options`, `C73_options_refuted`, `C74_crash_refuted`, `C74_long_names_refuted`, `C74_missing_refuted`, `C74_names`, `C74_numbers`, `C74_other_times`, `C74_resume`, `C74_session`, `C74_silent_refuted`, `C74_temperature_refuted`, `C74_writes`, `C75_again_refuted`, `C75_blocks`, `C75_missing_refuted`, `C75_one_number_refuted`, `C75_points`, `C75_readable`, `C75_sets`, `C75_sets_refuted`, `C75_succeeds`, `C75_twice_refuted`, `C77_exponents`, `C81_bonds`, `C82_built`, `C82_constructed`, `C82_errors`, `C82_fields`, `C82_once`, `C82_once_refuted`, `C82_run`, `C83_defined`, `C83_same`.

**forall_dec, funext** (5 theorems): `C15_consistency_condition_has_one_positive_solution`, `C37_quadratic_exact`, `C41_admissible_pairs_are_covered`, `C47_six_digit_times_are_accepted_partial`, `C47_written_text_is_nearest_six_digits`.

**forall_dec, funext, not_dec** (387 theorems): `C06_damage_in_unit_interval`, `C06_damage_is_fraction_broken`, `C06_damage_never_decreases`, `C06_exceeds_means_overstretched`, `C08_bond_based_broken_bond_is_force_free`, `C08_bond_based_cut_off_point_is_untouched`, `C08_bond_based_ignores_broken_bonds`, `C08_coupled_broken_bond_is_force_free`, `C08_coupled_cut_off_point_is_untouched`, `C08_dilatation_ignores_broken_bonds`, `C08_elastic_plastic_broken_bond_is_force_free`, `C08_elastic_plastic_cut_off_point_is_untouched`, `C08_elastic_plastic_ignores_broken_bonds`, `C08_hardening_broken_bond_is_force_free`, `C08_hardening_cut_off_point_is_untouched`, `C08_hardening_ignores_broken_bonds`, `C08_linear_lps_broken_bond_is_force_free`, `C08_lps_broken_bond_is_force_free`, `C08_lps_cut_off_point_is_untouched`, `C08_lps_ignores_broken_bonds`, `C08_viscoelastic_broken_bond_is_force_free`, `C08_viscoelastic_cut_off_point_is_untouched`, `C08_viscoelastic_ignores_broken_bonds`, `C09_bond_based_momentum`, `C09_correspondence_momentum`, `C09_coupled_momentum`, `C09_elastic_plastic_momentum`, `C09_hardening_momentum`, `C09_lps_momentum`, `C09_partial_volume_momentum_refuted`, `C09_partial_volume_momentum_when_balanced`, `C09_poisson_momentum`, `C09_viscoelastic_momentum`, `C10_bond_based_moment`, `C10_correspondence_moment`, `C10_coupled_moment`, `C10_elastic_plastic_moment`, `C10_hardening_moment`, `C10_linear_lps_moment_about_reference`, `C10_lps_moment`, `C10_stress_update_moment`, `C10_viscoelastic_moment`, `C11_bond_based_force_rotates`, `C11_bond_based_rigid_motion_no_force`, `C11_coupled_force_rotates`, `C11_dilatation_unchanged`, `C11_elastic_plastic_force_rotates`, `C11_elastic_plastic_rigid_motion_no_force`, `C11_hardening_force_rotates`, `C11_hardening_rigid_motion_no_force`, `C11_lps_force_rotates`, `C11_lps_rigid_motion_no_force`, `C11_rigid_motion_no_dilatation`, `C11_viscoelastic_force_rotates`, `C11_viscoelastic_rigid_motion_no_force`, `C12_isotropic_expansion_dilatation`, `C12_pressure_depends_on_bulk_modulus_only`, `C12_weighted_volume`, `C12_weighted_volume_nonneg`, `C12_weighted_volume_positive`, `C13_parabolic_continuous`, `C13_parabolic_decreases_to_zero`, `C13_parabolic_one_up_to_half`, `C14_evaluation_returns_to_yield_surface`, `C14_histories_stay_admissible`, `C14_multiplier_never_decreases`, `C14_reevaluation_changes_nothing`, `C15_multiplier_never_decreases`, `C16_constant_extension_steps_add_up`, `C16_no_relaxation_is_elastic`, `C16_relaxation_exists`, `C17_affine_exact`, `C17_few_neighbours_reported`, `C17_flat_reported`, `C17_hourglass_zero`, `C17_inverse_code`, `C17_inverse_two_sided`, `C17_multiply`, `C17_partial_stress`, `C17_planar_binary64_refuted`, `C17_singular_reported`, `C17_singular_stops`, `C18_determinant_grows`, `C18_orthogonal_iff`, `C18_pure_stretch_partial`, `C18_rate_symmetric`, `C18_singular_gradient_reported`, `C18_singular_stretch_refuted`, `C18_spin_refuted`, `C18_spin_stress_refuted`, `C18_step_characterised`, `C18_stress_invariants_partial`, `C18_stress_symmetric`, `C19_elastic`, `C19_free_expansion`, `C19_history`, `C19_hooke`, `C19_hooke_thermal`, `C19_plastic`, `C19_plastic_strain`, `C19_pressure`, `C19_reported`, `C19_symmetric`, `C19_triaxiality`, `C19_within_yield`, `C20_fixed_step_is_used`, `C20_integrator_step_within_every_estimate`, `C20_integrator_step_without_factor`, `C20_step_is_least_stable_step`, `C20_step_scales_with_sqrt_density`, `C21_disk`, `C21_end_on_surface_refuted`, `C21_initial_damage`, `C21_lists_symmetric`, `C21_plane`, `C21_plane_crossing`, `C21_quad`, `C21_quad_crossing`, `C21_self`, `C21_short_bond_refuted`, `C21_symmetric`, `C21_triangle`, `C21_triangle_crossing`, `C22_radius`, `C23_coincident_refuted`, `C23_construction`, `C24_empty`, `C24_nearest`, `C25_empty_processor_refuted`, `C25_frame_refuted`, `C25_neighbors_partial`, `C25_uniform`, `C25_variable_refuted`, `C27_points`, `C28_lists`, `C29_friction_dissipates`, `C29_friction_moment_refuted`, `C29_moment`, `C29_momentum`, `C29_power`, `C29_sum_of_contacts`, `C29_two_points`, `C30_arrives`, `C30_bonds_kept`, `C30_lists_partial`, `C30_tie_refuted`, `C32_number_of_steps`, `C32_run`, `C32_run_succeeds`, `C32_too_many_steps_refuted`, `C33_linear_peridynamic_solid`, `C33_momentum_and_centre_of_mass`, `C34_attempts_end`, `C34_final_time_refuted`, `C34_no_failures`, `C34_number_of_attempts`, `C34_reduced_steps_reach_the_end`, `C34_schedule_kept`, `C34_steps_without_gaps`, `C34_tolerance_refuted`, `C34_uniform_schedule`, `C35_increase_near_ten_percent`, `C35_search`, `C35_smallest_residual`, `C35_tried_and_finite`, `C36_body_forces_lag_refuted`, `C36_constrained_components_stay`, `C36_fluid_residual_refuted`, `C36_prescribed_displacements_refuted`, `C36_run`, `C36_run_succeeds`, `C37_block_diagonal`, `C37_central_difference`, `C37_central_difference_temperature`, `C37_elastic_central`, `C37_elastic_derivative`, `C37_elastic_derivative_diagonal`, `C38_displacement_increment`, `C38_explicit_run_body_forces`, `C38_explicit_run_follows_the_prescription`, `C38_increments_add_up`, `C38_prescribed_temperature`, `C38_sum_from_another_start_refuted`, `C38_thermal_flux_refuted`, `C38_velocities_add_up`, `C39_columns_in_parallel_refuted`, `C39_diagonal_entry_is_not_zero`, `C39_solve_leaves_constrained_increments_zero`, `C41_any_pair_gives_the_bulk_modulus`, `C41_any_pair_gives_the_shear_modulus`, `C41_independent_of_the_pair`, `C41_other_counts_rejected`, `C41_plane_options_depend_on_the_pair_refuted`, `C42_constant_value_of_variable_horizon_refuted`, `C44_hexahedron_both`, `C44_hexahedron_both_succeeds`, `C44_hexahedron_centroid`, `C44_hexahedron_inverted`, `C44_hexahedron_translation`, `C44_parallelepiped`, `C44_tetrahedron`, `C44_tetrahedron_additive`, `C44_tetrahedron_base_height`, `C44_tetrahedron_has_height`, `C44_tetrahedron_split`, `C44_tetrahedron_stored`, `C44_tetrahedron_translation`, `C44_valid_hexahedron_refuted`, `C48_angular_momentum_is_sum_of_block_magnitudes`, `C48_angular_momentum_one_block_partial`, `C48_block_maximum_partial`, `C48_block_maximum_refuted`, `C48_block_minimum`, `C48_block_sum`, `C48_kinetic_energy_independent_of_decomposition`, `C48_kinetic_energy_is_the_sum`, `C48_linear_momentum_is_sum_of_block_magnitudes`, `C48_linear_momentum_one_block_partial`, `C48_momentum_never_underestimated`, `C48_momentum_of_several_blocks_refuted`, `C48_nearest_point`, `C50_first_request_at_minus_one_refuted`, `C50_interpolated_until_first_error_partial`, `C50_refused_request_repeated_refuted`, `C51_divergence_conserved`, `C51_divergence_defined`, `C51_divergence_uniform`, `C51_flow_conserved`, `C51_flow_frame`, `C51_flow_keeps_total`, `C51_flow_uniform`, `C51_hottest_cools`, `C51_one_sided_refuted`, `C51_species_conserved_partial`, `C51_species_refuted`, `C54_johnson_cook_monotone`, `C54_von_mises_monotone`, `C55_angular_momentum`, `C55_linear_peridynamic_solid`, `C56_hull`, `C56_largest_distance`, `C58_few_cells_refuted`, `C58_meshes`, `C59_elastic`, `C59_first_yield_refuted`, `C59_history_partial`, `C59_no_hardening`, `C59_overshoot_refuted`, `C59_power_law_partial`, `C59_pressure`, `C59_reported`, `C59_surface_grows`, `C59_triaxiality_refuted`, `C60_consistent`, `C60_elastic`, `C60_history`, `C60_returns`, `C60_returns_soft`, `C61_damaged`, `C61_damaged_refuted`, `C61_elastic`, `C61_multiphysics`, `C61_nonnegative`, `C61_rigid`, `C61_stored`, `C61_stored_values`, `C61_zero_iff`, `C62_expansion`, `C62_global_sums`, `C62_point_values`, `C62_strain_energy_refuted`, `C63_broken_bonds_refuted`, `C63_dilatation`, `C63_energy_axes`, `C63_energy_shear`, `C63_expansion`, `C63_frame`, `C63_momentum`, `C63_potential`, `C63_rigid`, `C64_energy`, `C64_hardening_refuted`, `C64_hardening_response`, `C64_isotropy_refuted`, `C64_total`, `C64_translation`, `C65_elastic`, `C65_history`, `C65_points`, `C65_pressure`, `C65_reported`, `C65_symmetric`, `C66_accepted_partial`, `C66_small_refuted`, `C67_empty`, `C67_maximum_partial`, `C67_maximum_refuted`, `C67_minimum`, `C67_sum`, `C68_acceleration_partial`, `C68_acceleration_refuted`, `C68_acceleration_value`, `C68_force`, `C68_force_mismatch`, `C68_gradient_partial`, `C68_gradient_refuted`, `C68_neighborhood_volume`, `C68_number_of_neighbors`, `C68_partial_volume`, `C68_radius`, `C72_current_refuted`, `C72_late`, `C73_dimension`, `C73_radius_suffices`, `C74_clock_refuted`, `C74_continue`, `C75_layers`, `C75_scale_refuted`, `C76_centre_refuted`, `C76_complete`, `C76_counts`, `C76_lists`, `C76_missed_refuted`, `C76_points`, `C76_repeated_refuted`, `C76_shares`, `C77_affine`, `C77_bond_affine`, `C77_bond_level`, `C77_broken`, `C77_flat_refuted`, `C77_fresh`, `C77_gradient`, `C77_margin`, `C77_moments`, `C77_order_refuted`, `C77_reported`, `C77_runs`, `C77_trial_refuted`, `C78_broken`, `C78_elastic`, `C78_history`, `C78_intact`, `C78_moment`, `C78_momentum`, `C78_output_refuted`, `C78_power`, `C78_stops`, `C78_uniform`, `C78_weights`, `C79_hooke`, `C79_kept`, `C79_law`, `C79_spin`, `C80_history`, `C80_kept`, `C80_law`, `C80_power`, `C80_runs`, `C80_spin`, `C80_symmetric`, `C80_triaxiality_refuted`, `C80_yield_perfect`, `C81_bounds`, `C81_bracket`, `C81_diagonal`, `C81_grid`, `C81_monotone`, `C81_moved`, `C81_none`, `C81_quadrature`, `C81_ring_bounds`, `C81_ring_cell`, `C81_ring_centre`, `C81_ring_grid`, `C81_ring_whole`, `C81_symmetric`, `C81_whole`, `C83_deviatoric_refuted`, `C83_expansion`, `C84_broken_dilatation`, `C84_broken_refuted`, `C84_dilatation`, `C84_expansion`, `C84_law`, `C84_rigid`, `C84_superposition`.

**classic, forall_dec, funext, not_dec** (49 theorems): `C13_builtin_values_in_unit_interval`, `C13_gaussian_positive_and_strictly_decreasing`, `C15_evaluation_returns_to_hardened_surface`, `C15_increment_solves_the_consistency_condition`, `C15_reevaluation_changes_nothing`, `C16_constant_extension_converges`, `C16_constant_extension_never_overshoots`, `C16_steps_integrate_the_standard_linear_solid_exactly`, `C16_update_is_exact_for_piecewise_linear_extension`, `C18_drift_bound`, `C44_hexahedron`, `C44_hexahedron_additive`, `C44_hexahedron_numbering`, `C44_jacobian`, `C44_mesh_volume`, `C45_enclosed_in_parallelepiped_refuted`, `C45_enclosed_in_tetrahedron_refuted`, `C45_hexahedron`, `C45_parallelepiped`, `C45_tetrahedron`, `C45_tetrahedron_decided`, `C45_triangle`, `C45_triangle_decided`, `C51_damage_partial`, `C51_damage_refuted`, `C59_flaw`, `C60_binary64_refuted`, `C60_power_law`, `C60_saturation_exponential`, `C61_energy_conserved`, `C65_consistency_refuted`, `C65_first_yield_refuted`, `C65_large_step_refuted`, `C65_plastic_strain`, `C65_root_partial`, `C66_box_refuted`, `C66_collapsed_refuted`, `C66_cube_partial`, `C66_output_partial`, `C66_value`, `C73_neighbours`, `C79_spin_refuted`, `C80_laws_rest`, `C80_triaxiality`, `C80_updates`, `C80_yield_power`, `C80_yield_satexp`, `C81_ring_diagonal`, `C81_ring_refuted`.

## 9. Tests against wrong programs

`seeded/LOG.jsonl` records the edits made to scratch copies of the model and the
theorems that no longer proved (881 lines).  In each run the failing lemmas were
replaced by `Admitted` in the copy until it built, and the property theorems that then
depended on an admitted lemma were collected with `Print Assumptions`.
