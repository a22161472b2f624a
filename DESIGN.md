# Formal model of golems/amino: design

The model is in `rocq/theories`, Coq 8.16.1. Properties are listed in
`properties.jsonl`, their status in `MANIFEST.json`.

## Layout

For each area `X`:

* `XModel.v`: Gallina functions, one per C/C++ function, each citing `/repo`
  file and lines. No proofs.
* `XSpec.v` (or a section at the top of `Properties_X.v` when it is a few
  lines): the specification, written without the model's helpers.
* `XProofs.v`: lemmas.
* `Properties_X.v`: the theorems, each closed by `exact`, followed by
  `Print Assumptions`, with a non-vacuity `Example` beside it.

## Modelling conventions

* Integers: `Z` (or `nat` for lengths and indices). Wrap-around is written
  explicitly where a property is about it; elsewhere the absence of overflow is
  a stated hypothesis.
* `double`: real numbers `R` of the standard library. Rounding, NaN, infinities
  are not modelled. A division by zero or an `asin`/`acos` argument outside
  [-1,1] is excluded by an explicit hypothesis, never silently totalised.
  Discrete code that only moves doubles around (scene graph, views) is
  polymorphic in the element type.
* Memory: flat addresses in `Z`. `malloc` is an oracle: each operation that may
  allocate receives the address (and junk contents) malloc will return, and the
  theorems quantify over all of them subject to malloc's contract (16-byte
  aligned, disjoint from live chunks, not wrapping).
* Undefined behaviour, aborts and non-termination are distinct outcomes
  (`option`/error constructors, fuel with an out-of-fuel value).
* Code that violates its property gets a theorem `..._refuted` with a witness,
  plus the strongest positive statement on the domain where it is right.

## Trusted base

* Coq's kernel (checked with `coqchk`).
* What `Print Assumptions` lists under each theorem: nothing ("Closed under the
  global context") for the discrete parts, and for the parts over `R` the
  standard library's axioms of the real numbers
  (`ClassicalDedekindReals.sig_forall_dec`, `ClassicalDedekindReals.sig_not_dec`,
  `FunctionalExtensionality.functional_extensionality_dep`, and `Classical_Prop.classic`
  where used by the standard library).  Four examples (not theorems), `C84_nonvacuous`, `C91_nonvacuous`, `C92_nonvacuous` and `C94_nonvacuous`,
  also use `ClassicalEpsilon.constructive_indefinite_description` to name a solver or an exact collision test.
* The reading of the C/C++ source: the code is not executed here.

## Plan per property

| id | modelled | proof idea |
|---|---|---|
| C01-C03, C06 | `mem.c` region: chunks, head pointer, flat memory, malloc oracle | invariant relating the concrete state to an abstract stack of blocks; induction over histories; refinement of contents |
| C04, C05, C07 | same model | refutation witnesses by computation, positive statement under the guard that avoids the boundary |
| C08 | pool on top of the region model, free list threaded through memory | invariant: free list and live objects partition the carved objects |
| C09 | rlist cells in a heap, `tailp` as address | representation predicate, refinement to `list` |
| C10, C11 | bit vectors as words | bit lemmas; C11: a loop model with fuel, refuted for every fuel |
| C12 | word-wise swap with byte tail | induction on length, for all residues |
| C13 | byte lists | div/mod lemmas |
| C14 | vector growth macro | induction over pushes |
| C15, C16 | array heap on lists with arbitrary comparison | heap-order invariant, permutation, sortedness |
| C17 | interleaving semantics of lock/inc/dec | invariant over all schedules |
| C18 | `struct timespec` arithmetic on `Z` with C division | div/mod reasoning |
| C58 | integer modulo on w-bit ints with overflow as a distinct outcome | div/mod reasoning; overflow refuted |
| C59 | the interleaving model of C17 with both builds | explicit schedule, refuted |
| C19-C32 | `src/tf.c`, `src/tf/*.c`, `src/vec.c` over `R` | ring/field/nsatz identities, trigonometry, derivatives |
| C23, C24, C26, C27, C29, C30, C61, C62 | `TfExpModel.v`: exponentials, logarithms, slerp, angle conversions; small specification `TfExpSpec.v` | alternating-series bounds (`SeriesProofs.v`), flows of the twist ODE with uniqueness (`TfScrewProofs.v`), atan2 as polar angle, refutation witnesses |
| C79 | `PdeModel.v`: `tf/quat_pde.c` over `R` | chain rule through sqrt, atan2 and ln at every point off the negative axis; limit of the series on the positive axis |
| C80 | `IkModel.v`: objective functions of `rx/ik_nlopt.c` on the scene graph model | the pose curve is lifted to a differentiable quaternion, C52 gives its velocity, C79 the derivative of the logarithm; transposed products by duality; value by polar form of the error |
| C81 | `WkModel.v`: `aa_rx_wk_dx_pos` of `rx/scene_wk.c` | polar form of the pose error and the exact logarithm of C62 give the flow that reaches the reference; the closed loop is the same flow run backwards at exponentially decaying time |
| C82 | `WkRateModel.v`: `aa_rx_wk_dx2dq`, `_np`, `aa_rx_wk_dqcenter` of `rx/scene_wk.c`, `get_js`/`get_n` of `scene_wk_internal.h`, the Jacobian fill of `rx/scene_kin.c`, in the memory of the matrix model | C52 makes the stored matrix the velocity matrix; the inverses of C73/C74 are analysed along singular vectors (positivity, contraction, bound) or by the energy of the damped problem; memory framing for the region blocks |
| C83 | `IkSolveModel.v`: contexts, `aa_rx_ik_solve` with restarts, `aa_rx_ik_check` of `rx/scene_ik.c`, the Jacobian solver of `rx/ik_jacobian.c` (servo of C81, rates of C82, RK steps), bounds and final test of `rx/ik_nlopt.c`; optimiser and SVD as oracles | invariant of the iteration (limits by clamping, test before success) carried through restarts; half-angle identity of C80 for the test; forward kinematics of C50 as a product with the stored base pose for `aa_rx_ik_check` |
| C84 | `LcModel.v`: `aa_rx_wk_dx2dq_lc3` and `lc3_constraints` of `rx/lc3.c` over the rates of C82; the linear program solver as an oracle; not modelled: `aa_rx_wk_lc3_create`, the solver backends, strides | the program's bounds are shown equivalent to the limits; a full step is the nearest solution of C82 and, when allowed, the unique optimum; the joints past the sixth lack the secondary column |
| C85 | `TjxModel.v`: `rx/rx_ct.c` without `aa_rx_ct_pt_list`, `aa_rx_ik_jac_x2dq` and `aa_rx_ik_jac_dx2dq` of `rx/ik_jacobian.c`, the fixed-step loop of `aa_ode_path`, `aa_ct_tjX_pb_eval`; not modelled: the regions the results are allocated in, `aa_ct_tjX_pb_generate` | one call of the system is shown to give the rates of C82 for the velocity of C81; the loop is the Runge-Kutta step of C39 iterated; a single slider is run by hand for the violations |
| C86 | `StModel.v`: `ct/state.c`, `ct/traj.cpp` 55-185, `aa_rx_ct_pt_list`, on a memory of arrays whose cells may never have been stored; not modelled: destroying a list, region addresses | one lemma per loop over the members of a state; the invariant of a history is: contents, both directions of links, each point listed once |
| C87 | `WfModel.v`: the flex scanners `wavefront.l` and `mtl.l` as longest match by derivatives of regular expressions, `wf_obj.c`, `wf_mtl.c`, `strtol`; `WfSpec.v`: the grammar of lines and what they say; not modelled: memory release, `dirname`, messages | each token of a well-formed line is shown to be the longest match; induction over the lines; an invariant over arbitrary tokens for arbitrary text |
| C88 | `IoModel.v` on `RegionModel.v`: `aa_io_getline`, `aa_io_d_parse`, the size computation of `aa_read_realloc`; `IoSpec.v`: lines and words; not modelled: read errors, the call of `read` | scratch cells stored one by one are shown equal to a copy of the whole (`cells_fit`), or to a copy across one growth (`cells_grow`), or to end in a read of freed memory (`cells_freed`) |
| C89 | `IoModel.v`: `aa_io_parsevector`, `aa_io_getvector`, `aa_io_fread_matrix_fix`, `aa_io_fread_matrix_heap`, `aa_io_d_print`, `aa_io_d_gemp`; not modelled: failing malloc in the heap variant, the null region | induction over the words of a line, then over the lines; the round trip composes the two |
| C90 | `OptModel.v`: the wrappers of GLPK, CLP and lp_solve in `src/opt`, with the problem objects of the libraries as records; `OptSpec.v`: the stated program, its restatement by each call, and what each library's record means; not modelled: leaks of contexts, casts to int, exceptions | loop invariants per wrapper function, then a representation relation kept by every call |
| C91 | as C90, with the libraries' solve functions as parameters constrained by their documentation | composition of C90 with the promise of the library; GLPK's 0 for infeasible programs from its documented return |
| C92 | `OptModel.v`: `aa_opt_qp_solve_cgal`, with CGAL's program as a record | loop invariants give the program handed over in closed form; the condition on D by evaluating at basis vectors and their sums |
| C93 | `FcModel.v`: creation and placement of collision objects in `src/rx/amino_fcl.cpp`; `FcSpec.v`: shapes as sets of points; not modelled: storage of the objects, bounding volumes, `double` to FCL scalar | per shape, membership is invariant under the scaling and placement; induction over the geometry visited |
| C94 | as C93, with the check, the collisions of a configuration and their permission; FCL's answers and visits are parameters | induction over the visits with the pairs found so far; composition with C64 over the history extended by the permissions |
| C95 | as C94, with the distance table and its queries | table invariants over the initialisation and the visits; induction over the frames for the minimum |
| C96 | `MpModel.v`: planning contexts, `src/rx/mp/scene_ompl.cpp`, `scene_state_space.cpp`, `scene_state_validity_checker.cpp`, `workspace_goal.cpp`; OMPL's planner, simplifier and sampling thread are an arbitrary outcome per plan, constrained by `MpSpec.honest`; the collision check is C94's | invariant over the history relating the context's sets, fixed joints, starts, goal and stored paths to the calls; counterexamples as concrete histories |
| C97 | `MpThrModel.v`: threads inside `isValid` and `distanceGoal` with the shared region, one memory access per step | invariant: only the owner of the mutex is inside a call; induction over the schedule; one bad interleaving |
| C98 | `SpModel.v`: constructors, products and conversions of `include/amino/tf/spatial.hpp` and `eigen_compat.hpp` over the functions of `TfModel`; a call returns, is undefined or never returns | case analysis on the kind of argument against the motion it stands for; induction on the depth of the calls for DualQuat |
| C99 | `SpModel.v`: `include/amino/tf/planar.hpp` over `PlanarModel`; an uninitialised member is a separate value | case analysis on the kind of argument |
| C100 | `GlModel.v`: the arrays `amino_gl.c` fills for boxes and grids, with their capacities and counters; `GlSpec.v`: what OpenGL draws for triangles, surfaces | the arrays in closed form by induction on the loops; each pair of triangles is a rectangle |
| C101 | `GlModel.v`: `init_cone_cylinder` | closed form by induction; chords of circles in polar form |
| C102 | `GlModel.v`: `init_sphere`, `geodesic_round` on an icosahedron | invariant of a refinement: norms, pairwise dot products and the cones over the faces, which cover all directions |
| C103 | `GlModel.v`: `init_torus`, unsigned index arithmetic included | closed form by induction; chords about the tube and about the axis |
| C104 | `WinThrModel.v`: `aa_rx_win_call`, `s_handle_call`, `aa_rx_win_create`, `aa_rx_win_run` of `src/rx/sdl_win.c` as threads with one shared access per step, sleeping on a condition with spurious wake-ups; not modelled: SDL, OpenGL, the window's own mutex, losing a wake-up between the test of s_handler_done and the wait while a window is displayed | invariant over the schedule tying the installed function to its caller, the log and the owner of the mutex; a rank that every effective step lowers; bad schedules by computation and closed sets of states |
| C105 | `GeoModel.v`: `src/rx/geom_opt.c`; `GeoSpec.v`: the value last given under the header's argument names | induction over the settings |
| C106 | `GeoModel.v`: `src/rx/scene_geom.c` and the parts of `scenegraph.cpp`, `sg_api.cpp` that hold geometry, over a heap of objects with 32-bit counts; not modelled: octrees, mesh arrays (C108), concurrent use (C17) | simulation: counts equal the number of references in an abstract record of owners, over all allowed histories |
| C107 | as C106, with `aa_rx_sg_cl_init`, `aa_rx_sg_gl_init` and the dirty flags, uninitialised in a new graph | invariant: a clean flag means every attached geometry is done; marks are never lost while the object lives |
| C108 | `MeshModel.v`: `src/rx/scene_geom.c` 325-459 over named blocks of the caller and the library; width and height of a texture as their product | simulation: every copy belongs to one array of one mesh, the live blocks are those and the lost ones |
| C109 | `ShowModel.v`: the plan display of `src/rx/sdl_win.c` over the sequences of `ClModel.v`, times in seconds; drawing itself is C47, C100-C103 | the search for the plan finds the segment of the timeline; simulation over histories of calls |
| C110 | `ShowModel.v`: display contexts, the configuration array and the default display of `sdl_win.c`; not modelled: the joint motion computed by `workspace_control`, whose path with the space mouse overruns an array, calls from several threads (C104) | simulation with exact counts of contexts, arrays and element records |
| C111 | `AngModel.v`: fmod and remainder of the C library over the reals (quotient cut, and rounded to nearest even), the inline functions of `math.h` | quotients as integers plus fractions; equal sine and cosine iff congruent modulo 2 pi |
| C112 | `AngModel.v`: the loops of `math.c` over lists, atan2 and ln over the reals; an infinite result is a separate outcome | sum of cosines of differences as length times cosine; ln of a square |
| C113 | `AngModel.v`: both do loops with the assert as an outcome; samples that are not numbers are not modelled | induction over passes against the relation of successive estimates; decomposition of the sum of squares |
| C114 | `AngModel.v`: `math.h` and `validate.c`; NaN is not modelled | cases |
| C115 | `PkModel.v`: the four closed forms of `kin.c` verbatim; division by zero and roots of negative numbers as NaN | the arguments of atan2 are twice cosine and sine; the cross product of point and first link is one of two roots |
| C116 | `PkModel.v`: `cv.c`, with AA_MAX and a tolerance of zero | polar form of chroma; the two differences and the largest part determine a colour |
| C117 | `CareModel.v`: `src/are.c`, matrices as functions; dgees and dgels are parameters, the contract (invariant subspace, exact solution of nonsingular systems) is a hypothesis of the theorem | the residual times the upper half vanishes by the two block rows of H U = U T; symmetry by the uniqueness of the Lyapunov equation |
| C118 | `CamModel.v`: the int array of the mask with its octet count, elements initialised or not; realloc, memset and bit access outside the array are failures | induction over histories; the array holds one bit per frame until it must grow, `CamMask.v` |
| C119 | `CamModel.v`: GL matrices by columns, perspective, camera setters, the shader's product; floats are reals | simulation of `cam_run` by `seen`, then the clip inequalities, `CamProofs.v`, `CamClaims.v` |
| C120 | `CamModel.v`: `aa_sdl_scroll_event` by cases over events; SDL's keyboard and mouse state is an input | same simulation; linearity of Rodrigues' formula for horizon and orbit |
| C121 | `UiModel.v`: the two handler vectors as lists, first match wins; the loop's handling of an event | the registry agrees with the first binding in the trace, by induction over the trace, `UiProofs.v` |
| C122 | `UiModel.v`: `aa_sdl_display_loop` as a machine whose inputs are clock, events and what callbacks ask for; the event pointer is unset, live or dangling | invariant between loop state and trace; every observation is judged by what came before it, `UiProofs.v` |
| C123 | `DeadModel.v`: threads interleaved at each access to the list head, the mutex, next pointers and cells; a freed cell fails when touched | invariant: destroyed, listed, held and pending buffers are a permutation of the scheduled ones, chains disjoint, `DeadProofs.v` |
| C124 | `AvgModel.v`: weighted sum of q q', eigenvector of the greatest eigenvalue, packed copy of the matrix | the quadratic form in the eigenvector basis is at most the greatest eigenvalue; cost = constant - form, `AvgProofs.v` |
| C125 | `AvgModel.v`: median after the modelled heap sort, deviations, relative translations | sorted list pairs up from both ends, triangle inequality; mean minimises a quadratic, `AvgProofs.v` |
| C126 | `AvgModel.v`: rows and right side scaled by the point norms, solver oracle, scaling to unit normal | a/d solves the system exactly and is the only solution, `AvgProofs.v` |
| C127 | `NrModel.v`: normalisation by length, atan2 of sine and cosine; seven candidates k(theta + 2 pi i) and the least distance | vectors of one rotation lie on its axis 2 pi apart; the foot of the goal on the axis is within the candidates, `NrProofs.v`, `NrProofs2.v` |
| C128 | `NrModel.v`: inverse oracle, transpose, entry comparison, determinant | M M' = M (M' - inverse) + I with entries bounded, `NrProofs2.v` |
| C129 | `NrModel.v`: one and four stage steps of the quaternion derivative | a step is a degree four polynomial in the rate quaternion, Taylor remainder of sine and cosine, errors add up because turns keep the length, `NrProofs3.v` |
| C130 | `LocModel.v`: loop of vsnprintf, comparison after conversion to int, scratch allocation; on the region model | each round is a scratch call of the region model and the last one a dup; size of the grown chunk, `LocProofs.v` |
| C131 | `LocModel.v`: slot per thread, shared byte memory, malloc that sees the chunks of all threads | region invariant per thread, chunks of threads apart, every call writes only inside own chunks, `LocProofs.v` |
| C132 | `JacModel.v`: the 8x8 and 8x6 matrices element by element, two products | sums exchanged, columns reduced to aa_tf_duqu_vel2diff (C25); body velocity is unique, `JacProofs.v` |
| C133 | `JacModel.v`: aa_tf_qslerpdiffalg on the exponential and logarithm models | both ends as a turn about one axis; logarithm of the turned quaternion, `JacProofs2.v` |
| C134 | `JacModel.v`: aa_tf_qssd | squares of reals, `JacProofs2.v` |
| C135 | `OwnModel.v`: heap of arrays, pointer and owning pointer per field, the three ownership modes, destroy, null space motion | every live block belongs to the caller or to one field, over all runs of the caller's rules, `OwnProofs.v` |
| C136 | `PlugModel.v`: open count per plugin, reference counted meshes, scene graphs with one destructor, load, attach, copy, release, destroy | reference counts and open counts as sums over live objects, over all legal histories, `PlugProofs.v` |
| C137 | `BoxModel.v`: the transform with log and sqrt that fail outside their domain, aa_frand, the scores | explicit inverse by atan2, partial derivatives, determinant, `BoxProofs.v` |
| C60 | frame builders in `tfmatrix.c`, `conv.c` over `R` | nsatz identities on normalised axes |
| C33, C34, C38, C72-C76 | `LaModel.v`: `la.c`, parts of `la_impl.c`, the inverses of `mat.c`; `LaSpec.v`: matrices as functions of row and column, least squares, Moore-Penrose conditions, decompositions | result and frame for every loop; matrix algebra (`LaAlg.v`): positive definite elimination, normal equations, orthonormal expansions; refutation witnesses |
| C35, C36, C70, C71 | `MatModel.v`: `mat.c`, `mat.hpp` views as (offset, rows, cols, ld) over a store, BLAS kernels by definition; `MatSpec.v`: element, footprint, non-overlap | loop invariants giving result and frame; index arithmetic; refutation witnesses |
| C37 | `HgModel.v`: the assignment solver of `la_impl.c` over any ordered numbers, loop passes counted by fuel; `HgSpec.v`: matchings and their totals | invariant of the five steps (dual certificate, stars on zeros, one star per row); LP duality for optimality; transfer from the integers and a repeating state for the endless runs |
| C39, C77, C78 | `RkModel.v`: `sigsys.c` steps and solver over `R`-vectors, `diffeq.c`; check is a function with its own state, runs counted by fuel; `RkSpec.v`: Butcher tableaux as published, rooted trees and order conditions, polynomial and affine motions, sequences of check calls | stage-by-stage agreement with the tableau; enumeration of the rooted trees of an order; quadrature and stability coefficients; induction over runs; refutation witnesses |
| C40-C43, C67-C69 | `TrModel.v`: `ct/traj.cpp` generators, evaluators with their list cursor, and the sampling checks over `R`; null buffers are a distinct outcome; `TrSpec.v`: straight moves, blended motions, sequences of calls | induction over way points with a motion built segment by segment; continuity, derivative and limit bounds; cursor invariant over call sequences; refutations for all two-point moves |
| C66 | `TrCartModel.v`: Cartesian slerp trajectories | reduction to the slerp and body-velocity theorems of the transform part |
| C44-C46, C54 | `SgModel.v`: `rx/scenegraph.cpp`, `sg_api.cpp`, `std::map` as a sorted association list, frame pointers as names, a history of API calls as the input; `SgSpec.v`: the graph a history declares | invariant relating the concrete state to the declared graph; depth-first sort correct by induction on the fuel; refutation witnesses by computation |
| C47-C49, C63, C65 | the three kinematics loops and the incremental one over `R` | induction over the sorted frame list against an inductive relation `located` (walk up to the root) |
| C50-C53 | `scene_kin.c`, `scene_sub.cpp`; `SgKinSpec.v` | paths as an inductive relation; derivative of the product of joint motions along the path for the Jacobian |
| C55, C56, C64 | `ClModel.v`: `collision_set.cpp`, allowed pairs as pairs of object addresses, `amino_fcl.cpp` 215-245; `ClSpec.v` | simulation between a graph and its copy; invariant: addresses of allowed pairs are those of live frames |
| C57 | `rx/mp_seq.cpp` | refinement to a list |

Not modelled, overall: LAPACK and BLAS, FCL, OMPL, GLPK, lp_solve, CLP, CGAL,
NLopt, OpenGL, SDL, libc and the C++ library (replaced by their documented contract,
as parameters or by definition, in the rows above); rounding of floating point
numbers; the Lisp, Java, Python and Fortran parts; machine code generated by other
tools; and functions of `/repo` that no row above names.
