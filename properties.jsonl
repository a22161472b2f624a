{"id": "C01", "title": "Region blocks refine a stack of private byte arrays", "statement": "After any sequence of aa_mem_region_alloc/zalloc/dup/tmpalloc/pop/release calls in which the client asks for non-empty blocks, pops only pointers of blocks still allocated, and writes only inside its own blocks, every block that is still allocated reads back exactly the bytes the client last wrote to it; blocks never overlap, and none of the region's own bookkeeping writes or frees a block that is still allocated.", "quantifier": "every finite history of region operations and client writes, every initial region size, every block size, and every choice of chunk addresses malloc may make", "why_tests_cant": "The failure would need a particular interleaving of growth, pop across chunks and address reuse by malloc; tests sample a few histories and one allocator.", "anchors": ["src/mem.c:aa_mem_region_alloc", "src/mem.c:aa_mem_region_grow", "src/mem.c:aa_mem_region_pop", "src/mem.c:aa_mem_region_release", "include/amino/mem.h:aa_mem_region_t"]}
{"id": "C02", "title": "Region pointers are 16-byte aligned and inside one live chunk", "statement": "Every pointer returned by aa_mem_region_alloc or aa_mem_region_tmpalloc is a multiple of 16 and the requested number of bytes starting at it lie inside a chunk currently owned by the region.", "quantifier": "every reachable region state and every request size that does not wrap the address space", "why_tests_cant": "Alignment and bounds depend on the whole history of head positions and chunk sizes.", "anchors": ["src/mem.c:aa_mem_region_alloc", "src/mem.c:aa_mem_region_tmpalloc", "src/mem.c:aa_mem_region_alignptr"]}
{"id": "C03", "title": "aa_mem_region_pop releases exactly the popped block and the blocks allocated after it", "statement": "Popping the pointer of an allocated block leaves every block allocated earlier allocated and unchanged, makes the region independent of the popped ones, and the memory of the popped ones becomes available again (the next allocation that fits is served from the popped address when the block was in the top chunk).", "quantifier": "every history, every position of the popped block, including blocks in chunks below the top one", "why_tests_cant": "The slow path that walks chunks, frees some and replaces one is reached only by particular size sequences.", "anchors": ["src/mem.c:aa_mem_region_pop"]}
{"id": "C04", "title": "Popping a scratch mark never frees earlier blocks", "statement": "Code that remembers a position (aa_mem_region_ptr, a tmpalloc result or a zero-length allocation), allocates scratch space and then pops that position leaves all blocks allocated before the mark allocated. The code violates this: if the scratch allocation had to grow while the marked chunk was still empty, or the mark sits at the end of a chunk, the pop frees every chunk of the region.", "quantifier": "every history of allocations and every position of the mark", "why_tests_cant": "The loss happens only when the mark falls at a chunk boundary.", "anchors": ["src/mem.c:aa_mem_region_pop", "src/mem.c:aa_mem_region_grow", "src/mem.c:aa_mem_region_tmpalloc", "include/amino/mem.hpp:RegionScope"]}
{"id": "C05", "title": "aa_mem_region_tmprealloc keeps the scratch bytes", "statement": "Growing the scratch area with aa_mem_region_tmprealloc preserves the bytes already stored there and reads only memory the region owns. The code violates this when the scratch area starts an unused chunk (the chunk is freed before it is copied).", "quantifier": "every reachable region state and every requested size", "why_tests_cant": "Needs the scratch area to start a chunk and to outgrow it; address reuse usually hides the read of freed memory in tests.", "anchors": ["src/mem.c:aa_mem_region_tmprealloc", "src/mem.c:aa_mem_region_grow", "src/io.c:aa_io_getline"]}
{"id": "C06", "title": "aa_mem_region_release empties the region into one chunk that is large enough", "statement": "After aa_mem_region_release the region has exactly one chunk, no block is allocated, and the capacity is at least the sum of the capacities of all chunks it had before, so replaying any allocation sequence that fitted before needs no new chunk.", "quantifier": "every reachable region state", "why_tests_cant": "Capacity arithmetic over an unbounded number of chunks.", "anchors": ["src/mem.c:aa_mem_region_release", "src/mem.c:aa_mem_region_chunk_count"]}
{"id": "C07", "title": "Very large region requests", "statement": "For every size_t size, aa_mem_region_alloc either provides that many bytes or fails visibly. The code violates this: head+size wraps for sizes near 2^64, and the bump pointer then moves backwards over allocated blocks.", "quantifier": "all request sizes in [0, 2^64)", "why_tests_cant": "Only sizes close to the address-space limit trigger the wrap-around.", "anchors": ["src/mem.c:aa_mem_region_alloc", "src/mem.c:aa_mem_region_grow"]}
{"id": "C08", "title": "Memory pools never hand out an object that is still in use", "statement": "After any sequence of aa_mem_pool_alloc, aa_mem_pool_free (of objects in use) and aa_mem_pool_release, all objects in use are pairwise disjoint, have at least the pool's object size, and a freed object is reused before new memory is taken (last freed first).", "quantifier": "every history of pool operations, every object size and initial count", "why_tests_cant": "The free list is threaded through the freed objects themselves; an error appears only for particular alloc/free orders.", "anchors": ["src/mem.c:aa_mem_pool_alloc", "src/mem.c:aa_mem_pool_free", "src/mem.c:aa_mem_pool_release"]}
{"id": "C09", "title": "Region lists behave as a double-ended sequence", "statement": "aa_mem_rlist_push adds at the front, enqueue adds at the back, pop removes and returns the front element (NULL when empty), and map visits the current elements front to back, for any interleaving of these operations.", "quantifier": "every sequence of push/enqueue/pop/map operations", "why_tests_cant": "The tail pointer aliases either the list head or a cons cell; mistakes need a specific emptying and refilling order.", "anchors": ["src/mem.c:aa_mem_rlist_push_cons", "src/mem.c:aa_mem_rlist_enqueue_cons", "src/mem.c:aa_mem_rlist_pop", "src/mem.c:aa_mem_rlist_map"]}
{"id": "C10", "title": "Bit vectors: set/get are exact and local", "statement": "aa_bits_set(b,i,v) makes aa_bits_get(b,i) return v and changes no other bit; aa_bits_size(n) bytes suffice for n bits.", "quantifier": "all bit vectors, all indices, both values", "why_tests_cant": "Every index/word boundary combination.", "anchors": ["include/amino/mem.h:aa_bits_set", "include/amino/mem.h:aa_bits_get", "include/amino/mem.h:aa_bits_size"]}
{"id": "C11", "title": "Bit-vector and/or/xor combine n bits and terminate", "statement": "aa_bits_and/or/xor(a,b,n) replace the first n bits of a by the bitwise combination and return. The code violates this: the loop counter is never decremented, so for n>0 the loop never stops and runs past both arrays.", "quantifier": "all n and all bit vectors", "why_tests_cant": "Non-termination and out-of-bounds access for every non-trivial argument; no in-range result exists to compare with.", "anchors": ["include/amino/mem.h:aa_bits_and", "include/amino/mem.h:aa_bits_or", "include/amino/mem.h:aa_bits_xor"]}
{"id": "C12", "title": "aa_memswap exchanges two buffers of any length", "statement": "aa_memswap(a,b,n) exchanges the n bytes at a with the n bytes at b and touches nothing else, for non-overlapping buffers.", "quantifier": "all n, all contents, all surrounding memory", "why_tests_cant": "The code works word-wise with a byte-wise tail; every length residue and content matters.", "anchors": ["include/amino/mem.h:aa_memswap"]}
{"id": "C13", "title": "Byte-order conversion", "statement": "Loads and stores in a given byte order are inverse to each other; reversing the byte order twice is the identity; a value stored big-endian and loaded little-endian is the byte-reversed value.", "quantifier": "all 16, 32 and 64 bit values and all buffers", "why_tests_cant": "2^64 values.", "anchors": ["include/amino/endconv.h"]}
{"id": "C14", "title": "Growable vectors keep their elements", "statement": "After any number of AA_VECTOR_PUSH operations the vector contains exactly the pushed elements in order, and every write is inside the current allocation.", "quantifier": "any number of pushes and any element values", "why_tests_cant": "Reallocation boundaries at every power of two.", "anchors": ["include/amino/mem.h:AA_VECTOR_PUSH"]}
{"id": "C15", "title": "aa_aheap_sort sorts", "statement": "For a comparison function that is a total preorder, aa_aheap_sort leaves the array a permutation of its input in non-decreasing order.", "quantifier": "arrays of every length and content, every total preorder comparison", "why_tests_cant": "Unbounded arrays and arbitrary comparison functions.", "anchors": ["src/heap.c:aa_aheap_sort", "src/heap.c:aa_aheap_build", "src/heap.c:aa_aheap_heapify"]}
{"id": "C16", "title": "aa_aheap_check detects violations", "statement": "aa_aheap_check returns 0 exactly when the array satisfies the heap order. The code violates this: it returns the index of the violating node, and the root has index 0.", "quantifier": "arrays of every length and content", "why_tests_cant": "The ambiguous return value is only visible for a violation at the root.", "anchors": ["src/heap.c:aa_aheap_check"]}
{"id": "C17", "title": "Reference counts: exactly one decrement sees zero", "statement": "When n references exist and every holder releases its reference exactly once, possibly concurrently with other holders adding and releasing further references, exactly one aa_refcount_dec call reports that the count reached zero and it is the last one; no call reports it earlier.", "quantifier": "every interleaving of any number of threads", "why_tests_cant": "Schedules.", "anchors": ["src/refcount.c:aa_mem_ref_inc_mutex", "src/refcount.c:aa_mem_ref_dec_mutex", "src/refcount.c:aa_mem_ref_inc_atomic", "src/refcount.c:aa_mem_ref_dec_atomic"]}
{"id": "C18", "title": "Time arithmetic stays normalised and exact", "statement": "aa_tm_make_norm, aa_tm_add and aa_tm_sub return times with 0 <= tv_nsec < 10^9 denoting exactly the intended number of nanoseconds, aa_tm_cmp orders normalised times by the instant they denote, and aa_tm_min/max pick accordingly.", "quantifier": "all seconds and nanoseconds that do not overflow time_t/long", "why_tests_cant": "Negative values and carries.", "anchors": ["include/amino/time.h:aa_tm_make_norm", "include/amino/time.h:aa_tm_add", "include/amino/time.h:aa_tm_sub", "include/amino/time.h:aa_tm_cmp"]}
{"id": "C19", "title": "Unit quaternions form a group acting by rotations", "statement": "aa_tf_qmul is associative, has the identity quaternion as unit and aa_tf_qconj (aa_tf_qinv in general) as inverse, multiplies norms, and aa_tf_qrot by a product equals successive rotation; aa_tf_qrot by a unit quaternion preserves dot and cross products.", "quantifier": "all quaternions and vectors over the reals", "why_tests_cant": "Algebraic identities over a continuum.", "anchors": ["src/tf/quat_ord.c:aa_tf_qmul", "src/tf/quat_ord.c:aa_tf_qconj", "src/tf/quat_ord.c:aa_tf_qrot", "src/tf/quat_ord.c:aa_tf_qinv"]}
{"id": "C20", "title": "Transform representations agree", "statement": "Composing two transforms, inverting one, or applying one to a point gives the same motion whether it is represented as quaternion-translation, dual quaternion, or 3x4 matrix: the conversion functions commute with mul, conj/inv and tf.", "quantifier": "all unit transforms and all points over the reals", "why_tests_cant": "Continuum of transforms; sign and ordering errors can cancel for special inputs such as pure translations.", "anchors": ["src/tf/conv.c", "src/tf/quat_qutr.c:aa_tf_qutr_mul", "src/tf/quat_duqu.c:aa_tf_duqu_mul", "src/tf/tfmatrix.c:aa_tf_tfmat_mul"]}
{"id": "C21", "title": "Rotation matrix and quaternion conversions are inverse", "statement": "aa_tf_quat2rotmat of a unit quaternion is a proper rotation, and aa_tf_rotmat2quat applied to any proper rotation matrix returns a unit quaternion whose matrix is the input, in every branch of the case analysis.", "quantifier": "all rotation matrices", "why_tests_cant": "The branch taken depends on trace and diagonal; each region of SO(3) must be covered including boundaries.", "anchors": ["src/tf.c:aa_tf_rotmat2quat", "src/tf/conv.c:aa_tf_quat2rotmat"]}
{"id": "C22", "title": "Inverse and relative transforms", "statement": "aa_tf_12inv/93inv/qv_conj/qutr_conj/duqu_conj of a unit transform composed with it on either side gives the identity, the *_cmul and *_mulc functions equal composing with the inverse, and aa_tf_93rel gives T1^-1 T2.", "quantifier": "all unit transforms", "why_tests_cant": "Continuum.", "anchors": ["src/tf.c:aa_tf_12inv", "src/tf.c:aa_tf_93rel", "src/tf/quat_qutr.c:aa_tf_qutr_cmul", "src/tf/quat_duqu.c:aa_tf_duqu_cmul"]}
{"id": "C23", "title": "Quaternion exponential and logarithm", "statement": "aa_tf_qexp and aa_tf_qpexp compute the quaternion exponential (a unit quaternion for pure arguments) and aa_tf_qln inverts it for vector parts shorter than pi; qexp of aa_tf_qln is the identity on nonzero quaternions away from the negative real axis. In the small-angle branches this holds to within 2^-78. The variant aa_tf_qexp_n violates it for vector parts shorter than DBL_EPSILON: it drops the exponential of the real part.", "quantifier": "all quaternions in the stated domain", "why_tests_cant": "Transcendental functions over a continuum with branch cuts.", "anchors": ["src/tf/quat_ord.c:aa_tf_qexp", "src/tf/quat_ord.c:aa_tf_qln"]}
{"id": "C24", "title": "Small-angle branches agree with the closed form", "statement": "The series branch of each exponential approximates the same function as the closed-form branch so that results do not jump at the threshold. The code violates this in aa_tf_rotmat_expv and aa_tf_tfmat_expv, whose series branch carries an extra factor theta in the (1-cos)/theta^2 coefficient.", "quantifier": "all rotation vectors around the threshold", "why_tests_cant": "The error is a few ulp-scale percent only visible for very small angles.", "anchors": ["src/tf/tfmatrix.c:aa_tf_rotmat_expv", "src/tf/tfmatrix.c:aa_tf_tfmat_expv", "src/tf/quat_ord.c:aa_tf_qexp"]}
{"id": "C25", "title": "Velocity and derivative conversions are inverse", "statement": "Converting a rotational/spatial velocity to a quaternion, rotation-matrix, dual-quaternion or quaternion-translation derivative and back returns the velocity; the derivative obtained is the true time derivative of the representation along a motion with that velocity.", "quantifier": "all unit poses and all velocities", "why_tests_cant": "Continuum.", "anchors": ["src/tf/quat_ord.c:aa_tf_qvel2diff", "src/tf/quat_ord.c:aa_tf_qdiff2vel", "src/tf/quat_duqu.c:aa_tf_duqu_vel2diff", "src/tf/tfmatrix.c:aa_tf_rotmat_vel2diff"]}
{"id": "C26", "title": "Spherical interpolation", "statement": "aa_tf_qslerp gives the first quaternion at 0, the second (up to the sign chosen for the short way) at 1, a unit quaternion in between, and turns at constant rate.", "quantifier": "all pairs of unit quaternions and all parameters in [0,1]", "why_tests_cant": "Continuum; branch on the sign of the dot product.", "anchors": ["src/tf/quat_ord.c:aa_tf_qslerp", "src/tf/quat_ord.c:slerp_param"]}
{"id": "C27", "title": "Interpolation derivative through moving endpoints", "statement": "aa_tf_qslerpchaindiff returns the time derivative of slerp when the end quaternions move. The code violates this: the rate of the angle is divided by cos instead of -sin.", "quantifier": "all differentiable endpoint motions", "why_tests_cant": "Requires comparing with an analytic derivative.", "anchors": ["src/tf/quat_ord.c:aa_tf_qslerpchaindiff"]}
{"id": "C28", "title": "Denavit-Hartenberg transforms", "statement": "For both the proximal and the distal convention the matrix, dual quaternion and quaternion-translation forms describe the same motion, which equals the product of the elementary screw motions of that convention.", "quantifier": "all four parameters", "why_tests_cant": "Continuum.", "anchors": ["src/tf/conv.c:aa_tf_dhprox2tfmat", "src/tf/conv.c:aa_tf_dhdist2tfmat", "src/tf/conv.c:aa_tf_dhprox2duqu"]}
{"id": "C29", "title": "Rotation between two vectors", "statement": "aa_tf_vecs2quat(u,v) returns a unit quaternion rotating the direction of u to the direction of v. This holds when the vectors are well apart or exactly (anti)parallel. The code violates it in between, already for unit vectors less than 2^-13 apart: the angle is computed from the squared sine.", "quantifier": "all pairs of nonzero vectors", "why_tests_cant": "The failing inputs are pairs separated by a small nonzero angle, which random unit tests never hit.", "anchors": ["src/tf/quat_ord.c:aa_tf_vecs2quat"]}
{"id": "C30", "title": "Axis-angle, Euler and principal-axis rotations", "statement": "aa_tf_axang2rotmat, aa_tf_axang2quat, aa_tf_axang_rot and the x/y/z angle and Euler-angle constructors describe the same rotations: the quaternion form converted to a matrix equals the matrix form, and rotating a vector agrees with both.", "quantifier": "all unit axes, angles and vectors", "why_tests_cant": "Continuum.", "anchors": ["src/tf/conv.c:aa_tf_axang2quat", "src/tf.c:aa_tf_axang2rotmat2", "src/tf.c:aa_tf_axang_rot", "src/tf/conv.c:aa_tf_xangle2rotmat"]}
{"id": "C31", "title": "Planar transforms", "statement": "Planar rotations and transforms compose associatively, their inverses are inverses, and the complex-number, matrix and angle forms agree.", "quantifier": "all planar transforms", "why_tests_cant": "Continuum.", "anchors": ["src/tf/tfp.c"]}
{"id": "C32", "title": "Vector kernels agree with the scalar functions", "statement": "The vectorised transform, quaternion, dual quaternion and cross products compute the same results as the scalar functions, whatever unset vector lanes contain. The code violates this in the third row of aa_vecm_tfmul_2d, in the scalar part of aa_vec_vqmul and in aa_vec_qv2duqu_dual.", "quantifier": "all transforms, quaternions and vectors, all contents of unset lanes", "why_tests_cant": "One wrong array index or lane among dozens of multiplications.", "anchors": ["src/vec.c:aa_vecm_tfmul", "src/vec.c:aa_vecm_tfmul_2d", "src/vec.c:aa_vecm_qmul", "include/amino/arch/gcc.h:aa_vec_vqmul", "include/amino/arch/gcc.h:aa_vec_qv2duqu_dual"]}
{"id": "C33", "title": "Matrix trace", "statement": "aa_la_trace returns the sum of the diagonal elements. The code violates this: it sums absolute values.", "quantifier": "all square matrices", "why_tests_cant": "Only negative diagonal entries show the difference.", "anchors": ["src/la.c:aa_la_trace"]}
{"id": "C34", "title": "Quadratic interpolation", "statement": "aa_la_quadterp passes through its three nodes for distinct abscissae; aa_la_quadterp_dx gives the derivative of that parabola. The derivative function violates this (c*t/2 instead of 2*c*t).", "quantifier": "all distinct abscissae, all ordinates", "why_tests_cant": "Continuum.", "anchors": ["src/la.c:aa_la_quadterp", "src/la.c:aa_la_quadterp_dx"]}
{"id": "C35", "title": "Matrix and vector views address the elements they name", "statement": "aa_dmat_block, row/column/diagonal views and aa_dvec_slice give views whose element (i,j) is the documented element of the parent and stay inside it; out-of-range requests are reported. The code violates this for slices whose step does not divide the range (the last element is missing), for a zero step, for every C++ slice of more than one element and for C++ constant views of vectors with an increment other than one.", "quantifier": "all sizes, offsets, steps and leading dimensions", "why_tests_cant": "Index arithmetic for every combination of sizes.", "anchors": ["src/mat.c:aa_dmat_block", "src/mat.c:aa_dmat_row_vec", "src/mat.c:aa_dmat_col_vec", "src/mat.c:aa_dmat_diag_vec", "src/mat.c:aa_dvec_slice", "include/amino/mat.hpp"]}
{"id": "C36", "title": "Element-wise matrix operations touch exactly the view", "statement": "aa_dmat_scal, aa_dmat_inc, aa_dmat_axpy, aa_dmat_set and aa_dmat_trans read and write exactly the elements of their matrix arguments, whatever the leading dimension. aa_dmat_inc violates this for square views of larger matrices.", "quantifier": "all sizes and leading dimensions", "why_tests_cant": "The shortcut for contiguous storage must be taken exactly when storage is contiguous.", "anchors": ["src/mat.c:aa_dmat_inc", "src/mat.c:aa_dmat_axpy", "src/mat.c:aa_dmat_trans"]}
{"id": "C37", "title": "Optimal assignment", "statement": "aa_la_d_assign_hungarian returns, for every m by n cost matrix, a one-to-one assignment of minimal total cost that pairs min(m,n) rows and columns and marks the others with -1; after aa_la_d_assign_hungarian_max2min the assignment has maximal total. The code violates the first half: whenever it returns the assignment is optimal, but there are 4 by 4 matrices of zeros and ones, and 3 by 3 matrices of costs 0 and -1, for which it never returns.", "quantifier": "all matrix sizes and costs", "why_tests_cant": "The augmenting-path step behaves differently only for particular star/prime patterns in matrices of size three and up.", "anchors": ["src/la_impl.c:opt_hungarian", "src/la_impl.c:assign_hungarian"]}
{"id": "C38", "title": "Null-space projection and damped inverse formulas", "statement": "With A+ a generalised inverse of A (A A+ A = A), aa_la_xlsnp returns a solution of A x = b that differs from the least-squares solution only in the null space, for any secondary target.", "quantifier": "all matrices and vectors", "why_tests_cant": "Universally quantified matrices.", "anchors": ["src/la.c:aa_la_xlsnp", "src/la.c:aa_la_np"]}
{"id": "C39", "title": "Runge-Kutta steps", "statement": "aa_odestep_rk1/rk2/rk4 and the embedded methods (Fehlberg, Cash-Karp, Dormand-Prince, Bogacki-Shampine) compute the published method they are named after, the methods meet all of Butcher's conditions for their order, and a step is exact on right-hand sides that are polynomials of the time below the order and on linear systems is the Taylor polynomial of the motion up to the order; of the two outputs of an embedded step the second is the one of higher order. The code violates this for the Dormand-Prince step with a time-dependent right-hand side (8/9 is an integer quotient), for the second output of the Cash-Karp step (two weights are exchanged) and for the order of the outputs of Bogacki-Shampine and Dormand-Prince.", "quantifier": "all right-hand sides, dimensions, start times, states, step sizes; all polynomial and all affine right-hand sides", "why_tests_cant": "Quantifies over functions and over all rooted trees of an order; a test on one system and a loose tolerance accepts a wrong weight.", "anchors": ["src/sigsys.c:aa_odestep_rk1", "src/sigsys.c:aa_odestep_rk2", "src/sigsys.c:aa_odestep_rk4", "src/sigsys.c:aa_odestep_rkf45", "src/sigsys.c:aa_odestep_rkck45", "src/sigsys.c:aa_odestep_dorpri45", "src/sigsys.c:aa_odestep_rkbs23", "src/sigsys.c:aa_lsim_rk4step"]}
{"id": "C40", "title": "Straight-line joint trajectories respect limits and hit the way points", "statement": "A trajectory made by aa_ct_tjq_lin_generate from at least two way points starts at the first way point, passes through every way point in order, is continuous, never exceeds the velocity limits, and aa_ct_seg_list_eval on a fresh list returns its position and velocity at every time in [0, duration] and OUT at every other time. The code violates this in two cases: a way point added within 1/1000 of the previous one in every joint is silently dropped, so even the last one may not be reached; and the trajectory generated from a single way point cannot be evaluated (null pointer).", "quantifier": "every list of way points and all positive limits", "why_tests_cant": "Quantifies over way-point lists and all times.", "anchors": ["src/ct/traj.cpp:aa_ct_tjq_lin_generate", "src/ct/traj.cpp:aa_ct_seg_dq_new", "src/ct/traj.cpp:aa_ct_seg_dq_eval"]}
{"id": "C41", "title": "Parabolic-blend trajectories are smooth and respect limits", "statement": "Whenever aa_ct_tjq_pb_generate returns a trajectory, it starts and ends at rest at the first and last way point, has continuous position and velocity with the velocity the derivative of the position, respects velocity and acceleration limits at every time, comes within a quarter of the adjacent moves of every way point in order, and evaluation returns its position, velocity and acceleration. For two way points the generator always returns.", "quantifier": "every list of way points, all positive limits, all times", "why_tests_cant": "Adjacent blends interact; the iterative time stretching must separate all of them.", "anchors": ["src/ct/traj.cpp:aa_ct_tjq_pb_generate", "src/ct/traj.cpp:aa_ct_tj_pb_eval", "src/ct/traj.cpp:aa_ct_tj_pb_limit"]}
{"id": "C42", "title": "Trapezoidal-velocity trajectories are continuous", "statement": "A trajectory made by aa_ct_tjq_trap_generate moves towards the target, ends there at rest and respects the velocity limits. The code violates this for every two way points: each joint that has to move starts in the wrong direction and ends past the target, still moving; and a joint can exceed its velocity limit.", "quantifier": "all way points and limits", "why_tests_cant": "All times must be compared with the analytic profile.", "anchors": ["src/ct/traj.cpp:aa_ct_tjq_trap_generate", "src/ct/traj.cpp:aa_ct_seg_ddq_eval"]}
{"id": "C43", "title": "Segment-list evaluation picks the segment containing the time", "statement": "aa_ct_seg_list_eval at time t uses the segment whose time interval contains t and reports OUT outside the total duration, independent of earlier evaluations. The code violates this when an earlier time is evaluated after a later one: the answer is OUT, once; evaluations at non-decreasing times and every answer IN are right.", "quantifier": "all segment lists and all sequences of query times", "why_tests_cant": "The evaluator keeps an iterator between calls, so results depend on the history of queries.", "anchors": ["src/ct/traj.cpp:aa_ct_seg_list_eval", "src/ct/traj.cpp:aa_ct_seg_list_duration"]}
{"id": "C44", "title": "Scene graph initialisation orders parents before children", "statement": "After aa_rx_sg_init succeeds on a forest of frames, frame ids are 0..n-1, aa_rx_sg_frame_id and aa_rx_sg_frame_name are inverse, and the id of each frame's parent is smaller than its own; adding a frame whose parent is missing is reported. The code violates this for a frame with the empty name.", "quantifier": "all sets of frames, names and parent relations, all histories of add/remove/reparent", "why_tests_cant": "Unbounded graphs and histories.", "anchors": ["src/rx/scenegraph.cpp:SceneGraph::index", "src/rx/sg_api.cpp:aa_rx_sg_frame_id", "src/rx/sg_api.cpp:aa_rx_sg_frame_parent"]}
{"id": "C45", "title": "Cyclic frame graphs are rejected", "statement": "aa_rx_sg_init reports an error when the parent relation has a cycle. The code violates this: it returns success and leaves a frame whose parent id is AA_RX_FRAME_NONE, which forward kinematics then uses as an array index.", "quantifier": "all frame sets", "why_tests_cant": "A cyclic graph can be built by aa_rx_sg_reparent; no test does.", "anchors": ["src/rx/scenegraph.cpp:sort_frame_helper", "src/rx/scenegraph.cpp:SceneGraph::index"]}
{"id": "C46", "title": "Configuration variables are numbered consistently", "statement": "After aa_rx_sg_init, configuration ids are 0..m-1, one per distinct configuration name, aa_rx_sg_config_id and aa_rx_sg_config_name are inverse, and each joint reads the variable with its configuration name. Violated at the boundary: aa_rx_sg_config_name compares its argument with the number of frames, and the variable count of a graph that never had a frame is uninitialised.", "quantifier": "all frame sets", "why_tests_cant": "Shared configuration names and arbitrary frame orders.", "anchors": ["src/rx/scenegraph.cpp:SceneGraph::index", "src/rx/sg_api.cpp:aa_rx_sg_config_id", "src/rx/sg_api.cpp:aa_rx_sg_config_name"]}
{"id": "C47", "title": "Forward kinematics equals the product along the path", "statement": "aa_rx_sg_tf and aa_rx_fk_all give for every frame the product of the relative transforms on the path from the root to the frame. aa_rx_fk_all violates this for configuration vectors with a stride.", "quantifier": "all initialised scene graphs, all configurations", "why_tests_cant": "Unbounded trees.", "anchors": ["src/rx/sg_api.cpp:aa_rx_sg_tf", "src/rx/sg_api.cpp:aa_rx_fk_all", "src/rx/sg_api.cpp:aa_rx_fk_set_rel"]}
{"id": "C48", "title": "Incremental forward kinematics equals recomputation", "statement": "aa_rx_sg_tf_update, given the transforms of configuration q0, produces the same transforms for q as computing them from scratch.", "quantifier": "all initialised scene graphs and all pairs of configurations", "why_tests_cant": "Which frames are skipped depends on all combinations of changed joints.", "anchors": ["src/rx/sg_api.cpp:aa_rx_sg_tf_update"]}
{"id": "C49", "title": "The three forward-kinematics representations agree", "statement": "aa_rx_sg_tf, aa_rx_sg_tfmat and aa_rx_sg_duqu describe the same frame poses. The code violates this for prismatic joints below a rotated frame, after re-parenting, and writes past the output for fixed frames.", "quantifier": "all scene graphs and configurations", "why_tests_cant": "Only rotated prismatic joints or re-parented frames show the difference.", "anchors": ["src/rx/scenegraph.cpp:SceneFramePrismatic::tfmat_rel", "src/rx/scenegraph.cpp:SceneFramePrismatic::duqu_rel", "src/rx/scenegraph.cpp:SceneFrameFixed::tfmat_rel", "src/rx/sg_api.cpp:aa_rx_sg_reparent_name"]}
{"id": "C50", "title": "Kinematic chains", "statement": "aa_rx_sg_chain_create(root,tip) lists the frames strictly below root down to tip in path order together with their configurations, and aa_rx_fk_sub computes the same poses for these frames as full forward kinematics.", "quantifier": "all scene graphs, roots and tips", "why_tests_cant": "Unbounded trees.", "anchors": ["src/rx/scene_kin.c:aa_rx_sg_chain_create", "src/rx/scene_kin.c:aa_rx_sg_chain_frames", "src/rx/scene_sub.cpp:aa_rx_fk_sub"]}
{"id": "C51", "title": "Multiple chains", "statement": "aa_rx_sg_multiple_chain_create lists the frames on any of the root-to-tip paths. The code violates this: an inverted membership test makes the result always empty.", "quantifier": "all scene graphs and tip sets", "why_tests_cant": "The function has no unit test; the property quantifies over all trees.", "anchors": ["src/rx/scene_sub.cpp:aa_rx_sg_chain_multiple_frames"]}
{"id": "C52", "title": "The manipulator Jacobian is the derivative of forward kinematics", "statement": "aa_rx_sg_sub_jacobian times the joint velocities is the spatial velocity (translational and rotational) of the end-effector along any configuration motion that keeps the root of the chain still. The code violates this for a chain from a frame to itself (reads before the array).", "quantifier": "all chains of revolute, prismatic and fixed frames, all configurations and velocities", "why_tests_cant": "Continuum and unbounded chain length.", "anchors": ["src/rx/scene_kin.c:aa_rx_sg_chain_jacobian", "src/rx/scene_kin.c:aa_rx_sg_sub_jac_vel_fill2"]}
{"id": "C53", "title": "Configuration gather and scatter", "statement": "aa_rx_sg_config_get after aa_rx_sg_config_set returns the subset written, other variables are unchanged, for distinct ids; expanding a path keeps the fixed variables at their start values.", "quantifier": "all id lists and configuration vectors", "why_tests_cant": "All index lists.", "anchors": ["src/rx/sg_api.cpp:aa_rx_sg_config_get", "src/rx/sg_api.cpp:aa_rx_sg_config_set", "src/rx/scene_kin.c:aa_rx_sg_sub_expand_path"]}
{"id": "C54", "title": "Joint limits read back", "statement": "A limit set with aa_rx_sg_set_limit_* is returned by aa_rx_sg_get_limit_*. The code violates this for limits first set after initialisation.", "quantifier": "all histories of setting limits, adding frames and initialising", "why_tests_cant": "Depends on the order of calls.", "anchors": ["src/rx/sg_api.cpp:aa_rx_sg_set_limit_", "src/rx/sg_api.cpp:aa_rx_sg_get_limit_", "src/rx/scenegraph.cpp:SceneGraph::index"]}
{"id": "C55", "title": "Copying a scene graph preserves it", "statement": "aa_rx_sg_copy yields a graph with the same frames, ids, configurations and limits and hence the same forward kinematics. Violations: inertial data is not copied, copying after the removal of a frame with an allowed collision follows a dangling pointer, and the copy of an emptied graph has an uninitialised variable count.", "quantifier": "all initialised scene graphs", "why_tests_cant": "Ids are recomputed, so equality must hold for every graph.", "anchors": ["src/rx/sg_api.cpp:aa_rx_sg_copy"]}
{"id": "C56", "title": "Collision sets are symmetric relations", "statement": "aa_rx_cl_set_get(i,j) and (j,i) agree, set changes only that unordered pair, clear removes all pairs, fill copies, and merge gives the union (of pairs of distinct frames). Filling from a set of another size is accepted and gives wrong members (violation).", "quantifier": "all sets, frame counts and operation sequences", "why_tests_cant": "Index mapping must be injective on unordered pairs.", "anchors": ["src/rx/collision_set.cpp"]}
{"id": "C57", "title": "Motion-plan sequences", "statement": "aa_rx_mp_seq_elt returns the plans in the order appended, with their own scene graph and points, and the point count is the sum of their lengths; out-of-range indices return NULL.", "quantifier": "all append histories", "why_tests_cant": "Histories.", "anchors": ["src/rx/mp_seq.cpp"]}
{"id": "C58", "title": "Integer modulo", "statement": "aa_imodulo, aa_lmodulo and aa_imodulo64 return the mathematical modulus (sign of the divisor) of any two representable integers with non-zero divisor. The code violates this for large divisors: the intermediate sum (a%b)+b overflows although operands and result are representable.", "quantifier": "all operands of every integer width", "why_tests_cant": "Sign combinations and overflow at the ends of the range.", "anchors": ["include/amino/math.h:AA_MODULO", "include/amino/math.h:aa_imodulo", "include/amino/math.h:aa_lmodulo", "include/amino/math.h:aa_imodulo64"]}
{"id": "C59", "title": "Reference counts shared between C and C++ callers", "statement": "A reference count may be used from any translation unit. The code violates this: the header picks C11 atomics for C callers and a mutex for C++ callers, and the two do not exclude each other, so a concurrent inc can be lost and an object freed while references to it remain.", "quantifier": "every interleaving of threads from translation units of either kind", "why_tests_cant": "A lost update needs one particular interleaving of four memory accesses.", "anchors": ["include/amino/refcount.h:aa_mem_ref_inc", "src/refcount.c:aa_mem_ref_inc_mutex", "src/refcount.c:aa_mem_ref_inc_atomic"]}
{"id": "C60", "title": "Frames built from axes", "statement": "aa_tf_rotmat_xy/yz/zx of two perpendicular nonzero axes give the proper rotation with those axes; aa_tf_rotmat_mzlook/aa_tf_tfmat_mzlook/aa_tf_qutr_mzlook give a proper rotation whose -z axis points from eye to target with x horizontal and y on the up side; aa_tf_rotmat_normalize gives a proper rotation keeping the x direction and xy plane and leaves proper rotations unchanged.", "quantifier": "all axes, eye/target/up triples not aligned, all matrices with independent first two columns", "why_tests_cant": "Continuum of inputs; examples use axis-aligned vectors where sign and order errors cancel.", "anchors": ["src/tf/tfmatrix.c:aa_tf_rotmat_xy", "src/tf/conv.c:aa_tf_rotmat_mzlook", "src/tf/tfmatrix.c:aa_tf_rotmat_normalize", "src/tf.c:aa_tf_proj"]}
{"id": "C61", "title": "Conversions between rotation representations", "statement": "Converting a unit quaternion to axis-angle and back gives the quaternion; axis-angle to quaternion and back gives the axis and angle (angles between 0 and a full turn); rotation vectors convert to the quaternion of the rotation by their length about their direction and back; matrices convert to rotation vectors and axis-angles and back to the same matrix; adding whole turns to a rotation vector leaves the rotation unchanged.", "quantifier": "all unit quaternions, axes, angles, rotation vectors (outside the small-angle branch exactly, inside within 2^-78) and proper rotation matrices", "why_tests_cant": "Continuum with branch cuts at half and full turns.", "anchors": ["src/tf/conv.c:aa_tf_quat2axang", "src/tf/conv.c:aa_tf_quat2rotvec", "src/tf/conv.c:aa_tf_rotvec2quat", "src/tf.c:aa_tf_rotvec2axang", "src/tf/tfmatrix.c:aa_tf_rotmat_lnv", "src/tf.c:aa_tf_rotvec_permute"]}
{"id": "C62", "title": "Pose exponentials, logarithms and velocity integration", "statement": "The exponentials of the three pose representations are the motion of space by a constant twist for unit time, the flow of the logarithm's twist reaches the pose in unit time (for matrices and quaternion-translations with turns below the series threshold, up to the sixth power of the angle), exponential of logarithm is the identity, and integrating a constant velocity for time dt (aa_tf_qsvel, aa_tf_tfmat_svel, aa_tf_qutr_svel, aa_tf_duqu_svel) moves every body point along the flow of that velocity for time dt.", "quantifier": "all unit poses, twists and times with no rotation or rotation outside the series branch", "why_tests_cant": "Continuum; correctness is a statement about solutions of a differential equation.", "anchors": ["src/tf/tfmatrix.c:aa_tf_tfmat_expv", "src/tf/tfmatrix.c:aa_tf_tfmat_lnv", "src/tf/quat_qutr.c:aa_tf_qutr_expv", "src/tf/quat_qutr.c:aa_tf_qutr_lnv", "src/tf/quat_qutr.c:aa_tf_qutr_svel", "src/tf/quat_duqu.c:aa_tf_duqu_exp", "src/tf/quat_duqu.c:aa_tf_duqu_ln", "src/tf/quat_duqu.c:aa_tf_duqu_svel", "src/tf/quat_ord.c:aa_tf_qsvel"]}
{"id": "C63", "title": "Revolute joints with an axis that is not of unit length", "statement": "The documentation of aa_rx_sg_add_frame_revolute says that a non-unit axis scales the rotation; in any case the pose of a joint is a rigid motion. The code violates this: the axis is used as if it were of unit length and the resulting quaternion is not.", "quantifier": "all axes, all configurations", "why_tests_cant": "Tests use unit axes; the defect scales with the axis and vanishes at special angles.", "anchors": ["include/amino/rx/scenegraph.h:aa_rx_sg_add_frame_revolute", "src/rx/scenegraph.cpp:SceneFrameRevolute::tf_rel"]}
{"id": "C64", "title": "Allowed collisions reach the collision checker", "statement": "After aa_rx_sg_allow_collision_name and aa_rx_sg_cl_init, the set of allowed pairs of a new collision checker contains exactly the pairs last allowed, by current frame id. The code violates this when frames are added after the collision data were made (stale ids), when an allowed frame is removed (dangling pointer), and for graphs without geometry (uninitialised flag).", "quantifier": "all histories of adding and removing frames, allowing pairs and initialising", "why_tests_cant": "Depends on the order of edits and (re)initialisations, and on memory that happens to be zero.", "anchors": ["src/rx/sg_api.cpp:aa_rx_sg_allow_collision_name", "src/rx/amino_fcl.cpp:aa_rx_sg_cl_init", "src/rx/collision_set.cpp:aa_rx_sg_cl_set_copy"]}
{"id": "C65", "title": "Relative poses", "statement": "aa_rx_sg_rel_tf and aa_rx_fk_get_rel_qutr return the pose of one frame in another, the root frame included, given the absolute poses; ids out of range are rejected by aa_rx_fk_get_abs_qutr. The code violates the latter for the id equal to the frame count.", "quantifier": "all initialised scene graphs, configurations and pairs of frames", "why_tests_cant": "Every pair in every graph; the off-by-one read is silent.", "anchors": ["src/rx/sg_api.cpp:aa_rx_sg_rel_tf", "src/rx/sg_api.cpp:aa_rx_fk_get_rel_qutr", "src/rx/sg_api.cpp:aa_rx_fk_get_abs_qutr"]}
{"id": "C66", "title": "Cartesian interpolation trajectories", "statement": "A trajectory made by aa_ct_tjx_slerp_generate between two unit poses starts at the first pose at time 0 and ends at the second at time 1; in between the orientation follows the shorter great arc at constant rate, the position follows the straight line, and the reported velocity is the velocity of the moving body. Evaluation at times in [0,1] reports IN. The code violates the last part: every evaluation reports OUT.", "quantifier": "all pairs of unit poses (velocity: rotation by zero or by at least twice 2^-13), all times", "why_tests_cant": "Quantifies over poses and all times; the velocity is a derivative.", "anchors": ["src/ct/traj.cpp:aa_ct_tjx_slerp_generate", "src/ct/traj.cpp:aa_ct_seg_slerp_eval"]}
{"id": "C67", "title": "Checking a trajectory samples it to the end", "statement": "aa_ct_seg_list_check returns the verdict of the test function at the first sample time k*dt in [0, duration] where it is non-zero, and 0 if there is none; the final configuration is tested. The code violates this: after an earlier evaluation of the same list the function returns 0 without calling the test function, the final configuration is tested only if the duration is a multiple of dt, and on Cartesian interpolation trajectories the test function is never called.", "quantifier": "all linear and parabolic-blend trajectories, test functions on position, dt > 0", "why_tests_cant": "Quantifies over test functions and trajectories; sampling loops of unbounded length.", "anchors": ["src/ct/traj.cpp:aa_ct_seg_list_check"]}
{"id": "C68", "title": "The continuity check accepts continuous trajectories", "statement": "aa_ct_seg_list_check_c0 reports no discontinuity for a trajectory whose position changes by less than the tolerance over every interval of length dt. The code violates this.", "quantifier": "all trajectories, dt and tolerances", "why_tests_cant": "A false alarm depends on where the sample times fall.", "anchors": ["src/ct/traj.cpp:aa_ct_seg_list_check_c0"]}
{"id": "C69", "title": "Evaluating only positions or velocities", "statement": "aa_ct_seg_list_eval_q and aa_ct_seg_list_eval_dq return position, and position and velocity, at every time of the trajectory. The code violates this for parabolic blends (both write through a null pointer at every time) and for trapezoidal velocities (aa_ct_seg_list_eval_q does during acceleration).", "quantifier": "all trajectories of each kind and all times", "why_tests_cant": "Quantifies over trajectories and times.", "anchors": ["src/ct/traj.cpp:aa_ct_seg_list_eval_q", "src/ct/traj.cpp:aa_ct_seg_list_eval_dq", "src/ct/traj.cpp:aa_ct_tj_pb_eval"]}
{"id": "C70", "title": "Matrix products", "statement": "aa_dmat_gemv and aa_dmat_gemm store alpha*op(A)*op(B)+beta*C in exactly the elements of the result view, for every size, increment and leading dimension, when the result does not overlap the operands. The code violates this for transposed operands that are not square: the size check compares the untransposed sizes and rejects correct calls.", "quantifier": "all sizes, leading dimensions, increments, transposition flags and coefficients", "why_tests_cant": "Index arithmetic for every combination of sizes and transposition flags.", "anchors": ["src/mat.c:aa_dmat_gemv", "src/mat.c:aa_dmat_gemm"]}
{"id": "C71", "title": "C++ vector expressions", "statement": "Assigning a C++ vector expression built from +, - and scaling to a vector stores the value of the expression computed from the old contents, when the target is separate from the operands. The code violates this for targets that occur in the expression: x = x + y stores 2y.", "quantifier": "all expressions, sizes and increments", "why_tests_cant": "Quantifies over expression trees and overlap patterns.", "anchors": ["include/amino/mat.hpp:operator=", "include/amino/mat.hpp:operator+"]}
{"id": "C72", "title": "Transposes", "statement": "aa_la_transpose2 stores the transpose of an m by n matrix, aa_la_transpose transposes a square matrix in place and aa_la_d_transpose does so between matrices with leading dimensions; nothing else is written.", "quantifier": "all sizes, leading dimensions and contents", "why_tests_cant": "Index arithmetic and swap order for every size.", "anchors": ["src/la.c:aa_la_transpose2", "src/la.c:aa_la_transpose", "src/la_impl.c:transpose"]}
{"id": "C73", "title": "Damped pseudoinverse and damped least squares", "statement": "aa_la_dpinv and aa_dmat_dpinv compute the matrix X with X(AA^T+kI)=A^T for every k>0, wide or tall, and both documented formulas agree; aa_la_dls returns the unique minimiser of |Ay-x|^2+k|y|^2, and aa_la_dlsnp that of |Ay-x|^2+k|y-yp|^2; mismatched sizes are reported; only results and workspace are written.", "quantifier": "all sizes, matrices, vectors and dampings", "why_tests_cant": "Universally quantified matrices; two code paths depending on the shape.", "anchors": ["src/la.c:aa_la_dpinv", "src/mat.c:aa_dmat_dpinv", "src/la.c:aa_la_dls", "src/la.c:aa_la_dlsnp"]}
{"id": "C74", "title": "Pseudoinverses by singular value decomposition", "statement": "Given a correct singular value decomposition, aa_dmat_pinv, aa_dmat_dzdpinv and aa_la_dzdpinv return the Moore-Penrose inverse whenever every singular value is zero or above the threshold, and the documented truncated or damped inverse otherwise, with gain at most 1/s_min. The code violates this for operands stored with a gap between columns (memory outside the copy is accessed) and for results stored with a gap (the last element is always zero).", "quantifier": "all sizes, matrices, thresholds, leading dimensions and decompositions", "why_tests_cant": "Universally quantified matrices and thresholds.", "anchors": ["src/mat.c:aa_dmat_pinv", "src/mat.c:aa_dmat_dzdpinv", "src/la.c:aa_la_dzdpinv"]}
{"id": "C75", "title": "Linear interpolation and statistics", "statement": "aa_la_linterp and aa_la_d_lerp give the point on the line, aa_la_d_colmean and aa_la_d_rowmean the means, aa_la_d_colcov the sample covariance and aa_la_d_vecstd the sample deviation. The code violates this for covariances stored with a gap between columns: the last variance is not divided by n-1.", "quantifier": "all sizes, leading dimensions and data", "why_tests_cant": "Index arithmetic for every size and leading dimension.", "anchors": ["src/la.c:aa_la_linterp", "src/la_impl.c:colmean", "src/la_impl.c:colcov", "src/la_impl.c:vecstd"]}
{"id": "C76", "title": "Products, angles and planes", "statement": "aa_la_wdot is x^T A y; aa_la_d_angle is the angle in [0,pi] with cos(theta)|x||y|=x.y; aa_la_point_plane is the signed distance to the plane; aa_la_plane_hessian makes the normal a unit vector without moving the plane; aa_la_det3x3 is the determinant.", "quantifier": "all vectors, matrices and planes", "why_tests_cant": "Continuum.", "anchors": ["src/la.c:aa_la_wdot", "src/la_impl.c:angle", "src/la.c:aa_la_point_plane", "src/la.c:aa_la_plane_hessian", "src/la.c:aa_la_det3x3"]}
{"id": "C77", "title": "Differential equation solver", "statement": "aa_ode_sol with a fixed-step method calls check after every step with the time, the state and the derivative at that state, stops at the first nonzero answer and returns the state of that call, with 0 for a positive and the answer itself for a negative one; aa_ode_path returns the start and every state given to check. With an adaptive method each accepted state is a step of the method within the tolerance. The code violates this for adaptive methods: the time never advances, so a check that waits for a later time makes the call run for ever and time-dependent systems are integrated at the wrong time; and from the second step on the initial derivative belongs to another point.", "quantifier": "all systems, check functions with any state of their own, methods, options, start times, step sizes and run lengths", "why_tests_cant": "Quantifies over callbacks and over runs of any length, including runs that never end.", "anchors": ["src/sigsys.c:aa_ode_sol", "src/sigsys.c:aa_ode_path", "src/sigsys.c:ode_path_check"]}
{"id": "C78", "title": "Finite differences", "statement": "aa_de_grad_fd and aa_de_jac_fd write in every entry the central difference (f(x + eps e_j) - f(x - eps e_j))/(2 eps), change nothing else in memory (gaps of a strided vector or between columns), are exact for functions quadratic along the axis and tend to the partial derivatives.", "quantifier": "all functions, points, dimensions, increments and leading dimensions, all eps", "why_tests_cant": "Quantifies over functions and over the limit eps to 0.", "anchors": ["src/diffeq.c:aa_de_grad_fd", "src/diffeq.c:aa_de_jac_fd"]}
{"id": "C79", "title": "Jacobians of the logarithms", "statement": "aa_tf_qln_jac and aa_tf_duqu_ln_jac write the derivative of the quaternion and dual quaternion logarithm at their argument, of any length, so that the matrix times the derivative of a curve is the derivative of the logarithm along it; aa_tf_duqu_conj_jac writes the matrix of conjugation.", "quantifier": "all differentiable curves of quaternions and dual quaternions away from the negative real axis and from the interior of the series branch", "why_tests_cant": "A derivative at every point of a continuum.", "anchors": ["src/tf/quat_pde.c:aa_tf_qln_jac", "src/tf/quat_pde.c:aa_tf_duqu_ln_jac", "src/tf/quat_pde.c:aa_tf_duqu_conj_jac"]}
{"id": "C80", "title": "Objectives of inverse kinematics and their gradients", "statement": "For a chain hanging on a frame that does not move, the objective functions of aa_rx_ik_solve change only the poses of the chain's frames and return the same value with and without gradient. The value is the squared distance of the tip from the goal (aa_rx_ik_opt_err_trans), plus the square of half the missing turn (aa_rx_ik_opt_err_qlnpv), the squared size of half the twist that takes the tip to the goal (aa_rx_ik_opt_err_dqln), or half the squared distance from the middles of the joint limits (aa_rx_ik_opt_err_jcenter). The gradient written is the derivative of that value with respect to the joint variables. The code violates this for aa_rx_ik_opt_err_qlnpv_fd: every call reads past the end of a buffer.", "quantifier": "all scene graphs, chains, goals, configurations and differentiable motions of the joints; the gradient of the pose objectives away from a missing half turn and from the interior of the small-angle branch", "why_tests_cant": "A derivative at every point of a continuum, for every chain.", "anchors": ["src/rx/ik_nlopt.c:aa_rx_ik_opt_err_trans", "src/rx/ik_nlopt.c:aa_rx_ik_opt_err_qlnpv", "src/rx/ik_nlopt.c:aa_rx_ik_opt_err_dqln", "src/rx/ik_nlopt.c:aa_rx_ik_opt_err_jcenter", "src/rx/ik_nlopt.c:aa_rx_ik_opt_err_qlnpv_fd"]}
{"id": "C81", "title": "Servoing a pose", "statement": "aa_rx_wk_dx_pos adds to dx the gains times a velocity of the actual pose whose twist, held for two seconds, takes the body to the reference pose by the shorter way around; with equal positive gains a body that moves as commanded from the actual pose turns towards the reference by exp(-gain t/2) and each of its points tends to its place in the reference pose. For a pure translation the velocity added is gain/2 times the distance vector.", "quantifier": "all actual and reference poses with no missing turn or one outside the small-angle branch, all gains and velocities", "why_tests_cant": "A differential equation over all poses and for unbounded time.", "anchors": ["src/rx/scene_wk.c:aa_rx_wk_dx_pos"]}
{"id": "C82", "title": "Joint rates for a velocity of the tip", "statement": "aa_rx_wk_dx2dq writes joint rates that move the tip of the chain neither against the velocity asked for nor faster; with a singular-value threshold their size is bounded by that velocity over the threshold, with damping they are the damped least-squares rates, and away from singularities they are the smallest rates among the best and meet the velocity whenever it can be met. aa_rx_wk_dx2dq_np takes, away from singularities and without damping, of all best rates those nearest to the secondary rates, which then do not show at the tip. The code violates this otherwise: with damping, or near a singularity, secondary rates move the tip. aa_rx_wk_dqcenter writes secondary rates towards the middle of the joint limits and zero for joints without limits. Vectors of wrong size and chains without joints end the program, and nothing but the result and free region memory is changed.", "quantifier": "all scene graphs, chains, configurations, velocities, secondary rates, options and singular value decompositions", "why_tests_cant": "Optimality over all joint rates at every configuration of every chain, including all near-singular ones.", "anchors": ["src/rx/scene_wk.c:aa_rx_wk_dx2dq", "src/rx/scene_wk.c:aa_rx_wk_dx2dq_np", "src/rx/scene_wk.c:aa_rx_wk_dqcenter", "include/amino/rx/scene_wk_internal.h:aa_rx_wk_get_js", "src/rx/scene_kin.c:aa_rx_sg_sub_jac_vel_fill"]}
{"id": "C83", "title": "Solutions of inverse kinematics", "statement": "A configuration returned by aa_rx_ik_solve lies within the joint limits; the status is success only if the tip of the chain, with the joints above it at the start configuration, is within tol_trans of the goal and within tol_angle of its orientation; the Jacobian solver stops after max_iterations plus the number of restarts; arguments of the wrong size are refused and leave no memory behind; a context made by aa_rx_ik_cx_create and aa_rx_ik_set_start seeds inside the limits. aa_rx_ik_check tells whether a configuration reaches the goal. The code violates this: the angle compared is half the angle of the turn, so that solutions may be off by twice tol_angle; a seed outside the limits that the optimiser refuses is returned as a solution; more than one goal is refused without releasing the temporary memory; with the default tol_dq of zero the Jacobian solver never reports success, not even when started at the goal; and for a chain that does not start at the root, aa_rx_ik_check reads uninitialised memory and may answer either way.", "quantifier": "all scene graphs, chains, limits, goals, seeds, start configurations, parameters, numbers drawn for restarts, and all optimisers that keep to their bounds", "why_tests_cant": "Holds for every run of an iteration with random restarts and an external optimiser.", "anchors": ["src/rx/scene_ik.c:aa_rx_ik_solve", "src/rx/scene_ik.c:aa_rx_ik_check", "src/rx/scene_ik.c:aa_rx_ik_cx_create", "src/rx/scene_ik.c:aa_rx_ik_set_start", "src/rx/ik_jacobian.c:kin_solve_check", "src/rx/ik_nlopt.c:s_ik_nlopt"]}
{"id": "C84", "title": "Joint rates under limits", "statement": "aa_rx_wk_dx2dq_lc3 either reports an error and leaves the joint rates unset, or gives rates that respect every velocity limit, acceleration limit over the time step and, where there are acceleration limits, position limit with room for braking; away from singularities each component of the tip's velocity then lies between the present one and the one asked for; rates are found whenever the present rates are allowed, and when the rates that give the velocity asked for (nearest to the secondary rates) are allowed, these are the result. A time step that is not positive is reported, wrong sizes end the program. The code violates this unless the chain has exactly six joints: with fewer it writes past the end of the rates; with more, the joints after the sixth get the rates nearest to their present ones instead of the secondary ones, so that limits are broken and the tip is faster than asked for. It also takes no notice of position limits of joints without acceleration limits.", "quantifier": "all scene graphs, chains, limits, configurations, present and secondary rates, velocities, time steps, options, singular value decompositions and linear program solvers (sound, optimal or complete as stated)", "why_tests_cant": "Optimality over all rates for every chain and every vertex an optimiser may return.", "anchors": ["src/rx/lc3.c:aa_rx_wk_dx2dq_lc3", "src/rx/lc3.c:lc3_constraints"]}
{"id": "C85", "title": "Joint paths along a Cartesian trajectory", "statement": "aa_rx_ct_tjx_path starts at the given configuration, advances the chain's joints with the fixed-step fourth-order Runge-Kutta method by the rates of the resolved-rate controller towards the trajectory's pose and velocity, stops at the first step at or after the trajectory's duration, and returns every step with each joint brought to the nearest value within its limits; where the tip is on the trajectory and can move with its velocity, it does. aa_rx_ct_limits reports the limits of every variable, infinite ones where there are none. A missing or empty start fails, one of the wrong size ends the program. The code violates this: joints without position limits are 0 in every point, because aa_rx_ct_sg_limits reports missing limits as zero; with the default options (one step of the length of the trajectory) the tip ends short of the trajectory's end; a step that is not positive never ends; and trajectories of aa_ct_tjX_pb_generate do not give a velocity.", "quantifier": "all scene graphs, chains, start configurations, trajectories, options, durations and singular value decompositions", "why_tests_cant": "The claim is about every step of the integration along every trajectory for every chain.", "anchors": ["src/rx/rx_ct.c:aa_rx_ct_tjx_path", "src/rx/rx_ct.c:aa_rx_ct_limits", "src/rx/rx_ct.c:aa_rx_ct_sg_limits", "src/rx/ik_jacobian.c:aa_rx_ik_jac_x2dq", "src/sigsys.c:aa_ode_path", "src/ct/traj.cpp:aa_ct_tjX_pb_eval"]}
{"id": "C86", "title": "Robot states and way-point lists", "statement": "aa_ct_state_alloc gives a state arrays of its own, with zero positions, velocities and accelerations. aa_ct_state_clone copies every given array into new memory, leaves missing ones missing, and the copy is unaffected by later changes of the source. aa_ct_state_eq answers whether the sizes agree and positions, velocities, accelerations and poses are missing from both or within AA_EPSILON. aa_ct_pt_list_add and its variants keep a private copy of each state unless it counts as equal to the point at that end, whatever the caller does to its memory afterwards; the links of the points follow the list in both directions; aa_rx_ct_pt_list adds the rows of a path in order. The code violates this in places: the frame arrays of a new state are too small for a pose per frame, two new states cannot be compared (their poses were never stored), equality is not transitive and ignores efforts and frames, so that such points are lost, and aa_ct_state_dump prints accelerations on the line of the efforts and fails without them or without joints.", "quantifier": "all memories, states, sizes, sequences of additions at either end, interleaved writes of the caller, and paths", "why_tests_cant": "The claim is about every history of additions with arbitrary changes of the caller's memory in between.", "anchors": ["src/ct/state.c:aa_ct_state_alloc", "src/ct/state.c:aa_ct_state_clone", "src/ct/state.c:aa_ct_state_eq", "src/ct/state.c:aa_ct_state_dump", "src/ct/state.c:aa_ct_state_set_qutr", "src/ct/traj.cpp:aa_ct_pt_list_add", "src/ct/traj.cpp:aa_ct_pt_list_add_front", "src/ct/traj.cpp:aa_ct_pt_list_dump", "src/rx/rx_ct.c:aa_rx_ct_pt_list"]}
{"id": "C87", "title": "Reading Wavefront OBJ and MTL files", "statement": "aa_rx_wf_parse ends on every text. Every file whose lines are well-formed statements (with any indentation, blanks and comments) and whose libraries can be read is accepted, and the getters give the vertices, normals, indices counted from zero, objects, libraries and materials in the order of the file, each face with the material in use there; a library that cannot be read, or text after a statement, makes the whole file fail. aa_rx_wf_mtl_parse gives one material per newmtl, with the last value of each kind. The code violates this in places: exponents of numbers are accepted and ignored and long fractions are cut off; a file that ends without a newline is rejected after a face or a comment, and one that ends inside a vertex is accepted with a part of it; corners that name no vertex are accepted; faces before any material get the first one used later; aa_rx_wf_obj_get_mtl and aa_rx_wf_obj_get_mtl_filename read past the end at the count; a library that sets a value before its first material writes through a null pointer, and a color on a last line without a newline is not marked as given.", "quantifier": "all texts, all files of well-formed lines of any length, all directories of library files, all numbers and indices", "why_tests_cant": "The claim is about every text of any length, with every way to break its lines and tokens.", "anchors": ["src/wavefront/wavefront.l:aa_rx_wf_parse", "src/wavefront/mtl.l:aa_rx_wf_mtl_parse", "src/wavefront/wf_obj.c:aa_rx_wf_parse_float", "src/wavefront/wf_obj.c:aa_rx_wf_obj_use_material", "src/wavefront/wf_obj.c:aa_rx_wf_obj_push_face", "src/wavefront/wf_obj.c:aa_rx_wf_obj_push_mtl", "src/wavefront/wf_obj.c:aa_rx_wf_obj_get_mtl", "src/wavefront/wf_obj.c:aa_rx_wf_obj_get_mtl_filename", "src/wavefront/wf_mtl.c:aa_rx_wf_mtl_push", "include/wavefront_internal.h:SET_WF_FACE"]}
{"id": "C88", "title": "Reading lines and numbers into a region", "statement": "aa_io_getline returns the next line of the file, without its newline and with a terminating zero, as a new block of the region, and every block the client holds stays as it is; aa_io_d_parse does the same with the numbers of a string; aa_read_realloc never asks for bytes past its buffer. The code violates this for some sizes: a line that is exactly as long as the free space is replaced by whatever malloc left in a new chunk; a line, or the numbers of a string, that do not fit into a chunk in which nothing is allocated are copied from freed memory; and when the region is filled past the rounded end of its chunk the first byte of a line makes a copy of almost the whole address space.", "quantifier": "all files and lines of any length, all reachable regions, all placements malloc may choose, all strings of numbers", "why_tests_cant": "The claim is about every line length against every fill level of the region and every placement of new chunks.", "anchors": ["src/io.c:aa_io_getline", "src/io.c:aa_io_d_parse", "src/io.c:aa_read_realloc", "src/mem.c:aa_mem_region_tmprealloc", "src/mem.c:aa_mem_region_alloc"]}
{"id": "C89", "title": "Vectors and matrices as text", "statement": "aa_io_parsevector and aa_io_getvector store the first n numbers of a line and nothing else; aa_io_fread_matrix_fix reads one row per line and gives back its memory; aa_io_fread_matrix_heap skips empty lines and comments, stores the rows one after the other in an array that has room for them, returns their number, and on a line with too few numbers the negated number of that line; what aa_io_d_print and aa_io_d_gemp print is read back, up to the rounding of the format. The code violates this in places: on a short line the element after the last number is overwritten with zero, and so is the first element of every row past the end of the file; an array of the caller that is less than half a row long is written past its end; the memory of skipped lines, among them the empty line after the last newline, is never given back; and a matrix with no columns divides by zero.", "quantifier": "all files with lines that fit into the free space of the region, all numbers of rows and columns, all strides, all conversions of words to numbers", "why_tests_cant": "The claim is about every file of any number of lines and every matrix size.", "anchors": ["src/io.c:aa_io_parsevector", "src/io.c:aa_io_getvector", "src/io.c:aa_io_fread_matrix_fix", "src/io.c:aa_io_fread_matrix_heap", "src/io.c:aa_io_d_print", "src/io.c:aa_io_d_gemp"]}
{"id": "C90", "title": "Linear programs reach the solver unchanged", "statement": "A program given to aa_opt_gmcreate or to the row-wise variants, and changed by any sequence of aa_opt_set_direction, aa_opt_set_obj, aa_opt_set_bnd, aa_opt_set_cstr_gm and aa_opt_set_type, is the one the solver library holds: the same feasible points, the same objective, the same direction. The code violates this for lp_solve: with assertions on, a program with an equality that no free row makes up for ends the process; a free row makes the last one-sided row disappear; and a lower bound that a later aa_opt_set_cstr_gm drops stays in force.", "quantifier": "all sizes, all matrices in both storage schemes, all bounds that are numbers or infinities, all sequences of calls", "why_tests_cant": "The claim is about every matrix, every mix of equalities, one-sided, two-sided and free rows, and every history of calls.", "anchors": ["src/opt/opt.c:aa_opt_gmcreate", "src/opt/opt_glpk.c:bounds_type", "src/opt/opt_glpk.c:aa_opt_glpk_gmcreate", "src/opt/opt_glpk.c:aa_opt_glpk_crscreate", "src/opt/opt_clp.cpp:aa_opt_clp_gmcreate", "src/opt/opt_lpsolve.c:aa_opt_lpsolve_gmcreate", "src/opt/opt_internal.h:aa_opt_is_lbound"]}
{"id": "C91", "title": "Solved linear programs are optimal", "statement": "When solving returns 0 the point is an optimum of the program as the caller stated it, also after any sequence of changes, so all solvers give the same value; the default solver is the first that is compiled in, and a solver that is not compiled in gives NULL. The code violates this for GLPK: 0 says only that the search was completed, so for every infeasible program with ordered bounds 0 is returned together with a point that violates a constraint.", "quantifier": "all programs, all histories of changes, all solver libraries that keep their documented promises", "why_tests_cant": "The claim is about every program and every behaviour of the solver library allowed by its documentation.", "anchors": ["src/opt/opt_glpk.c:s_solve", "src/opt/opt_glpk.c:aa_opt_lp_glpk", "src/opt/opt_clp.cpp:aa_opt_lp_clp", "src/opt/opt_lpsolve.c:aa_opt_lp_lpsolve", "src/opt/opt.c:aa_opt_gmcreate"]}
{"id": "C92", "title": "Quadratic programs", "statement": "aa_opt_qp_solve_cgal minimises x'Dx + c'x + c0 with Ax <= b or Ax = b and the given bounds; it returns 0 with a minimiser or -1 if there is none, and -1 for Ax >= b. The code violates this: constraints, bounds and the linear part are passed on exactly, but the quadratic part that is minimised is made of the last column of D put on the diagonal, so that for a diagonal D only the last variable's square is counted and the point returned with 0 is not a minimiser.", "quantifier": "all sizes, all matrices, all bounds, all convex programs", "why_tests_cant": "The claim is about every matrix D and every number of variables.", "anchors": ["src/opt/opt_cgal.cpp:aa_opt_qp_solve_cgal"]}
{"id": "C93", "title": "Collision objects occupy the shapes they stand for", "statement": "After aa_rx_sg_cl_init and aa_rx_cl_create, every geometry with the collision option on a frame has one object that covers exactly the points the geometry covers when drawn, at any pose of the frame. The code violates this for cylinders with a scale other than one, which are placed with the unscaled half height, and for cones, grids and tori, which get no object.", "quantifier": "all scenes, all dimensions, scales and meshes, all poses", "why_tests_cant": "The claim is about every point of space, every pose and every mesh.", "anchors": ["src/rx/amino_fcl.cpp:cl_init_helper", "src/rx/amino_fcl.cpp:cl_init_mesh", "src/rx/amino_fcl.cpp:cl_create_helper", "src/rx/amino_fcl.cpp:s_update_tf", "src/amino_gl.c:init_cone_cylinder"]}
{"id": "C94", "title": "Collision checks report exactly the forbidden collisions", "statement": "aa_rx_cl_check and aa_rx_cl_check_fk return nonzero exactly if two geometries on different frames that are not an allowed pair share a point, and add exactly those pairs of frames to the set given, whatever order the collision manager visits the objects in. aa_rx_sg_get_collision adds exactly the pairs not allowed in the graph. After aa_rx_sg_allow_config and aa_rx_sg_cl_init the same configuration has no collision, and the pairs allowed are the old ones and those found.", "quantifier": "all scenes, histories of the graph, configurations, allowed sets, visiting orders", "why_tests_cant": "The claim is about every scene and every order of visits of the library.", "anchors": ["src/rx/amino_fcl.cpp:cl_check_callback", "src/rx/amino_fcl.cpp:s_cl_check", "src/rx/amino_fcl.cpp:aa_rx_cl_check", "src/rx/amino_fcl.cpp:aa_rx_sg_get_collision", "src/rx/amino_fcl.cpp:aa_rx_sg_allow_config"]}
{"id": "C95", "title": "Separation distances", "statement": "After aa_rx_cl_dist_check the distance of two frames that may not collide is the smallest signed separation of their objects (minus the deepest penetration when they touch), DBL_MAX if there is none to compare or the pair is allowed, and 0 for a frame with itself; the points belong to a pair of objects with that separation, in the order of the arguments; the result says whether some pair touches. Results of earlier checks have no influence on this. aa_rx_cl_dist_get_min_dist returns the smallest distance to another frame and where it is attained.", "quantifier": "all scenes, allowed sets, visiting orders, earlier checks on the same context, all frames", "why_tests_cant": "The claim is about every order of visits, every set of objects per frame and every history of checks.", "anchors": ["src/rx/amino_fcl.cpp:aa_rx_cl_dist_check", "src/rx/amino_fcl.cpp:cl_dist_callback", "src/rx/amino_fcl.cpp:aa_rx_cl_dist_get_dist", "src/rx/amino_fcl.cpp:aa_rx_cl_dist_get_points", "src/rx/amino_fcl.cpp:aa_rx_cl_dist_get_min_dist"]}
{"id": "C96", "title": "Motion plans lead from the start to the goal without forbidden collisions", "statement": "If aa_rx_mp_plan returns AA_RX_OK, the path starts at the configuration given to aa_rx_mp_set_start, ends at the goal accepted last, moves only the joints of the sub-scenegraph, keeps their limits, and in no waypoint do two frames touch unless the graph, aa_rx_mp_allow_collision, or a start or allowed configuration in which they touch permits it. Goals in forbidden collisions are refused and leave the old goal; the start is always valid; tracked collisions are those of the states asked about; without a path an error is returned. The code violates this in several histories: a configuration allowed after the start changes the fixed joints the checks use; a second start is added to the first; after a new goal a plan that finds nothing returns the path to the old goal; of several frames of a workspace goal only the first is reached; a goal set after a workspace goal leaves a pointer to freed memory that planning uses; a goal set before any configuration reads uninitialised memory; forbidding a collision that the graph allows can make the start invalid.", "quantifier": "all scenes, all histories of calls on a planning context, all behaviours of a planner that keeps the contract of OMPL", "why_tests_cant": "The claim is about every history of calls and every path a randomised planner may return.", "anchors": ["src/rx/mp/scene_ompl.cpp:aa_rx_mp_plan", "src/rx/mp/scene_ompl.cpp:aa_rx_mp_set_start", "src/rx/mp/scene_ompl.cpp:aa_rx_mp_allow_config", "src/rx/mp/scene_ompl.cpp:aa_rx_mp_set_goal", "src/rx/mp/workspace_goal.cpp:aa_rx_mp_set_wsgoal", "src/rx/mp/scene_state_validity_checker.cpp:isValid", "src/rx/mp/scene_state_space.cpp:get_tf_abs"]}
{"id": "C97", "title": "Validity of states may be asked from several threads", "statement": "While a plan runs, any number of threads may ask whether states are valid: each gets the answer it would get alone, none waits for ever, and the region of the state space ends as it began. The code violates this as soon as a thread asks for the distance to a workspace goal, which uses the same region without the mutex: another thread can be told that a state in collision is valid.", "quantifier": "all numbers of threads, all calls they make, all schedules", "why_tests_cant": "The wrong answer needs a particular interleaving of two threads.", "anchors": ["src/rx/mp/scene_state_validity_checker.cpp:isValid", "src/rx/mp/workspace_goal.cpp:distanceGoal", "src/rx/mp/scene_state_space.cpp:get_tf_abs", "src/mem.c:aa_mem_region_alloc", "src/mem.c:aa_mem_region_pop"]}
{"id": "C98", "title": "C++ spatial objects are the transforms they are made from", "statement": "A Quat, RotMat, QuatTran or TfMat constructed from a quaternion, matrix, axis-angle, principal angle, rotation vector, quaternion-translation, dual quaternion or transformation matrix moves every point as its argument does, products compose motions, conj undoes one, and the Eigen conversions keep the motion. The code violates this: no DualQuat can be constructed or conjugated, since every such call recurses for ever through the default constructor; QuatTran of a transformation matrix writes eight doubles into seven; and an axis-angle made from an axis array is not scaled to unit length, unlike one made from components, so that a quaternion made from it is not unit.", "quantifier": "all constructor arguments, all points", "why_tests_cant": "Continuum of arguments; the failing constructors are not called by any test.", "anchors": ["include/amino/tf/spatial.hpp:DualQuat", "include/amino/tf/spatial.hpp:QuatTran", "include/amino/tf/spatial.hpp:TfMat", "include/amino/tf/spatial.hpp:AxisAngle", "include/amino/tf/spatial.hpp:RotMat", "include/amino/eigen_compat.hpp:conv"]}
{"id": "C99", "title": "C++ planar objects are the transforms they are made from", "statement": "A Cmplx, RotMatP, CmplxTran or TfMatP constructed from a complex number, an angle, a rotation matrix or another transform moves every point as its argument does; products compose and inverses undo; AngleP of a rotation is its angle. The code violates this for AngleP(), documented as the zero rotation, which leaves the angle uninitialised.", "quantifier": "all constructor arguments, all points", "why_tests_cant": "Continuum of arguments; an uninitialised double often happens to be zero.", "anchors": ["include/amino/tf/planar.hpp:AngleP", "include/amino/tf/planar.hpp:Cmplx", "include/amino/tf/planar.hpp:RotMatP", "include/amino/tf/planar.hpp:CmplxTran", "include/amino/tf/planar.hpp:TfMatP"]}
{"id": "C100", "title": "Boxes and grids are drawn exactly", "statement": "The triangles handed to OpenGL for a box cover exactly the surface of the box, and each has a normal that is perpendicular to it and points outward; those for a grid cover exactly the strips of the given width along both axes at every multiple of the spacing within the dimensions. Building them never reads or writes outside the arrays.", "quantifier": "all dimensions, spacings and widths, all points of space", "why_tests_cant": "Continuum of dimensions; a test can look at some pixels of some grids.", "anchors": ["src/amino_gl.c:aa_geom_gl_buffers_init_box", "src/amino_gl.c:aa_geom_gl_buffers_init_grid", "src/amino_gl.c:tri_mesh"]}
{"id": "C101", "title": "Cylinders and cones are drawn as closed surfaces", "statement": "Every point drawn for a cylinder or cone is on its side, inside the circle of that height by at most the sagitta of a regular 36-gon, or on an end disc; at every angle and height the side is drawn and the discs are closed; every index names a vertex and the normals have unit length and, for cylinders, are perpendicular to the surface. The code violates the last for cones: the normals of the side are horizontal, whatever the radii.", "quantifier": "all heights and radii, all angles and heights on the surface", "why_tests_cant": "Continuum of sizes and points.", "anchors": ["src/amino_gl.c:init_cone_cylinder"]}
{"id": "C102", "title": "Spheres are drawn as closed surfaces", "statement": "Every point drawn for a sphere is between 0.995 and 1 times the radius from the centre, every ray from the centre meets a triangle, every vertex is on the sphere and has the outward unit normal, and each refinement keeps all of this.", "quantifier": "all positive radii, all directions, any number of refinements", "why_tests_cant": "Continuum of radii and directions; a missing triangle shows only from one side.", "anchors": ["src/amino_gl.c:init_sphere", "src/amino_gl.c:geodesic_round"]}
{"id": "C103", "title": "Tori are drawn as the tube they describe", "statement": "For a torus of at most a full turn every vertex and normal is that of the torus at some angle of the torus, every drawn point is inside the surface by at most the sagittas of the two polygons, and every point of the surface has such a drawn point at its angles. The ends of a part of a torus should be closed too; the code violates this, since no triangle closes the tube.", "quantifier": "all angles up to a full turn, all radii, all points of the surface", "why_tests_cant": "Continuum of angles and radii; the index arithmetic wraps around an unsigned integer.", "anchors": ["src/amino_gl.c:init_torus"]}
{"id": "C104", "title": "Functions handed to the window thread are called once and their results come back", "statement": "While no window exists, every function handed to aa_rx_win_call is called at most once, with its own context, by the thread that runs the display loop, and has been called when aa_rx_win_call returns. A single caller gets the results of its own calls, and its calls all return. The thread that created the window gets the results of its own calls. The same should hold for several callers, for a displayed window, for functions that create the window and for windows created by other threads; the code violates each of these.", "quantifier": "all schedules, spurious wake-ups included, any number of threads and calls", "why_tests_cant": "Schedules are unbounded; the losses need particular interleavings.", "anchors": ["src/rx/sdl_win.c:aa_rx_win_call", "src/rx/sdl_win.c:s_handle_call", "src/rx/sdl_win.c:aa_rx_win_create", "src/rx/sdl_win.c:aa_rx_win_run"]}
{"id": "C105", "title": "Geometry options read back as they were set", "statement": "Each option of a geometry (colour, alpha, specular colour, scale, shadow, visual and collision flags) reads back the value last given to it, or its documented default, whatever other options were set in between. For green and blue of the specular colour the code returns them exchanged.", "quantifier": "all sequences of option settings, all values", "why_tests_cant": "Sequences and values are unbounded; the existing tests use grey, where an exchange cannot show.", "anchors": ["src/rx/geom_opt.c:aa_rx_geom_opt_create", "src/rx/geom_opt.c:aa_rx_geom_opt_get_specular_green", "include/amino/rx/scene_geom.h:aa_rx_geom_opt_set_specular3"]}
{"id": "C106", "title": "Geometry objects and meshes live exactly as long as they are referred to", "statement": "For any history of creating, copying, modifying and destroying geometry objects and meshes, attaching them to frames, copying geometry between frames, adding, replacing and removing frames, and creating, copying and destroying scene graphs in which the caller only uses objects it may use: no call touches freed memory, every object exists exactly while the caller, a frame of some graph or (for meshes) a geometry object refers to it, its reported count is the number of references, its options and shape are those it was made with, and once all references are given up nothing is left. Copying the geometry of a frame onto that same frame should duplicate it; the code is undefined there.", "quantifier": "all histories of calls, any number of objects, frames and graphs, fewer than 2^32 references per object", "why_tests_cant": "Histories are unbounded and leaks or early frees depend on the order of calls.", "anchors": ["src/rx/scene_geom.c:aa_rx_geom_destroy", "src/rx/scene_geom.c:aa_rx_geom_modify_opt", "src/rx/scene_geom.c:aa_rx_mesh_destroy", "src/rx/scenegraph.cpp:aa_rx_sg_add_geom", "src/rx/scenegraph.cpp:aa_rx_sg_copy_frame_geom", "src/rx/sg_api.cpp:aa_rx_sg_copy", "src/rx/sg_api.cpp:aa_rx_sg_rm_frame"]}
{"id": "C107", "title": "After initialisation every attached geometry has its collision and drawing object", "statement": "After aa_rx_sg_cl_init every box, sphere, cylinder and mesh attached to the graph and marked for collision has a collision object, and after aa_rx_sg_gl_init every attached geometry has its drawing buffers, for any history of attaching, copying and removing geometry and frames and of earlier initialisations, and whatever values the uninitialised flags of a new graph hold. Other shapes marked for collision get no object and are silently absent from collision checks.", "quantifier": "all histories of calls as in C106", "why_tests_cant": "Depends on the order of attachments, copies and initialisations, and on uninitialised flags.", "anchors": ["src/rx/amino_fcl.cpp:aa_rx_sg_cl_init", "src/rx/amino_fcl.cpp:cl_init_helper", "src/amino_gl.c:aa_rx_sg_gl_init", "src/rx/scenegraph.cpp:aa_rx_sg_add_geom"]}
{"id": "C108", "title": "Arrays given to a mesh are copied or lent as asked and released with it", "statement": "For any history of creating and destroying meshes and setting their vertices, normals, texture coordinates, indices and texture (from the caller's arrays or from arrays of other meshes), of setting texture colours in [0,1], and of the caller writing and freeing its own arrays: no call touches freed memory; an array set with copying shows the first elements given at that time whatever the caller does afterwards, an array set without copying shows the caller's array; vertex and index counts are those last given; the library's live arrays are exactly the copies held by existing meshes, plus one for each texture coordinate copy that aa_rx_mesh_set_texture replaced, which the code leaks. An array set from the mesh's own copy, and a texture colour of 256/255 or more, are undefined behaviour.", "quantifier": "all histories of calls, any number of meshes and arrays, all values", "why_tests_cant": "Histories are unbounded; leaks and aliasing show no wrong value in a test.", "anchors": ["src/rx/scene_geom.c:aa_rx_mesh_set_vertices", "src/rx/scene_geom.c:aa_rx_mesh_set_texture", "src/rx/scene_geom.c:aa_rx_mesh_set_rgba", "src/rx/scene_geom.c:aa_rx_mesh_destroy"]}
{"id": "C109", "title": "A window plays motion plans on schedule", "statement": "With a motion plan or a sequence of plans installed, every cycle of the display loop shows the graph and configuration due at that time: 0.8 s per point, moving on the straight line to the next point of the same plan, resting 0.8 s at the last point of each plan, plans one after the other, and starting again at the first point once they are over; time counts from the start of the loop or from the last start. Sequences may be extended while they are played. A sequence whose first plan has no points stops the program by an assertion at its second run.", "quantifier": "all sequences of plans, all configurations, all frame times, any history of other calls on the window", "why_tests_cant": "Needs a display; frame times are real-valued and plans unbounded.", "anchors": ["src/rx/sdl_win.c:mp_seq_display", "src/rx/sdl_win.c:plan_display_1", "src/rx/sdl_win.c:aa_rx_win_set_display_seq", "src/rx/sdl_win.c:aa_rx_win_set_display_plan", "src/rx/mp_seq.cpp:aa_rx_mp_seq_elt"]}
{"id": "C110", "title": "A window shows the configuration last given and releases what it replaced", "statement": "With a scene graph installed every cycle shows it at the configuration last given (zero if none since), aa_rx_win_get_config reads that configuration, and whenever the display is replaced or the window destroyed the previous display context is released exactly once, by the caller's destructor for its own ones, and a plan's copy with it. The code leaks the configuration array at every aa_rx_win_set_sg after the first and at destruction, and the element records of plan sequences. A configuration shorter than the graph's, and moving a sub scene graph by the space mouse (eight numbers stored into an array of seven), are undefined.", "quantifier": "all histories of calls of one thread, all configurations", "why_tests_cant": "Needs a display; leaks and overruns show no wrong picture.", "anchors": ["src/rx/sdl_win.c:set_sg", "src/rx/sdl_win.c:aa_rx_win_set_bconfig", "src/rx/sdl_win.c:default_display", "src/rx/sdl_win.c:workspace_control", "src/rx/sdl_win.c:aa_rx_win_set_display", "src/rx/mp_seq.cpp:aa_rx_mp_seq_destroy"]}
{"id": "C111", "title": "Modulo and angle normalisation", "statement": "aa_fmodulo gives the residue with the sign of the divisor and the same result exactly for congruent numbers; aa_fremainder the residue with the sign of the dividend. aa_ang_norm_2pi lies in [0,2pi), is the same angle, and is equal exactly for equal angles. aa_ang_norm_pi lies in [-pi,pi], is the same angle and the nearest to zero; away from half a turn it lies inside the open interval and is unique. Half a turn is outside the documented open interval and gets two different results (pi and -pi). aa_ang_delta is the smallest turn from the second angle to the first. Degrees and radians convert back and forth.", "quantifier": "all real numbers and angles, all nonzero divisors", "why_tests_cant": "Unbounded arguments; the ties at odd multiples of pi are a set of measure zero.", "anchors": ["include/amino/math.h:aa_fmodulo", "include/amino/math.h:aa_fremainder", "include/amino/math.h:aa_ang_norm_2pi", "include/amino/math.h:aa_ang_norm_pi", "include/amino/math.h:aa_ang_delta", "include/amino/math.h:aa_ang_rad2deg"]}
{"id": "C112", "title": "Mean and deviation of numbers and angles", "statement": "aa_stat_mean and aa_stat_std are the mean and the sample standard deviation. aa_stat_circ_mean is a mean direction in (-pi,pi], one no angle betters by the sum of cosines of the differences, and the only one unless the samples cancel out; turning the samples turns it. aa_stat_circ_std is sqrt 2 times the circular standard deviation sqrt(-2 ln R), hence larger than it whenever the samples differ; it is infinite when they cancel out. z-scores convert back and forth.", "quantifier": "all nonempty lists of samples", "why_tests_cant": "Unbounded sample sets; optimality quantifies over all angles.", "anchors": ["src/math.c:aa_stat_mean", "src/math.c:aa_stat_std", "src/math.c:aa_stat_circ_mean", "src/math.c:aa_stat_circ_std", "src/la_impl.c:aa_la_d_vecstd"]}
{"id": "C113", "title": "Statistics without outliers", "statement": "aa_stat_excluded_mean_std stores the mean of the samples inside the window of the estimate before, with at least two samples; it makes at least one and at most max_iterations passes, stops early when the number of samples kept repeats, and returns the number of estimates accordingly. The deviation stored is taken around the mean before: it is the deviation of the kept samples exactly when the mean did not move, and too large otherwise. With no outliers the result is the mean and deviation of all samples. The circular variant does the same with mean directions and sqrt 2 times the circular deviation. A pass that keeps fewer than two samples aborts the process.", "quantifier": "all lists of samples, windows and numbers of passes", "why_tests_cant": "The iteration is unbounded and the error in the deviation depends on the data.", "anchors": ["src/math.c:aa_stat_excluded_mean_std", "src/math.c:aa_stat_excluded_circ_mean_std"]}
{"id": "C114", "title": "Range checks", "statement": "aa_fclamp, aa_clamp and each element of aa_vclamp are the number in the range nearest to the argument. aa_fdeadzone replaces exactly the values strictly inside the zone. aa_sign is the sign. aa_valid_f returns 0 exactly inside the closed range, otherwise -1. aa_valid_v returns -1 on a wrong size, otherwise one more than the index of the first value outside the bounds given, or 0 when there is none.", "quantifier": "all values, ranges and lengths", "why_tests_cant": "Boundary values and all lengths.", "anchors": ["include/amino/math.h:aa_fclamp", "include/amino/math.h:aa_clamp", "include/amino/math.h:aa_vclamp", "include/amino/math.h:aa_fdeadzone", "include/amino/math.h:aa_sign", "src/validate.c:aa_valid_f", "src/validate.c:aa_valid_v"]}
{"id": "C115", "title": "Inverse kinematics of the planar two link arm", "statement": "For a point off the x axis and within reach aa_kin_planar2_ik_theta2 returns 0 and stores two solutions, angles in (-pi,pi] that put the end of the arm at the point; every solution is one of the two up to whole turns. For a point out of reach it returns 1. For every point on the x axis, also within reach, it divides zero by zero, stores NaN and returns 1.", "quantifier": "all positive lengths and all points", "why_tests_cant": "Correctness and completeness of the closed form over a continuum; the failing points have measure zero.", "anchors": ["src/kin.c:aa_kin_planar2_ik_theta2", "include/amino/kin.h:aa_kin_planar2_ik_theta2"]}
{"id": "C116", "title": "Colours from RGB to HSV", "statement": "For nonnegative colours aa_cv_rgb2hsv gives as value the largest part, a saturation between 0 and 1 that is 0 exactly for greys, and a hue in (-pi,pi] that is the direction of the sum of red, green and blue at 0, 120 and 240 degrees, of length saturation times value. Different colours convert differently. Mixing in white keeps the hue, brightening keeps hue and saturation, and cycling red, green, blue turns the hue by 120 degrees.", "quantifier": "all nonnegative colours", "why_tests_cant": "Injectivity and symmetry over a continuum.", "anchors": ["src/cv.c:aa_cv_rgb2hsv", "include/amino/cv.h:aa_cv_rgb2hsv"]}
{"id": "C117", "title": "Continuous time Riccati equation", "statement": "aa_la_care_laub stores a solution X of A^T X + X A - X G X + Q = 0, where G is B if B is square and B B^T otherwise, and Q is C if C is square and C^T C otherwise, whenever LAPACK finds an invariant subspace of the Hamiltonian of dimension m with invertible upper half. If no two of the selected eigenvalues add up to zero X is symmetric and the closed loop A - G X is similar to the selected part of the Schur form. The function returns 0 whatever LAPACK reports, also for equations without a solution.", "quantifier": "all sizes and matrices, every LAPACK meeting the stated contract", "why_tests_cant": "Matrices of all sizes; symmetry and the equation are identities.", "anchors": ["src/are.c:aa_la_care_laub", "src/are.c:aa_la_care_laub_hamiltonian", "src/are.c:aa_la_care_laub_select"]}
{"id": "C118", "title": "Hidden frames of the viewer", "statement": "aa_gl_globals_is_masked tells, for every frame, what the last aa_gl_globals_mask about it since the last aa_gl_globals_unmask_all said. Wished: frames may be masked in any order. In fact the calls stay inside the mask's memory exactly when no frame number reaches the capacity fixed by the first frame masked; growing a mask that is not empty clears memory past its end.", "quantifier": "all sequences of mask and unmask_all calls, all frame numbers", "why_tests_cant": "The overflow depends on the order of frame numbers and need not be noticed at run time.", "anchors": ["src/amino_gl.c:aa_gl_globals_mask", "src/amino_gl.c:aa_gl_globals_is_masked", "src/amino_gl.c:aa_gl_globals_unmask_all"]}
{"id": "C119", "title": "What the viewer shows", "statement": "After any camera calls and events, a world point survives OpenGL's clipping exactly when it lies, seen from the camera, between the near and far planes and inside the field of view and aspect. Of two points beyond the near plane the nearer one has the smaller depth. The eye position given to the shader is the camera's. Geometry is drawn at its pose, scaled; normals turn with it and keep their length.", "quantifier": "all sequences of camera calls and events, all poses, points and perspective parameters", "why_tests_cant": "Quantifies over all points, camera poses and perspectives.", "anchors": ["src/amino_gl.c:aa_gl_mat_perspective", "src/amino_gl.c:aa_gl_tfmat2glmat", "src/amino_gl.c:aa_gl_globals_set_camera", "src/amino_gl.c:aa_gl_globals_set_aspect", "src/amino_gl.c:aa_gl_draw_tf", "src/amino_gl.c:aa_rx_sg_render", "src/amino_gl.c:aa_gl_globals_create"]}
{"id": "C120", "title": "Camera control by keys and mouse", "statement": "Each key, drag and wheel event composes the camera pose with the intended orbit, shift, roll or return home, from the first look-at pose on, and the quaternion stays unit. The horizon stays level unless the user rolls; orbiting keeps the origin at its place on the screen and its distance; a right button drag depends only on where the pointer ends. The redraw request is given for exactly the listed events; wished for every event that changes the picture, but a resize changes the view without it.", "quantifier": "all sequences of events and camera calls", "why_tests_cant": "Invariants over event sequences of any length.", "anchors": ["src/amino_sdl.c:aa_sdl_scroll_event", "src/amino_sdl.c:scroll", "src/amino_gl.c:aa_gl_globals_home_camera"]}
{"id": "C121", "title": "Event handlers of the window", "statement": "Each event goes to the handler bound first for its type, or for its key if it is a key press, wherever in the program's history the binding was made; the handler can read the event; the camera control gets the event when there is no handler or the handler's result is not 0. After a request to close the window nothing more is displayed. Wished: a later binding replaces an earlier one, and aa_sdl_bind_event works for every type. In fact a later binding is never called, and neither is one for the type SDL_KEYDOWN.", "quantifier": "all sequences of bindings, also from handlers and the display function, all sequences of events", "why_tests_cant": "Depends on the history of bindings and on sequences of events.", "anchors": ["src/sdl_handler.c:aa_sdl_bind_event", "src/sdl_handler.c:aa_sdl_bind_key", "src/sdl_handler.c:aa_sdl_handle_event", "src/sdl_ui.c:aa_sdl_ui_setup"]}
{"id": "C122", "title": "Display loop of the window", "statement": "The first display and only it is told that it is the first; the times handed over are those of the start, the display before and now. A display is asked to draw at first and when an event since the last display asked for it, and buffers are swapped exactly when the display was asked or asked itself. After quit is set there is no further display, wait or event. Displays start less than a millisecond early and events are looked for between any two displays. Wished: the display function can read the last event; in fact the pointer it gets is never valid.", "quantifier": "all histories of clock readings, events, and requests by handlers and display function, all frame rates", "why_tests_cant": "Invariants over runs of any length; the dangling pointer need not show at run time.", "anchors": ["src/amino_sdl.c:aa_sdl_display_loop", "src/amino_sdl.c:aa_sdl_display_params_get_event", "src/amino_sdl.c:aa_sdl_display_params_set_quit", "src/amino_sdl.c:aa_sdl_display_params_set_update"]}
{"id": "C123", "title": "Deferred deletion of the viewer's buffers", "statement": "Threads may schedule buffers for destruction while others clean up. However they are interleaved, if no buffer is scheduled twice then no freed buffer is touched, each is destroyed at most once, only scheduled ones are, and some thread can always go on until all calls have returned; then one more cleanup leaves exactly the scheduled buffers destroyed. A buffer scheduled twice is read after it was freed.", "quantifier": "all numbers of threads, all their call sequences, all interleavings", "why_tests_cant": "Quantifies over all interleavings of any number of threads.", "anchors": ["src/amino_gl.c:aa_gl_buffers_schedule_destroy", "src/amino_gl.c:aa_gl_buffers_cleanup", "src/amino_gl.c:aa_gl_buffers_destroy"]}
{"id": "C124", "title": "Mean rotation", "statement": "For unit quaternions and weights that are not negative (equal weights if NULL is passed), aa_tf_quat_davenport returns a unit quaternion, and no rotation has a smaller weighted sum of squared distances between rotation matrices. The general eigenvalue function it uses, aa_la_d_eev, stays inside its copy of the matrix exactly when the leading dimension equals the size (or the size is at most one).", "quantifier": "all numbers of quaternions, all weights, all matrices and leading dimensions", "why_tests_cant": "Minimality over all rotations and all weighted data sets.", "anchors": ["src/tf.c:aa_tf_quat_davenport", "src/tf/quat_ord.c:aa_tf_quat_davenport_matrix", "src/la_impl.c:aa_la_d_eev", "include/amino/la_impl.h:aa_la_d_maxloc"]}
{"id": "C125", "title": "Medians and relative translation", "statement": "aa_la_d_median returns the middle element of the sorted data, or the mean of the two middle ones, and this has the least sum of absolute deviations; aa_la_d_mad and aa_la_d_mad2 are medians of distances. For a given rotation aa_tf_relx_mean is the translation of least squared misfit between two point sets, aa_tf_relx_median that of least absolute misfit. The float median reads past the end of its array.", "quantifier": "all data of any length, all rotations", "why_tests_cant": "Minimality over all translations for data of any length.", "anchors": ["src/la_impl.c:aa_la_d_median", "src/la_impl.c:aa_la_d_mad", "src/la_impl.c:aa_la_d_mad2", "src/tf.c:aa_tf_relx_mean", "src/tf.c:aa_tf_relx_median"]}
{"id": "C126", "title": "Plane fit", "statement": "If points lie on a plane that does not pass through the origin, and span the space, aa_la_plane_fit returns exactly that plane, with unit normal and positive offset. It fails for planes through the origin.", "quantifier": "all dimensions, all point sets, all planes", "why_tests_cant": "Exact recovery for every plane and every point set.", "anchors": ["src/la_impl.c:aa_la_d_colfit", "src/la.c:aa_la_plane_fit"]}
{"id": "C127", "title": "Axis-angle normalisation and nearest rotation vector", "statement": "aa_tf_axang_normalize gives a unit axis and an angle between 0 and pi of the same rotation whenever the axis is not zero. aa_tf_rotvec_near and aa_tf_quat2rotvec_near return a vector of the same rotation, and, while the vector and the goal have lengths adding up to at most 7 pi, no vector of that rotation is nearer to the goal. A zero axis divides by zero; the zero vector and goals farther away miss the nearest vector.", "quantifier": "all axes, angles, rotation vectors, quaternions and goals", "why_tests_cant": "Minimality over all the infinitely many vectors of every rotation.", "anchors": ["src/tf.c:aa_tf_axang_normalize", "src/tf.c:aa_tf_axang_permute2", "src/tf.c:aa_tf_rotvec_near", "src/tf.c:aa_tf_quat2rotvec_near"]}
{"id": "C128", "title": "Rotation matrix test and cross product matrices", "statement": "aa_tf_isrotmat accepts every rotation matrix; whatever it accepts is orthogonal to 2e-4 in every entry and has determinant within 1e-4 of one. The matrices of aa_tf_cross_mat_l and aa_tf_cross_mat_r multiply to the cross product with the vector on the left and on the right.", "quantifier": "all matrices, all vectors", "why_tests_cant": "Acceptance and soundness over all matrices.", "anchors": ["src/tf.c:aa_tf_isrotmat", "src/tf.c:aa_tf_cross_mat_l", "src/tf.c:aa_tf_cross_mat_r", "src/la.c:aa_la_det3x3"]}
{"id": "C129", "title": "Runge-Kutta integration of a rotation", "statement": "n steps of aa_tf_qvelrk4 at a constant rotational velocity differ from the exact rotation by at most n x^5/100 times the length of the quaternion, where x is half the angle turned in one step (steps of at most two radians). The length changes by an exact factor in each step, and a single aa_tf_qvelrk1 step of a unit quaternion never gives a unit quaternion.", "quantifier": "all quaternions, velocities, step sizes and numbers of steps", "why_tests_cant": "An error bound over any number of steps and any axis and rate.", "anchors": ["src/tf/quat_ord.c:aa_tf_qrk1", "src/tf/quat_ord.c:aa_tf_qvelrk1", "src/tf/quat_ord.c:aa_tf_qvelrk4"]}
{"id": "C130", "title": "Formatted strings in a region", "statement": "aa_mem_region_vprintf (and aa_mem_region_printf) returns a new block of the region that holds exactly the formatted text and its terminating zero and leaves all other blocks alone, after formatting at most twice, as long as the newest chunk is below 1 GiB. With 2 GiB or more free the loop need not end, because the free size is converted to int; when formatting fails a pointer to no octets is returned.", "quantifier": "all reachable regions, all texts, all malloc answers", "why_tests_cant": "All texts in all region states; the endless loop needs gigabytes.", "anchors": ["src/mem.c:aa_mem_region_vprintf", "src/mem.c:aa_mem_region_printf"]}
{"id": "C131", "title": "Regions of threads", "statement": "Threads that use aa_mem_region_local_get and the aa_mem_region_local_ functions in any interleaving never disturb each other: every block keeps what its thread stored, lies in memory not yet freed and overlaps no block of any thread; a call of one thread changes neither the region nor the blocks of another; when a thread ends or destroys its region exactly its chunks are freed.", "quantifier": "any number of threads, all interleavings of calls, all malloc answers", "why_tests_cant": "All interleavings of all call sequences.", "anchors": ["src/mem.c:aa_mem_region_local_get", "src/mem.c:aa_mem_region_local_init", "src/mem.c:aa_mem_region_local_destroy", "src/mem.c:local_region_destroy", "src/mem.c:aa_mem_region_local_alloc"]}
{"id": "C132", "title": "Dual quaternion derivative Jacobian", "statement": "If a body moves with the velocity its velocity Jacobian gives for some joint rates, the derivative of its unit dual quaternion is the Jacobian computed by aa_tf_duqu_jac_vel2diff times the same rates; conversely a pose with that derivative moves every body point with that velocity. The derivative is always tangent to the unit dual quaternions.", "quantifier": "all unit pose curves, all Jacobians with any number of columns, all rates", "why_tests_cant": "A statement about derivatives of all curves and all Jacobians.", "anchors": ["src/tf/quat_duqu.c:aa_tf_duqu_jac_vel2diff", "src/tf/quat_duqu.c:aa_tf_duqu_matrix_r"]}
{"id": "C133", "title": "Algebraic slerp and its derivative", "statement": "aa_tf_qslerpalg gives the point of the great-circle arc to the nearer end at the parameter, the same as aa_tf_qslerp, and aa_tf_qslerpdiffalg is its derivative in the parameter, when the angle and the turned angle are zero or at least 2^-13.", "quantifier": "all unit quaternions, all parameters outside the small-angle series", "why_tests_cant": "A derivative and an equality over a continuum.", "anchors": ["src/tf/quat_ord.c:aa_tf_qslerpalg", "src/tf/quat_ord.c:aa_tf_qslerpdiffalg"]}
{"id": "C134", "title": "Quaternion difference", "statement": "The header says aa_tf_qssd is the sum of the squared differences; it returns the square root of that sum, the distance, which is zero only for equal quaternions.", "quantifier": "all quaternions", "why_tests_cant": "Values of a real function on all arguments.", "anchors": ["src/tf/quat_ord.c:aa_tf_qssd", "include/amino/tf/spatial.h:aa_tf_qssd"]}
{"id": "C135", "title": "Arrays of the inverse kinematics parameters", "statement": "A caller that keeps the ownership rules of AA_MEM_COPY, AA_MEM_STEAL and AA_MEM_BORROW can call aa_rx_ik_parm_take_config, _take_gain_config, _take_seed and _center_configs in any order: no call frees or reads memory that is not allocated, each array reads the values last given, and the caller's blocks are unchanged. aa_rx_ik_parm_destroy frees exactly the owned arrays, except an owned seed, which leaks. The null space motion is the gain times the way to the reference; a reference without a gain reads through a null pointer.", "quantifier": "all sequences of calls and caller actions, all array contents and lengths", "why_tests_cant": "All orders of calls with all ownership modes; leaks are not visible to a test's assertions.", "anchors": ["src/rx/ik_opt.c:aa_rx_ik_parm_take_config", "src/rx/ik_opt.c:aa_rx_ik_parm_take_gain_config", "src/rx/ik_opt.c:aa_rx_ik_parm_take_seed", "src/rx/ik_opt.c:aa_rx_ik_parm_center_configs", "src/rx/ik_opt.c:aa_rx_ik_parm_destroy", "src/rx/ik_opt.c:aa_rx_ik_parm_create", "src/rx/scene_ik.c:s_ksol_jpinv", "include/amino/mem.h:AA_MEM_DUPOP"]}
{"id": "C136", "title": "Lifetime of dynamically loaded plugins", "statement": "Meshes loaded with aa_rx_dl_mesh and scene graphs loaded with aa_rx_dl_sg_at point into static arrays of the plugin. In every order of loading, attaching, copying, releasing and destroying, no closed handle is closed again and no freed mesh is used; the plugin's open count is exactly the number of live objects that will close it plus the forgotten handles; a mesh the client holds stays readable; every mesh of a live scene graph stays readable if no scene graph was copied. When all is destroyed and each scene graph was loaded from one plugin, every plugin is closed. A copy of a scene graph does not keep the plugin open, and loading a second plugin into a scene graph forgets the first handle.", "quantifier": "all sequences of the calls by a client that uses live objects, all plugins, all numbers of meshes", "why_tests_cant": "Needs every interleaving of loads, copies and destructions; a leaked handle has no visible effect and a read of an unmapped plugin only faults in some orders.", "anchors": ["src/rx/plugin.c:rx_dlopen", "src/rx/plugin.c:plugin_destructor", "src/rx/plugin.c:aa_rx_dl_mesh", "src/rx/plugin.c:aa_rx_dl_sg_at", "src/rx/scene_geom.c:aa_rx_mesh_destroy", "src/rx/scene_geom.c:aa_rx_geom_mesh", "src/rx/scenegraph.cpp:SceneGraph::~SceneGraph", "src/rx/sg_api.cpp:aa_rx_sg_set_destructor", "src/rx/sg_api.cpp:aa_rx_sg_copy"]}
{"id": "C137", "title": "Box-Muller transform", "statement": "aa_stat_box_muller gives finite numbers exactly for a first argument in (0,1]. On (0,1) x (0,1] it is a bijection to the plane without the origin, differentiable where the first argument is below one, and the inverse of the absolute Jacobian determinant is the product of two standard normal densities, so that uniform inputs give two independent standard normal deviates. aa_stat_z2x and aa_stat_x2z are inverse and carry the standard density to the one with mean mu and deviation sigma. aa_frand returns values in [0,1]; zero is one of them, which the transform does not accept.", "quantifier": "all real arguments; all values of rand()", "why_tests_cant": "A distribution cannot be settled by samples, and rand() returning zero is rare.", "anchors": ["src/math.c:aa_stat_box_muller", "src/math.c:aa_frand", "include/amino/math.h:aa_stat_z2x", "include/amino/math.h:aa_stat_x2z", "include/amino/math.h:aa_sincos"]}
