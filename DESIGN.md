# Formal model of small_gicp in Rocq (Coq 8.16.1)

Sources modelled: `/repo` (koide3/small_gicp, pinned commit), read as text.  All Coq
files are in `rocq/theories` (logical name `Verif`).

## 1. How the model is organised

* `*Model.v` files hold definitions only.  Each definition cites the C++ file and lines it
  models and says where it simplifies.
* `*Spec.v` files hold the small, independent specifications used in theorem statements.
* `*Proofs.v` files hold lemmas.
* `Prop_*.v` files hold the property theorems (`Theorem … exact lemma. Qed.`), the concrete
  non-vacuity `Example`s and `Print Assumptions`.

Outcomes: a C++ call is modelled by a total function into `outcome A`
(`Ok a | UB | Abort | OutOfFuel`).  Undefined behaviour (out-of-bounds access, division by
zero, reading an uninitialised field, int overflow) is the distinct outcome `UB`, never
silently absorbed.  Loops without structural bound take fuel and return `OutOfFuel`;
theorems prove that enough fuel exists.

Numbers, chosen per property:
* **IEEE binary64** (Flocq `BinarySingleNaN`, round to nearest even, all NaNs identified) for
  search, result container, fast_floor, file formats: these theorems hold for the machine
  arithmetic, including overflow to infinity.
* **exact reals** (stdlib `R`) for geometric/algebraic claims (centroids, Jacobians, Lie
  maps, reductions, robust kernels): rounding is ignored, stated in each property's note.
* **Z / N with explicit wrap-around** for 21-bit voxel keys, 32-bit node/point indices,
  `int`/`size_t` conversions.

External code is never an axiom: `std::nth_element`, `std::sort`, `std::partition`,
`std::inplace_merge`, `std::sample`, Eigen's eigen-solver, LDLT, matrix inverse and the task
schedulers are universally quantified parameters of the theorems, constrained only by their
documented contract, and every contract is shown satisfiable by a concrete instance.

## 2. Plan per property

| id | model | proof |
|----|-------|-------|
| C01 | node array + index array builder, recursive search over the arrays, binary64 | search = pushing every point in visiting order (pruned pushes are no-ops, by monotonicity of rounding), then top-k characterisation |
| C02 | same, k=1 path | corollary of C01 |
| C03 | same with epsilon | either full fold or early exit with worst < eps |
| C04 | KnnResult record with index/distance arrays | invariant over push lists; refinement to stable top-k |
| C05 | builder with bounds-checked buffer, size_t/int comparison | count bound by strong induction; refutations by computation |
| C06 | small-step task semantics, arbitrary interleavings | invariant over runs; same abstract tree |
| C07 | same search generic in the number type, R instance | Cauchy–Schwarz |
| C08 | binary64 cast to int, compare, subtract | Flocq truncation lemmas |
| C09–C11 | key packing in Z, run-length averaging over any sorted permutation | list induction |
| C12–C13 | blocks as arbitrary contiguous partition; atomic reservation interleavings | invariants |
| C14, C15 | task pool over disjoint ranges | invariant over schedules |
| C16 | tile histograms, prefix offsets, scatter, double buffer | refinement to stable sort |
| C17 | selection-sampling oracle | contract of std::sample |
| C18–C24 | map state machine over insert histories | invariants over op lists |
| C25 | abstract commutative group accumulators, arbitrary schedules/splits | permutation invariance |
| C26, C27 | optimizer loops with oracle solver/linearizer | loop invariants, refutations by witness |
| C28–C32, C35, C37, C44 | factor formulas over R | algebra, derivatives, Cauchy–Schwarz |
| C33, C34 | estimator with eigen-solver oracle, per-index writes | case analysis, schedule invariance |
| C36 | rejector inside factor/reduction model | by cases |
| C38, C39 | RegistrationPCL state machine | invariant over call lists, refutations |
| C40 | index image, border modes, window loops | arithmetic + top-k |
| C41, C42 | byte lists, header lines | round trip, refutations |
| C43 | helper dispatch on settings | case analysis, refutations |
| C45 | sequencer/overwrite flow graph | order-independence |
| C46, C47 | traits / sampling arithmetic | refutation / arithmetic |
| C48 | event log of the optimizer model | induction over the loops; refutation for Gauss-Newton by a run |
| C49 | cloud operations with attribute provenance | invariant over operation lists; refutation by a run |
| C50 | maps over a heap of shared voxels, with copying | frame lemmas; refutation by a run |
| C51 | robust factors over the reals | chain rule over the gradient theorem of C29; refutation by two correspondences |
| C52 | the stages of `align` on vectors of points put together in doubles | stage by stage safety lemmas for arbitrary queries and poses; honoured settings from C43; empty target and NaN pose refuted in general form |
| C53, C54 | the Python bindings: arrays, trees, batch loops as interleaved writes | every schedule leaves every write holding; search exactness from C01-C06; refutations |
| C55, C56 | the Python align, estimation, preprocessing and array views | all trees of a cloud search alike (extensionally), then C34, C43, C52; refutations in general form |
| C57 | the four OpenMP odometry classes as relations between frame sequences and trajectories | invariant over the frames: the stored target stays usable, the map well formed; then C34, C43, C52 per frame; refutations in general form |
| C58 | factors, reductions and optimizers of C29/C30 over the reals, two targets related by a rigid motion | simulation: the optimizer loops over related problems, each linearisation equal (J^T W J is unchanged by conjugation), the search by uniqueness of the nearest point; PlaneICP refuted by a concrete pair |
| C59 | the same; the capped sum of squared nearest distances as specification | the fixed-correspondence error is an upper bound of the capped sum and equal to it where linearised; induction over the LM loop; GICP refuted by a concrete switch of correspondences |
| C60 | the same; exact alignment as: every transformed source point is a target point | every factor's gradient and error are zero, so the damped positive definite system has only the zero solution and exp 0 is the identity; converse from the bound of C59; in doubles: the nearest point is at distance exactly zero, residuals and gradients are zeros, the Hessian sums stay finite for any schedule, and a pose times the identity keeps its values |
| C61 | Summarizer: counters, sums, log, over any arithmetic | invariant over push histories; over the reals the sums give mean and deviation, specified by their defining equations; witnesses for the refuted parts |
| C62 | the argument loop of the benchmark over lists of words, the engine registry as association list | per-option step lemmas, specification by the last occurrence of each option; registry invariant under permutation |
| C63 | constructor and conversion of KittiDataset over a list of directory entries and a file system; bit patterns decoded to IEEE singles | a sorted arrangement of distinct names is unique; file frames from C41; conversion loop by invariant; Flocq for decoding and widening |
| C64 | the PCL traits with floats as Flocq binary32 and the two casts | refinement to the history specification of C49 with every value rounded; rounding facts from Flocq; perturbation bound for the quadratic form |
| C65 | the binding of linearize and the loop of the Python test over one factor object | the result never reads the old factor; loop against the serial reduction by induction; optimiser loops by induction |
| C66 | the odometry class as a client of the RegistrationPCL state machine, with an arbitrary allocator and float casts | invariant over frames: the target holds the last frame with its tree and none or its own covariances; equality with a chain of registrations |
| C67 | the estimation model of C33 over the reals, run on a cloud and on its moved copy; kd-tree k-nearest search over the reals | variance along a turned direction is the variance before; uniqueness of the flattest direction; uniqueness of the set of nearest points |
| C68 | the optimizers, reductions and factors over the reals, on clouds and their permutations | simulation between the two runs with permuted factor lists; sums over a commutative monoid; exact searches agree where the nearest point is unique |
| C69 | the optimizers and factors over the reals, from a start shifted off an exact alignment | nearest points are the true partners below half the spacing; the linear system is solved by the missing shift; geometric decrease under damping; a six-point grid shows the bound is sharp |
| C70 | the optimizers, factors and se3_exp over the reals, on a source and its turned copy | the exponential and the damped system are equivariant under turning both blocks; simulation of the two runs; two single-pair problems for what does depend on the frame |
| C71 | the whole prepared-cloud registration in doubles with NaN operands; voxel map and downsampling with the x86 conversion | NaN through every arithmetic operation; every leaf of the tree is non-empty and every push accepts; poison through any schedule of the reduction; no step is accepted |
| C72 | scaled clouds, poses, criteria and settings over the reals | simulation of both optimizers with the linear system scaled by dimension; refutation with one pair of points and any damping |
| C73 | the covariance and normal computation on doubles | rounding-error analysis of each sum, product and quotient; comparison of quadratic forms; refutation by a strip whose computed variance is negative in every order of summation |
| C74 | the exponential map and the composition of poses on doubles | rounding-error analysis of the quaternion (both branches), of its matrix and of matrix products; lengths by norms, orientation by the determinant; induction over the loops of both optimizers |
| C75 | voxelgrid_sampling on doubles | exact sums of fixed-point numbers; monotone rounding keeps the mean between two members of its voxel, so in the voxel; sorted lists of cells are unique |
| C76 | factors, optimizers, RestrictDoF | complete the square per factor, sum, evaluate the non-negative prediction at twice the step |
| C77 | src/example/03_registration_template.cpp: user-defined cloud, search, rejector, general factor | multiset invariant of the bounded queue; draining it yields the ascending list; pigeonhole for the out-of-bounds index; reduction to C76 |
| C78 | reductions in doubles | invariants of the OpenMP and TBB loops without any law of addition: every accumulator sums a list of contributions, the lists together are a permutation of all; induction over the bracketing for the rounding error |
| C79 | kd-tree with normal-direction splitting in doubles | search invariant naming the split that hid a point; forward error analysis of the projection, monotone rounding and Cauchy-Schwarz |
| C80 | the Python odometry classes as relations over frames | composition of C55, C56 and the clearing policy of C19 over the list of frames |
| C81 | the same voxel map model with doubles | rounding error analysis of the running mean over the list of insertions that visited the voxel, with the exact history of C21 |
| C82 | the same model of the exponential in doubles | rounding error analysis of the coefficients, the matrix and the product against the closed form of the solution; the loss of digits by an increment on which the rounding can be computed |
| C83 | the rejector, factors and serial reduction in doubles | the comparison of each factor under the two limits, and a monotonicity proof for rounded sums of non-negative doubles |
| C84 | the kd-tree build and k-nearest search in doubles | counting the points nearer than each reported distance, which no reordering changes, from the exactness theorem C01; a five-point tie for the refutation |

## 3. Not expressible in a model of this kind

Run time, memory use, numerical quality of the eigen-solver/LDLT, the C++ memory model below
the level of atomic steps, visual/benchmark tooling (`src/benchmark/*` except what is listed),
CMake/packaging, and the conversions pybind11 does between Python objects and C++ arguments.

## 4. Trusted base

* Coq 8.16.1's kernel (with `vm_compute`), and the four standard-library axioms of section 5.
* `vcheck` also lists sealed standard-library module constants (`RbaseSymbolsImpl`, `ssrunder`)
  among the library axioms; they come from the standard library.
* The reading of the C++ source that the definitions record, file by file.  Modelled so far:

| code in /repo (under include/small_gicp unless noted) | theory files | left out or simplified |
|---|---|---|
| `ann/knn_result.hpp` | `KnnModel` | identity index transform |
| `ann/kdtree.hpp`, `ann/projection.hpp` | `KdModel` | the projection is a parameter where only its contract matters |
| `ann/kdtree_omp.hpp`, `ann/kdtree_tbb.hpp` | `KdParModel` | tasks as atomic steps; task runtime trusted |
| `util/fast_floor.hpp` | `FloorModel` | both int-conversion conventions: x86 result and undefined behaviour |
| `util/downsampling.hpp`, `_omp`, `_tbb` | `VoxModel`, `VoxPar`, `SampleModel` | sort by contract; collection steps atomic |
| `util/sort_omp.hpp`, `util/sort_tbb.hpp` | `SortModel`, `RadixModel` | `std::sort`, `std::inplace_merge`, `std::partition` by contract |
| `ann/incremental_voxelmap.hpp`, `flat_container.hpp`, `gaussian_voxelmap.hpp` | `VmapModel` | voxels are held by value (the `shared_ptr` is never aliased inside one map); the hash table is an association list; exceptions from allocation are not modelled; the insertion transform is a parameter |
| `factors/*.hpp`, `registration/rejector.hpp`, `points/traits.hpp` | `Lin`, `FactorModel` | Eigen's fixed-size algebra written out (sums left to right); the nearest-neighbour search and the rejector are parameters |
| `registration/reduction*.hpp` | `ReduceModel` | one loop iteration is one step (iterations touch disjoint data); OpenMP and TBB schedules over-approximated; runtimes trusted |
| `registration/optimizer.hpp`, `registration.hpp`, `termination_criteria.hpp`, `registration_result.hpp` | `OptModel` | `ldlt().solve` and `se3_exp` are parameters; verbose output left out; an event log is added for stating properties |
| `util/lie.hpp` (`skew`, `so3_exp`, `se3_exp`) | `Lin`, `LieModel` | exact reals: sin, cos and sqrt are the real functions; Eigen's `toRotationMatrix` written out |
| `util/normal_estimation*.hpp`, `points/point_cloud.hpp` (`resize`) | `EstModel` | the search and `SelfAdjointEigenSolver` are parameters; one write to a normal or covariance is one step |
| `ann/projection.hpp` (`AxisAlignedProjection`, `NormalProjection`) | `KdModel`, `AxisModel` | `SelfAdjointEigenSolver` is a parameter |
| `points/point_cloud.hpp` | `CloudModel` | an element never written is distinct from every value; reading it is undefined |
| `ann/incremental_voxelmap.hpp` (shared voxels, copying) | `HeapModel` | voxels live on a heap and are never freed; all maps of a program have the same leaf size and voxel settings |
| `pcl/pcl_registration_impl.hpp`, `pcl/pcl_proxy.hpp` | `PclModel` | clouds have addresses and may change in place; tree building, estimation, map building and registration are parameters; whether the PCL base class accepts a cloud is a parameter |
| `ann/projective_search.hpp` | `ProjModel` | the index image is a list of rows; asin and atan2 by their range contracts; the owning wrapper only forwards |
| `benchmark/read_points.hpp` | `IoModel` | a file is a byte list, a 32-bit float its four bytes; stream errors other than failure to open are left out |
| `odometry_benchmark_small_gicp_tbb_flow.cpp`, `odometry_benchmark_small_gicp.cpp`, loop of `benchmark_odom.hpp` | `FlowModel` | the graph nodes follow TBB's documented order guarantees (sequencer, FIFO queue of a serial node); a body is one step, the preprocessing body three; statistics and drawing left out |
| `registration/registration_helper.hpp`, `src/small_gicp/registration/registration_helper.cpp` | `HelperModel` | the schedule an OpenMP loop takes is a function of threads, body and factors, otherwise arbitrary; downsampling, tree, estimation and voxel map are parameters there; verbose output left out |
| the same, with the library's own stages in doubles | `PipeModel` | downsampling's and estimation's parallel loops as relations over schedules; the tree is built serially (its parallel builders are `KdPar*`) |
| `src/python/*.cpp` | `PyModel` | a numpy array is a list of rows already converted to doubles; argument conversion by pybind11 left out; of the values a search puts into its own result cells only the last are written; messages left out |
| `odometry_benchmark_small_(v)gicp(_model)_omp.cpp`, `OnlineOdometryEstimation` of `benchmark_odom.hpp` | `OdomModel` | timing statistics, drawing and reading the files left out; downsampling is the serial function; an outcome relation over the schedules of the covariance estimation |
| `benchmark.hpp` (Summarizer), `benchmark_odom.cpp`, argument loop of `odometry_benchmark.cpp` | `BenchModel` | stoi and stod are parameters, the counter does not wrap, printing left out |
| src/example/kitti_odometry.py (both classes and the loop over frames) | PyOdomModel | reading files, drawing apart from the read of voxel_points(), timing |
| `util/lie.hpp` (`so3_exp`, `se3_exp`) on doubles | `LieF64Model` | sine and cosine are parameters; Eigen's `toRotationMatrix` written out |
| `kdtree.hpp` knn_search for estimation, over the reals | `TurnTree` | floating-point rounding left out; the float version is `PipeModel.tree_knn` |
| `odometry_benchmark_small_gicp_pcl.cpp` | `OdomPclModel` | which clouds PCL accepts is a parameter; tree, covariances and registration are parameters as in `PclModel`; timing left out |
| `src/python/factors.cpp` | `PyFactorModel` | pybind conversions of matrices and indices are taken as given |
| `benchmark.hpp` (KittiDataset) | `KittiModel` | directory entries as a list in any order, std::sort by contract, paths joined with a slash, little-endian floats |
| `pcl_point.hpp`, `pcl_point_traits.hpp`, float/double casts | `PclPointModel`, `F32` | what a new PCL point holds is a parameter; NaN payloads identified |
| `src/example/03_registration_template.cpp` (user-defined classes, normal estimation of `example2`) | `TemplateModel` | `std::priority_queue` by contract; the order of additions in the feature dot product left out; reading files, conversion and printing left out |

## 5. Axioms used by each theorem

What `Print Assumptions` lists.  All four are standard-library axioms brought in by `Reals`
(and by Flocq and Coquelicot through it): N = `ClassicalDedekindReals.sig_not_dec`, F = `ClassicalDedekindReals.sig_forall_dec`,
E = `FunctionalExtensionality.functional_extensionality_dep`, C = `Classical_Prop.classic`.

| theorem | file | axioms |
|---|---|---|
| `C01_kdtree_knn_exact` | `Prop_KdTree.v` | N F E C |
| `C02_kdtree_nearest_is_first_of_knn` | `Prop_KdTree.v` | N F E C |
| `C03_kdtree_epsilon` | `Prop_KdTree.v` | N F E C |
| `C04_knn_result_keeps_k_best` | `Prop_Knn.v` | N F E C |
| `C04_knn_result_keeps_k_best_Z` | `Prop_Knn.v` | none |
| `C04_bad_k_aborts` | `Prop_Knn.v` | N F E C |
| `C04_nan_distance_breaks_order_refuted` | `Prop_Knn.v` | N F E C |
| `C05_kdtree_build_covers` | `Prop_KdTree.v` | N F E C |
| `C05_leaf_size_0_refuted` | `Prop_KdTree.v` | N F E C |
| `C05_leaf_size_1_refuted` | `Prop_KdTree.v` | N F E C |
| `C05_leaf_size_2_refuted` | `Prop_KdTree.v` | N F E C |
| `C05_zero_scan_count_refuted` | `Prop_KdTree.v` | N F E C |
| `C05_empty_cloud_search_refuted` | `Prop_KdTree.v` | N F E C |
| `C06_parallel_build_schedule_independent` | `Prop_KdPar.v` | N F E C |
| `C06_parallel_build_completes` | `Prop_KdPar.v` | N F E C |
| `C07_normal_projection_exact` | `Prop_KdTree.v` | F E |
| `C07_normal_projection_double_refuted` | `Prop_KdTree.v` | N F E C |
| `C08_fast_floor_is_floor` | `Prop_Vox.v` | N F E C |
| `C08_fast_floor_out_of_range` | `Prop_Vox.v` | N F E C |
| `C09_voxelgrid_centroids` | `Prop_Vox.v` | N F E C |
| `C09_voxelgrid_exact_means` | `Prop_Vox.v` | F E |
| `C09_voxelgrid_order_irrelevant` | `Prop_Vox.v` | F E |
| `C09_voxelgrid_idempotent` | `Prop_Vox.v` | F E |
| `C09_idempotent_in_doubles_refuted` | `Prop_VoxTwice.v` | N F E C |
| `C10_out_of_range_ignored` | `Prop_Vox.v` | F E |
| `C10_all_out_of_range_refuted` | `Prop_Vox.v` | N F E C |
| `C10_tiny_leaf_refuted` | `Prop_Vox.v` | N F E C |
| `C11_voxel_keys` | `Prop_Vox.v` | N F E C |
| `C11_voxel_keys_strict_ub` | `Prop_Vox.v` | N F E C |
| `C12_parallel_voxelgrid` | `Prop_Vox.v` | N F E C |
| `C12_stray_point_refuted` | `Prop_Vox.v` | N F E C |
| `C13_collection` | `Prop_Vox.v` | none |
| `C14_quick_sort_omp` | `Prop_Sort.v` | none |
| `C14_quick_sort_omp_completes` | `Prop_Sort.v` | none |
| `C14_huge_array_refuted` | `Prop_Sort.v` | none |
| `C15_merge_sort_omp` | `Prop_Sort.v` | none |
| `C15_merge_sort_omp_completes` | `Prop_Sort.v` | none |
| `C16_radix_sort_tbb` | `Prop_Sort.v` | none |
| `C16_radix_sort_deterministic` | `Prop_Sort.v` | none |
| `C16_huge_array_refuted` | `Prop_Sort.v` | none |
| `C17_random_sampling` | `Prop_Sort.v` | none |
| `C18_voxelmap_consistent` | `Prop_Vmap.v` | none |
| `C18_points_in_their_voxel` | `Prop_Vmap.v` | N F E C |
| `C18_gaussian_mean_in_its_voxel` | `Prop_Vmap.v` | F E |
| `C18_inserts_complete` | `Prop_Vmap.v` | none |
| `C18_zero_clear_cycle_refuted` | `Prop_Vmap.v` | none |
| `C19_lru_policy` | `Prop_Vmap.v` | none |
| `C19_recent_voxels_kept` | `Prop_Vmap.v` | none |
| `C19_stale_voxels_removed` | `Prop_Vmap.v` | none |
| `C19_removed_only_when_stale` | `Prop_Vmap.v` | none |
| `C19_huge_horizon_refuted` | `Prop_Vmap.v` | none |
| `C20_container_capacity_and_spacing` | `Prop_Vmap.v` | none |
| `C20_voxels_of_the_map` | `Prop_Vmap.v` | N F E C |
| `C20_voxel_contents_from_history` | `Prop_Vmap.v` | none |
| `C21_gaussian_voxel_is_batch_mean` | `Prop_Vmap.v` | F E |
| `C21_batching_does_not_matter` | `Prop_Vmap.v` | F E |
| `C22_results_resolve` | `Prop_Vmap.v` | none |
| `C22_C23_point_voxels_f64` | `Prop_Vmap.v` | N F E C |
| `C22_searches_are_total` | `Prop_Vmap.v` | none |
| `C22_packed_index_splits` | `Prop_Vmap.v` | none |
| `C22_oversized_voxel_refuted` | `Prop_Vmap.v` | none |
| `C22_search_at_int_max_refuted` | `Prop_Vmap.v` | none |
| `C23_knn_exact_over_searched_voxels` | `Prop_Vmap.v` | none |
| `C23_modes_1_and_7_distinct` | `Prop_Vmap.v` | none |
| `C23_mode27_repeats_neighbours_refuted` | `Prop_Vmap.v` | none |
| `C24_point_voxels` | `Prop_Vmap.v` | F E |
| `C24_gaussian_voxels` | `Prop_Vmap.v` | F E |
| `C24_point_voxels_f64` | `Prop_Vmap.v` | N F E C |
| `C25_serial` | `Prop_Reduce.v` | none |
| `C25_omp` | `Prop_Reduce.v` | none |
| `C25_omp_error` | `Prop_Reduce.v` | none |
| `C25_tbb` | `Prop_Reduce.v` | none |
| `C25_reductions_agree` | `Prop_Reduce.v` | none |
| `C25_registration` | `Prop_Reduce.v` | N F E |
| `C25_omp_zero_threads_refuted` | `Prop_Reduce.v` | none |
| `C25_f64_bitwise_refuted` | `Prop_Reduce.v` | N F E C |
| `C26_lm_never_worse` | `Prop_Opt.v` | none |
| `C26_serial_f64` | `Prop_Opt.v` | N F E C |
| `C26_serial_huber_f64` | `Prop_Opt.v` | N F E C |
| `C26_serial_robust_real` | `Prop_Opt.v` | N F E |
| `C26_general_factor_refuted` | `Prop_Opt.v` | N F E C |
| `C27_lm` | `Prop_Opt.v` | none |
| `C27_gauss_newton` | `Prop_Opt.v` | none |
| `C27_always_returns` | `Prop_Opt.v` | none |
| `C27_iteration_count_refuted` | `Prop_Opt.v` | N F E C |
| `C28_linearize_matches_error` | `Prop_Opt.v` | none |
| `C28_robust_f64` | `Prop_Opt.v` | N F E C |
| `C28_robust_real` | `Prop_Opt.v` | N F E |
| `C29_factor` | `Prop_Factor.v` | N F E C |
| `C29_gauss_newton` | `Prop_Factor.v` | N F E C |
| `C29_whole_problem` | `Prop_Factor.v` | N F E C |
| `C30_unique` | `Prop_Factor.v` | N F E |
| `C30_descent` | `Prop_Factor.v` | N F E |
| `C30_solver_exists` | `Prop_Factor.v` | N F E |
| `C30_lm_steps` | `Prop_Factor.v` | N F E C |
| `C30_gn_steps` | `Prop_Factor.v` | N F E C |
| `C31_motion_well_defined` | `Prop_Lie.v` | N F E C |
| `C31_exponential` | `Prop_Lie.v` | N F E C |
| `C31_pure_translation` | `Prop_Lie.v` | N F E |
| `C31_close_to_exponential` | `Prop_Lie.v` | N F E C |
| `C31_nearly_rigid` | `Prop_Lie.v` | N F E |
| `C31_composed_rotation` | `Prop_Lie.v` | N F E |
| `C31_composed` | `Prop_Lie.v` | N F E |
| `C31_small_translation_refuted` | `Prop_Lie.v` | N F E C |
| `C32_weights` | `Prop_Factor.v` | N F E |
| `C32_estimated` | `Prop_Factor.v` | N F E |
| `C33_estimated_values` | `Prop_Est.v` | N F E |
| `C33_total` | `Prop_Est.v` | none |
| `C34_parallel_estimation` | `Prop_Est.v` | none |
| `C35_huber_weight` | `Prop_Robust.v` | N F E |
| `C35_cauchy_weight` | `Prop_Robust.v` | N F E |
| `C35_huber_error` | `Prop_Robust.v` | N F E |
| `C35_cauchy_error` | `Prop_Robust.v` | N F E |
| `C35_huber_in_doubles` | `Prop_RobustF64.v` | N F E C |
| `C35_cauchy_in_doubles` | `Prop_RobustF64.v` | N F E C |
| `C35_error_in_doubles` | `Prop_RobustF64.v` | N F E C |
| `C35_positive_in_doubles_refuted` | `Prop_RobustF64.v` | N F E C |
| `C35_infinite_error_refuted` | `Prop_RobustF64.v` | N F E C |
| `C36_rejected_never_contribute` | `Prop_Opt.v` | none |
| `C36_num_inliers_lm` | `Prop_Opt.v` | none |
| `C36_num_inliers_gn` | `Prop_Opt.v` | none |
| `C37_plane_error` | `Prop_Factor.v` | N F E |
| `C37_plane_distance_refuted` | `Prop_Factor.v` | N F E |
| `C38_disciplined_histories` | `Prop_Pcl.v` | N F E C |
| `C38_kept_data_is_of_the_current_cloud` | `Prop_Pcl.v` | N F E C |
| `C38_no_missing_tree` | `Prop_Pcl.v` | N F E C |
| `C38_refused_first_cloud_refuted` | `Prop_Pcl.v` | N F E C |
| `C38_new_resolution_refuted` | `Prop_Pcl.v` | N F E C |
| `C38_new_covariances_refuted` | `Prop_Pcl.v` | N F E C |
| `C38_new_neighbour_count_refuted` | `Prop_Pcl.v` | N F E C |
| `C38_changed_cloud_refuted` | `Prop_Pcl.v` | N F E C |
| `C39_threads_and_neighbours` | `Prop_Pcl.v` | N F E C |
| `C39_resolution_kept_positive` | `Prop_Pcl.v` | N F E C |
| `C39_resolution_refuted` | `Prop_Pcl.v` | N F E C |
| `C40_projective_search_best_in_window` | `Prop_Proj.v` | none |
| `C40_distinct_neighbours` | `Prop_Proj.v` | none |
| `C40_equirectangular_search_total` | `Prop_Proj.v` | N F E C |
| `C40_distinct_neighbours_refuted` | `Prop_Proj.v` | none |
| `C40_nearest_of_cloud_refuted` | `Prop_Proj.v` | none |
| `C40_seam_point_found_refuted` | `Prop_Proj.v` | N F E C |
| `C41_round_trip` | `Prop_Io.v` | none |
| `C41_any_file` | `Prop_Io.v` | none |
| `C41_failures` | `Prop_Io.v` | none |
| `C42_four_properties` | `Prop_Io.v` | none |
| `C42_three_properties` | `Prop_Io.v` | none |
| `C42_three_properties_with_more_data_refuted` | `Prop_Io.v` | none |
| `C42_many_properties_refuted` | `Prop_Io.v` | none |
| `C42_truncated_file_refuted` | `Prop_Io.v` | none |
| `C42_other_elements_refuted` | `Prop_Io.v` | none |
| `C42_no_properties_refuted` | `Prop_Io.v` | none |
| `C42_header_always_ends` | `Prop_Io.v` | none |
| `C42_other_types_rejected` | `Prop_Io.v` | none |
| `C43_point_types_honoured` | `Prop_Helper.v` | none |
| `C43_voxelmap_honoured_but_distance` | `Prop_Helper.v` | none |
| `C43_vectors_honoured` | `Prop_Helper.v` | none |
| `C43_thread_count` | `Prop_Helper.v` | N F E |
| `C43_voxelmap_thread_count` | `Prop_Helper.v` | N F E |
| `C43_invalid_type` | `Prop_Helper.v` | none |
| `C43_vgicp_distance_refuted` | `Prop_Helper.v` | N F E C |
| `C43_vgicp_with_tree_refuted` | `Prop_Helper.v` | none |
| `C43_downsampling_threads_refuted` | `Prop_Helper.v` | none |
| `C44_penalty_only` | `Prop_Factor.v` | N F E |
| `C44_restricted_motion` | `Prop_Factor.v` | N F E C |
| `C44_undamped_bound_refuted` | `Prop_Factor.v` | N F E |
| `C45_schedule_independent` | `Prop_Flow.v` | none |
| `C45_same_as_sequential` | `Prop_Flow.v` | none |
| `C45_no_races` | `Prop_Flow.v` | none |
| `C45_second_run_refuted` | `Prop_Flow.v` | none |
| `C46_positions_are_not_points_refuted` | `Prop_Vmap.v` | none |
| `C46_second_position_reads_out_of_range_refuted` | `Prop_Vmap.v` | none |
| `C46_point_indices_enumerate` | `Prop_Vmap.v` | none |
| `C47_axis` | `Prop_Axis.v` | none |
| `C47_normal` | `Prop_Axis.v` | none |
| `C47_largest_variance` | `Prop_Axis.v` | N F E |
| `C47_largest_variance_direction` | `Prop_Axis.v` | N F E |
| `C47_zero_count_refuted` | `Prop_Axis.v` | none |
| `C47_documented_limit_refuted` | `Prop_Axis.v` | none |
| `C48_lm_error_of_returned_pose` | `Prop_Opt.v` | none |
| `C48_gn_error_of_previous_pose` | `Prop_Opt.v` | none |
| `C48_gn_error_refuted` | `Prop_Opt.v` | N F E C |
| `C49_attributes_from_history` | `Prop_Cloud.v` | none |
| `C49_reads` | `Prop_Cloud.v` | none |
| `C49_has_means_nonempty` | `Prop_Cloud.v` | none |
| `C49_constructor` | `Prop_Cloud.v` | none |
| `C49_has_attributes_refuted` | `Prop_Cloud.v` | none |
| `C50_without_copies` | `Prop_Heap.v` | none |
| `C50_insert_in_any_program` | `Prop_Heap.v` | none |
| `C50_maps_stay_consistent` | `Prop_Heap.v` | none |
| `C50_copy_independent_refuted` | `Prop_Heap.v` | none |
| `C51_huber` | `Prop_Robust.v` | N F E C |
| `C51_cauchy` | `Prop_Robust.v` | N F E C |
| `C51_whole_problem_refuted` | `Prop_Robust.v` | N F E C |
| `C51_robust_hessian` | `Prop_Robust.v` | N F E C |
| `C52_register_total` | `Prop_Pipe.v` | N F E C |
| `C52_empty_target_refuted` | `Prop_Pipe.v` | N F E C |
| `C52_vgicp_nan_pose_refuted` | `Prop_Pipe.v` | N F E C |
| `C53_batch_nearest` | `Prop_PyTree.v` | N F E C |
| `C53_batch_knn` | `Prop_PyTree.v` | N F E C |
| `C53_batch_overflow_refuted` | `Prop_PyTree.v` | N F E C |
| `C53_zero_neighbours_refuted` | `Prop_PyTree.v` | N F E C |
| `C54_array_is_cloud` | `Prop_PyTree.v` | N F E C |
| `C54_same_answers` | `Prop_PyTree.v` | N F E C |
| `C54_weights_refuted` | `Prop_PyTree.v` | N F E C |
| `C55_arrays` | `Prop_PyReg.v` | N F E C |
| `C55_refused` | `Prop_PyReg.v` | N F E C |
| `C55_clouds` | `Prop_PyReg.v` | N F E C |
| `C55_voxelmap` | `Prop_PyReg.v` | N F E C |
| `C55_vgicp_distance_refuted` | `Prop_PyReg.v` | N F E C |
| `C55_foreign_tree_refuted` | `Prop_PyReg.v` | N F E C |
| `C56_estimation` | `Prop_PyReg.v` | N F E C |
| `C56_preprocess` | `Prop_PyReg.v` | N F E C |
| `C56_empty_preprocess_refuted` | `Prop_PyReg.v` | N F E C |
| `C56_views` | `Prop_PyReg.v` | N F E C |
| `C56_empty_views_refuted` | `Prop_PyReg.v` | N F E C |
| `C57_gicp_tracks` | `Prop_Odom.v` | N F E C |
| `C57_vgicp_tracks` | `Prop_Odom.v` | N F E C |
| `C57_gicp_model_tracks` | `Prop_Odom.v` | N F E C |
| `C57_vgicp_model_tracks` | `Prop_Odom.v` | N F E C |
| `C57_causal` | `Prop_Odom.v` | N F E C |
| `C57_model_distance_refuted` | `Prop_Odom.v` | N F E C |
| `C57_vgicp_threads_refuted` | `Prop_Odom.v` | N F E C |
| `C57_empty_frame_refuted` | `Prop_Odom.v` | N F E C |
| `C58_gauss_newton` | `Prop_Move.v` | N F E |
| `C58_levenberg_marquardt` | `Prop_Move.v` | N F E |
| `C58_robust` | `Prop_Move.v` | N F E |
| `C58_kdtree` | `Prop_Move.v` | N F E |
| `C58_plane_refuted` | `Prop_Move.v` | N F E |
| `C59_icp_never_worse` | `Prop_Fit.v` | N F E |
| `C59_icp_descends` | `Prop_Fit.v` | N F E |
| `C59_kdtree` | `Prop_Fit.v` | N F E |
| `C59_gicp_refuted` | `Prop_Fit.v` | N F E |
| `C60_levenberg_marquardt` | `Prop_Align.v` | N F E C |
| `C60_gauss_newton` | `Prop_Align.v` | N F E C |
| `C60_robust` | `Prop_Align.v` | N F E C |
| `C60_itself` | `Prop_Align.v` | N F E C |
| `C60_zero_error_is_alignment` | `Prop_Align.v` | N F E |
| `C60_kept_in_doubles` | `Prop_KeepF64.v` | N F E C |
| `C60_itself_in_doubles` | `Prop_KeepF64.v` | N F E C |
| `C60_exponential` | `Prop_Rigid.v` | N F E C |
| `C61_mean_std` | `Prop_Bench.v` | N F E |
| `C61_last` | `Prop_Bench.v` | none |
| `C61_equal_values_refuted` | `Prop_Bench.v` | N F E C |
| `C61_median_refuted` | `Prop_Bench.v` | none |
| `C61_storage_refuted` | `Prop_Bench.v` | none |
| `C62_options` | `Prop_Bench.v` | none |
| `C62_unknown_option` | `Prop_Bench.v` | none |
| `C62_missing_value_refuted` | `Prop_Bench.v` | none |
| `C62_distance_refuted` | `Prop_Bench.v` | none |
| `C62_stated_defaults_refuted` | `Prop_Bench.v` | none |
| `C62_registry` | `Prop_Bench.v` | none |
| `C62_registration_order` | `Prop_Bench.v` | none |
| `C63_frames` | `Prop_Kitti.v` | none |
| `C63_listing_order` | `Prop_Kitti.v` | none |
| `C63_numbers` | `Prop_Kitti.v` | N F E C |
| `C63_convert` | `Prop_Kitti.v` | N F E C |
| `C63_stored_scans` | `Prop_Kitti.v` | N F E C |
| `C63_numbered` | `Prop_Kitti.v` | none |
| `C63_unpadded_refuted` | `Prop_Kitti.v` | none |
| `C64_history` | `Prop_PclPoint.v` | N F E C |
| `C64_write_back` | `Prop_PclPoint.v` | N F E C |
| `C64_convert` | `Prop_PclPoint.v` | N F E C |
| `C64_error` | `Prop_PclPoint.v` | N F E C |
| `C64_covariances` | `Prop_PclPoint.v` | N F E C |
| `C64_attributes_refuted` | `Prop_PclPoint.v` | N F E C |
| `C65_history` | `Prop_PyFactor.v` | none |
| `C65_same_as_library` | `Prop_PyFactor.v` | none |
| `C65_rejected` | `Prop_PyFactor.v` | none |
| `C65_max_distance` | `Prop_PyFactor.v` | N F E |
| `C65_index_refuted` | `Prop_PyFactor.v` | none |
| `C65_reported_lm` | `Prop_PyFactor.v` | none |
| `C65_reported_gn` | `Prop_PyFactor.v` | none |
| `C65_reported_refuted` | `Prop_PyFactor.v` | N F E C |
| `C66_trajectory` | `Prop_OdomPcl.v` | N F E C |
| `C66_points` | `Prop_OdomPcl.v` | N F E C |
| `C66_refused_frames` | `Prop_OdomPcl.v` | N F E C |
| `C66_refused_refuted` | `Prop_OdomPcl.v` | N F E C |
| `C66_refused_start_refuted` | `Prop_OdomPcl.v` | N F E C |
| `C67_estimated` | `Prop_Turn.v` | N F E |
| `C67_turned_normals` | `Prop_Turn.v` | N F E |
| `C67_flipped_normals` | `Prop_Turn.v` | N F E |
| `C67_same_neighbours` | `Prop_Turn.v` | N F E |
| `C67_kdtree` | `Prop_Turn.v` | N F E |
| `C67_registration` | `Prop_Turn.v` | N F E |
| `C67_normals_refuted` | `Prop_Turn.v` | N F E |
| `C68_gauss_newton` | `Prop_Order.v` | N F E |
| `C68_levenberg_marquardt` | `Prop_Order.v` | N F E |
| `C68_robust` | `Prop_Order.v` | N F E |
| `C68_kdtree` | `Prop_Order.v` | N F E |
| `C68_rounding_refuted` | `Prop_Order.v` | N F E C |
| `C69_gauss_newton` | `Prop_Shift.v` | N F E C |
| `C69_damped_gauss_newton` | `Prop_Shift.v` | N F E C |
| `C69_levenberg_marquardt` | `Prop_Shift.v` | N F E C |
| `C69_exact_with_damping_refuted` | `Prop_Shift.v` | N F E C |
| `C69_kdtree` | `Prop_Shift.v` | N F E C |
| `C69_beyond_half_refuted` | `Prop_Shift.v` | N F E C |
| `C70_gauss_newton` | `Prop_Spin.v` | N F E C |
| `C70_levenberg_marquardt` | `Prop_Spin.v` | N F E C |
| `C70_robust` | `Prop_Spin.v` | N F E C |
| `C70_even_restriction` | `Prop_Spin.v` | N F E |
| `C70_restricted_axis_refuted` | `Prop_Spin.v` | N F E C |
| `C70_origin_refuted` | `Prop_Spin.v` | N F E C |
| `C71_kdtree_match` | `Prop_Nan.v` | N F E C |
| `C71_guess_returned` | `Prop_Nan.v` | N F E C |
| `C71_voxelmap_ignores` | `Prop_Nan.v` | N F E C |
| `C71_raw_points_dropped` | `Prop_Nan.v` | N F E C |
| `C71_parallel_downsampling_refuted` | `Prop_Nan.v` | N F E C |
| `C71_ignored_refuted` | `Prop_Nan.v` | N F E C |
| `C72_gauss_newton` | `Prop_Unit.v` | N F E C |
| `C72_levenberg_marquardt` | `Prop_Unit.v` | N F E C |
| `C72_robust` | `Prop_Unit.v` | N F E C |
| `C72_huber` | `Prop_Unit.v` | N F E |
| `C72_cauchy` | `Prop_Unit.v` | N F E |
| `C72_distance_rejector` | `Prop_Unit.v` | N F E |
| `C72_restricted_rotation` | `Prop_Unit.v` | N F E |
| `C72_restricted_translation` | `Prop_Unit.v` | N F E |
| `C72_searches` | `Prop_Unit.v` | N F E |
| `C72_kdtree` | `Prop_Unit.v` | N F E C |
| `C72_estimated` | `Prop_Unit.v` | N F E |
| `C72_same_neighbours` | `Prop_Unit.v` | N F E |
| `C72_damping_refuted` | `Prop_Unit.v` | N F E C |
| `C73_covariance` | `Prop_Flat.v` | N F E C |
| `C73_normals` | `Prop_Flat.v` | N F E C |
| `C73_anywhere_refuted` | `Prop_Flat.v` | N F E C |
| `C74_increment` | `Prop_Rigid.v` | N F E C |
| `C74_gauss_newton` | `Prop_Rigid.v` | N F E C |
| `C74_levenberg_marquardt` | `Prop_Rigid.v` | N F E C |
| `C74_align` | `Prop_Rigid.v` | N F E C |
| `C74_growth` | `Prop_Rigid.v` | F E |
| `C74_trajectory` | `Prop_Rigid.v` | N F E C |
| `C75_centroids` | `Prop_Fixed.v` | N F E C |
| `C75_settled` | `Prop_Fixed.v` | N F E C |
| `C75_twice` | `Prop_Fixed.v` | N F E C |
| `C75_order` | `Prop_Fixed.v` | N F E C |
| `C76_prediction` | `Prop_Energy.v` | N F E |
| `C76_lm_steps` | `Prop_Energy.v` | N F E |
| `C76_gn_steps` | `Prop_Energy.v` | N F E |
| `C76_lm_restricted` | `Prop_Energy.v` | N F E |
| `C76_gn_restricted` | `Prop_Energy.v` | N F E |
| `C76_attained` | `Prop_Energy.v` | N F E |
| `C77_search` | `Prop_Template.v` | none |
| `C77_nearest` | `Prop_Template.v` | none |
| `C77_own_normals` | `Prop_Template.v` | none |
| `C77_source_normals_refuted` | `Prop_Template.v` | none |
| `C77_traits` | `Prop_Template.v` | none |
| `C77_rejector_refuted` | `Prop_Template.v` | N F E |
| `C77_general_factor` | `Prop_Template.v` | N F E |
| `C77_roll_pitch` | `Prop_Template.v` | N F E |
| `C78_same_summands` | `Prop_Sum.v` | none |
| `C78_rounding` | `Prop_Sum.v` | N F E C |
| `C78_registration` | `Prop_Sum.v` | N F E C |
| `C78_error` | `Prop_Sum.v` | N F E C |
| `C79_normal_splitting` | `Prop_KdNear.v` | N F E C |
| `C79_nearest` | `Prop_KdNear.v` | N F E C |
| `C80_scan_to_scan` | `Prop_PyOdom.v` | N F E C |
| `C80_empty_frame_refuted` | `Prop_PyOdom.v` | N F E C |
| `C80_scan_to_model` | `Prop_PyOdom.v` | N F E C |
| `C80_gap_refuted` | `Prop_PyOdom.v` | N F E C |
| `C81_statistics` | `Prop_GaussF64.v` | N F E C |
| `C81_batching` | `Prop_GaussF64.v` | N F E C |
| `C81_batching_refuted` | `Prop_GaussF64.v` | N F E C |
| `C82_translation` | `Prop_Trans.v` | N F E C |
| `C82_every_angle` | `Prop_Trans.v` | N F E C |
| `C82_digits_refuted` | `Prop_Trans.v` | N F E C |
| `C83_wider` | `Prop_Limit.v` | N F E C |
| `C83_unlimited` | `Prop_Limit.v` | N F E C |
| `C83_sign` | `Prop_Limit.v` | N F E C |
| `C84_distances` | `Prop_Rebuild.v` | N F E C |
| `C84_no_ties` | `Prop_Rebuild.v` | N F E C |
| `C84_ties_refuted` | `Prop_Rebuild.v` | N F E C |
