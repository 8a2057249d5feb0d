{"id": "C01", "title": "KdTree k-nearest-neighbour search is exact in IEEE double arithmetic", "statement": "For a KdTree built over any non-empty cloud of finite points, knn_search(query,k) with the default setting returns distinct valid point indices, each reported distance is exactly the double squared distance of that point to the query, the distances are ascending, every point that is not returned is at least as far as every returned one, and the number returned is min(k, number of points whose squared distance is below DBL_MAX).", "quantifier": "every finite-coordinate cloud, every finite query, every k >= 1, every leaf size >= 3, every evaluation order of the squared norm, every conforming nth_element", "why_tests_cant": "pruning uses a rounded squared plane distance against rounded squared point distances; whether rounding can prune a true neighbour is a question about all doubles and all tree shapes", "anchors": ["include/small_gicp/ann/kdtree.hpp:UnsafeKdTree::knn_search", "include/small_gicp/ann/kdtree.hpp:KdTreeBuilder::create_node", "include/small_gicp/ann/knn_result.hpp:KnnResult", "include/small_gicp/ann/projection.hpp:AxisAlignedProjection"]}
{"id": "C02", "title": "nearest_neighbor_search agrees with knn_search", "statement": "nearest_neighbor_search(query) reports a point at the minimum squared distance and returns 1 (0 only if no point is closer than DBL_MAX); it is the same answer as the first row of knn_search with any k.", "quantifier": "every cloud, query, k", "why_tests_cant": "agreement has to hold on ties and for every tree shape, which a finite set of clouds cannot exhaust", "anchors": ["include/small_gicp/ann/kdtree.hpp:UnsafeKdTree::nearest_neighbor_search", "include/small_gicp/ann/traits.hpp:nearest_neighbor_search"]}
{"id": "C03", "title": "Early-termination (epsilon) searches degrade only as documented", "statement": "With an epsilon setting the search either returns the exact k nearest neighbours or it returns k genuine points of the cloud all of which have squared distance below epsilon; a non-positive epsilon never terminates early.", "quantifier": "every cloud, query, k, epsilon", "why_tests_cant": "the early exit unwinds through every depth of the recursion and interacts with pruning", "anchors": ["include/small_gicp/ann/knn_result.hpp:KnnSetting::fulfilled", "include/small_gicp/ann/kdtree.hpp:UnsafeKdTree::knn_search"]}
{"id": "C04", "title": "The neighbour result container keeps the k best candidates, first-come on ties", "statement": "After any sequence of candidate pushes the container holds exactly the first min(k,n) candidates of the sequence stably sorted by distance (candidates at or beyond DBL_MAX are never kept); unused slots keep the invalid index and DBL_MAX.", "quantifier": "every push sequence, every capacity", "why_tests_cant": "the invariant is over all histories of pushes including ties and overflow of the capacity", "anchors": ["include/small_gicp/ann/knn_result.hpp:KnnResult::push"]}
{"id": "C05", "title": "KdTree construction terminates, stays inside its node buffer and covers every point exactly once", "statement": "Building a KdTree over a non-empty cloud with a leaf size of at least 3 terminates, never writes outside the node buffer it allocated, and stores each point index in exactly one leaf, and no leaf is empty.  (For leaf size 1 or 2 the buffer can be overrun and for leaf size 0 construction does not terminate; searching a tree built over an empty cloud is undefined behaviour.)", "quantifier": "every cloud size and every max_leaf_size", "why_tests_cant": "buffer sufficiency is an inequality over all sizes N and all recursive halvings", "anchors": ["include/small_gicp/ann/kdtree.hpp:KdTreeBuilder", "include/small_gicp/ann/kdtree.hpp:UnsafeKdTree"]}
{"id": "C06", "title": "Parallel KdTree builders answer every query exactly like the sequential builder", "statement": "Whatever order the OpenMP tasks / TBB tasks of the parallel builders run in, the build never gets stuck, uses every node id at most once, stays in the node buffer, and the resulting tree returns the same result as the sequentially built tree for every query.", "quantifier": "every interleaving of task steps, every cloud, every query", "why_tests_cant": "thread schedules cannot be enumerated by tests", "anchors": ["include/small_gicp/ann/kdtree_omp.hpp:KdTreeBuilderOMP", "include/small_gicp/ann/kdtree_tbb.hpp:KdTreeBuilderTBB"]}
{"id": "C07", "title": "KdTree with normal-direction splitting is exact (real arithmetic)", "statement": "With NormalProjection whose split direction has length at most one, knn_search returns the exact k nearest neighbours in real arithmetic.", "quantifier": "every cloud, query, k, every direction of norm <= 1", "why_tests_cant": "pruning correctness is a Cauchy-Schwarz argument over all directions", "anchors": ["include/small_gicp/ann/projection.hpp:NormalProjection", "include/small_gicp/ann/kdtree.hpp:UnsafeKdTree::knn_search"]}
{"id": "C08", "title": "fast_floor is the mathematical floor", "statement": "For every double whose floor fits in an int, fast_floor returns its mathematical floor; outside that range the conversion is undefined.", "quantifier": "every finite double", "why_tests_cant": "2^64 inputs; negative integers and the int limits are the edge cases", "anchors": ["include/small_gicp/util/fast_floor.hpp:fast_floor"]}
{"id": "C09", "title": "voxelgrid_sampling returns exactly one centroid per occupied voxel", "statement": "If at least one point is inside the coordinate range, the output has exactly one point per occupied voxel, it is the mean of the in-range points of that voxel, voxels are in ascending key order, and input order does not matter. Sampling the output again with the same leaf size changes nothing (over the reals; in doubles a rounded mean can leave its voxel, and a second pass then merges points).", "quantifier": "every input cloud, every leaf size for which coordinates fit, every conforming std::sort", "why_tests_cant": "must hold for every assignment of points to voxels and for every order std::sort leaves equal keys in", "anchors": ["include/small_gicp/util/downsampling.hpp:voxelgrid_sampling"]}
{"id": "C10", "title": "voxelgrid_sampling ignores out-of-range points", "statement": "Points outside the documented coordinate range never influence the output. (Holds when some point is in range; false when every point is out of range: one out-of-range point is returned. Also a leaf size below about 9.54e-7 makes every point out of range through the homogeneous coordinate.)", "quantifier": "every input cloud", "why_tests_cant": "the failure needs an input with no valid point at all", "anchors": ["include/small_gicp/util/downsampling.hpp:voxelgrid_sampling"]}
{"id": "C11", "title": "Voxel keys never collide", "statement": "Two in-range points get the same 63-bit key iff they are in the same voxel, and no in-range point gets the key reserved for out-of-range points.", "quantifier": "every pair of points", "why_tests_cant": "injectivity of a bit packing over 2^63 keys", "anchors": ["include/small_gicp/util/downsampling.hpp:voxelgrid_sampling", "include/small_gicp/util/downsampling_omp.hpp:voxelgrid_sampling_omp", "include/small_gicp/util/downsampling_tbb.hpp:voxelgrid_sampling_tbb"]}
{"id": "C12", "title": "Parallel voxel grid sampling: every output is a same-voxel mean, all in-range points are represented once, bounded surplus", "statement": "For every schedule and every splitting of the index range into blocks, the outputs of voxelgrid_sampling_omp/_tbb are means of disjoint groups of points, every group lies inside one voxel, every in-range point is in exactly one group, and there are at most (number of blocks - 1) more outputs than voxels. (Out-of-range points are ignored only if no block starts among them: refuted otherwise.)", "quantifier": "every cloud, every partition into ranges, every order of blocks", "why_tests_cant": "schedules and block boundaries relative to voxel runs cannot be enumerated", "anchors": ["include/small_gicp/util/downsampling_omp.hpp:voxelgrid_sampling_omp", "include/small_gicp/util/downsampling_tbb.hpp:voxelgrid_sampling_tbb"]}
{"id": "C13", "title": "Concurrent output collection loses nothing", "statement": "With any interleaving of the atomic slot reservation and the writes of all blocks, the output array contains each block's sub-points exactly once, no slot is written twice, no slot of the result is left unwritten and no write is out of bounds.", "quantifier": "every interleaving of any number of workers", "why_tests_cant": "race outcomes are schedule dependent", "anchors": ["include/small_gicp/util/downsampling_omp.hpp:voxelgrid_sampling_omp", "include/small_gicp/util/downsampling_tbb.hpp:voxelgrid_sampling_tbb"]}
{"id": "C14", "title": "quick_sort_omp sorts", "statement": "quick_sort_omp leaves the range as a sorted permutation of its input and terminates, for every order in which its tasks run.", "quantifier": "every array, every strict weak order, every task schedule, every conforming std::sort / std::partition", "why_tests_cant": "pivot selection, empty partitions and task order are unbounded", "anchors": ["include/small_gicp/util/sort_omp.hpp:quick_sort_omp"]}
{"id": "C15", "title": "merge_sort_omp sorts", "statement": "merge_sort_omp leaves the range as a sorted permutation of its input for every task order.", "quantifier": "every array, every strict weak order, conforming std::sort / std::inplace_merge", "why_tests_cant": "unbounded sizes and schedules", "anchors": ["include/small_gicp/util/sort_omp.hpp:merge_sort_omp"]}
{"id": "C16", "title": "radix_sort_tbb is a stable sort by key", "statement": "radix_sort_tbb produces the stable sort of the input by the (unsigned) key, for every key width, digit width, tile size and every order in which tiles are processed.", "quantifier": "every array, key width, bits, tile size, schedule", "why_tests_cant": "the offset arithmetic must be right for every histogram shape", "anchors": ["include/small_gicp/util/sort_tbb.hpp:radix_sort_tbb"]}
{"id": "C17", "title": "random_sampling returns a subset of the requested size", "statement": "random_sampling returns min(num_samples, size) points at distinct input positions in input order, together with nothing else; for an empty cloud it returns an empty cloud.", "quantifier": "every cloud, requested size and random stream", "why_tests_cant": "random streams cannot be enumerated", "anchors": ["include/small_gicp/util/downsampling.hpp:random_sampling"]}
{"id": "C18", "title": "Incremental voxel map stays consistent over any insertion history", "statement": "After any sequence of insert calls, voxels have pairwise distinct coordinates, looking up a voxel coordinate finds exactly the voxel with that coordinate and every stored point lies in the voxel that contains it.", "quantifier": "every history of inserts with any clouds, poses and LRU parameters", "why_tests_cant": "histories with eviction and index rebuild are unbounded", "anchors": ["include/small_gicp/ann/incremental_voxelmap.hpp:IncrementalVoxelMap::insert"]}
{"id": "C19", "title": "LRU eviction policy", "statement": "A voxel is only removed at a clear cycle and only when it has not received points for more than lru_horizon inserts; at a clear cycle every such voxel is removed. Voxels touched within the horizon are never lost.", "quantifier": "every history of inserts, every horizon and clear cycle >= 1", "why_tests_cant": "depends on the whole insertion history", "anchors": ["include/small_gicp/ann/incremental_voxelmap.hpp:IncrementalVoxelMap::insert"]}
{"id": "C20", "title": "Point voxels respect capacity and minimum spacing", "statement": "A FlatContainer voxel never holds more than max_num_points_in_cell points, any two stored points are at least the minimum squared distance apart, and an offered point is dropped only if the voxel is full or a stored point is closer than the minimum; point, normal and covariance arrays keep equal length.", "quantifier": "every sequence of offered points", "why_tests_cant": "unbounded insertion histories", "anchors": ["include/small_gicp/ann/flat_container.hpp:FlatContainer::add"]}
{"id": "C21", "title": "Gaussian voxel statistics equal the batch mean, however insertions are batched", "statement": "The mean and covariance of a Gaussian voxel equal the average of all transformed points/covariances inserted since the voxel was created, independent of how they were split into insert calls (exact arithmetic).", "quantifier": "every history of inserts", "why_tests_cant": "repeated un-normalise / re-normalise over unbounded histories", "anchors": ["include/small_gicp/ann/gaussian_voxelmap.hpp:GaussianVoxel::add", "include/small_gicp/ann/gaussian_voxelmap.hpp:GaussianVoxel::finalize"]}
{"id": "C22", "title": "Voxel map search results resolve to the reported point", "statement": "Every (index, distance) returned by a voxel-map search names an existing stored point and the distance is that point's squared distance; the packed index splits back into the same voxel and point numbers.", "quantifier": "every map state, query, offset mode, sizes below 2^32", "why_tests_cant": "all map states reachable by all histories", "anchors": ["include/small_gicp/ann/incremental_voxelmap.hpp:calc_index", "include/small_gicp/ann/incremental_voxelmap.hpp:IncrementalVoxelMap::nearest_neighbor_search", "include/small_gicp/ann/incremental_voxelmap.hpp:IncrementalVoxelMap::knn_search"]}
{"id": "C23", "title": "Voxel map kNN returns distinct neighbours, exact over the searched voxels", "statement": "knn_search on a voxel map returns the k nearest of the points in the searched neighbour voxels, each at most once. (True for 1 and 7 neighbour modes; false for the 27 mode as shipped because the centre voxel is searched twice.)", "quantifier": "every map state, query and k", "why_tests_cant": "the duplicate appears only for k >= 2 in one mode", "anchors": ["include/small_gicp/ann/incremental_voxelmap.hpp:IncrementalVoxelMap::set_search_offsets", "include/small_gicp/ann/incremental_voxelmap.hpp:IncrementalVoxelMap::knn_search"]}
{"id": "C24", "title": "27-neighbourhood search finds the true nearest neighbour within one leaf size", "statement": "With 27 search offsets, any stored point within distance leaf_size of the query is considered, so the reported nearest neighbour is the global nearest whenever the global nearest is within leaf_size.", "quantifier": "every map state and query (real arithmetic)", "why_tests_cant": "geometric statement over all positions", "anchors": ["include/small_gicp/ann/incremental_voxelmap.hpp:IncrementalVoxelMap::nearest_neighbor_search"]}
{"id": "C25", "title": "All reductions compute the same normal equations", "statement": "Serial, OpenMP and TBB reductions return the same (H, b, e), namely the sum over accepted factors, for every number of threads, every assignment of factors to threads and every splitting of the range (exact arithmetic); every factor is linearised exactly once.", "quantifier": "every factor list, schedule, thread count >= 1", "why_tests_cant": "schedules and splits are unbounded", "anchors": ["include/small_gicp/registration/reduction.hpp:SerialReduction", "include/small_gicp/registration/reduction_omp.hpp:ParallelReductionOMP", "include/small_gicp/registration/reduction_tbb.hpp:ParallelReductionTBB"]}
{"id": "C26", "title": "Levenberg-Marquardt never accepts a worse pose", "statement": "Every pose accepted by the LM optimizer has total error (point factors plus general factor) not larger than the previous pose for the same correspondences. (True for general factors that add no error; false in general because the general factor's error is added to the old error instead of the new one.)", "quantifier": "every problem, every general factor, every inner loop outcome", "why_tests_cant": "depends on arbitrary error functions and solver outputs", "anchors": ["include/small_gicp/registration/optimizer.hpp:LevenbergMarquardtOptimizer::optimize", "include/small_gicp/registration/general_factor.hpp"]}
{"id": "C27", "title": "Optimizers terminate and report faithfully", "statement": "Both optimizers perform at most max_iterations linearisations, report converged only if the last step was below both thresholds, return the initial pose untouched when max_iterations is 0, and the reported iteration number relates to the number of linearisations performed. (The reported number is one less than the number performed.)", "quantifier": "every problem, settings and solver outputs", "why_tests_cant": "loop behaviour over all solver outputs", "anchors": ["include/small_gicp/registration/optimizer.hpp:GaussNewtonOptimizer::optimize", "include/small_gicp/registration/optimizer.hpp:LevenbergMarquardtOptimizer::optimize", "include/small_gicp/registration/registration_result.hpp", "include/small_gicp/registration/termination_criteria.hpp"]}
{"id": "C28", "title": "Linearisation error and re-evaluated error agree", "statement": "For ICP, plane-ICP, GICP and robust factors, the error returned by linearize equals the error returned by error() at the same pose; a factor with no accepted correspondence contributes zero and is not an inlier.", "quantifier": "every pose, point pair, covariance, normal", "why_tests_cant": "equality over all real inputs", "anchors": ["include/small_gicp/factors/icp_factor.hpp", "include/small_gicp/factors/plane_icp_factor.hpp", "include/small_gicp/factors/gicp_factor.hpp", "include/small_gicp/factors/robust_kernel.hpp"]}
{"id": "C29", "title": "Per-factor Hessians are symmetric positive semidefinite and b is the gradient", "statement": "Each factor's H is symmetric PSD and b is the exact derivative of its error with respect to a right perturbation of the pose (ICP and plane-ICP; GICP with fixed weight matrix).", "quantifier": "every pose and input (real arithmetic)", "why_tests_cant": "derivative and PSD claims are about all reals", "anchors": ["include/small_gicp/factors/icp_factor.hpp", "include/small_gicp/factors/plane_icp_factor.hpp", "include/small_gicp/factors/gicp_factor.hpp"]}
{"id": "C30", "title": "Damped normal equations are well posed and give a descent direction", "statement": "For lambda > 0 the damped system has at most one solution, and a solution delta satisfies b.delta < 0 unless b = 0.", "quantifier": "every H PSD, b, lambda > 0", "why_tests_cant": "statement about all PSD matrices", "anchors": ["include/small_gicp/registration/optimizer.hpp"]}
{"id": "C31", "title": "Pose updates are rigid transformations", "statement": "In exact arithmetic the pose increment is a rotation (orthonormal, determinant 1) whenever the rotation angle is not in the small-angle branch, the rotation and translation match the closed form exponential, and in the small-angle branch the deviation from orthonormality is bounded; composing increments keeps the pose rigid.", "quantifier": "every twist", "why_tests_cant": "all real twists and any number of compositions", "anchors": ["include/small_gicp/util/lie.hpp:so3_exp", "include/small_gicp/util/lie.hpp:se3_exp"]}
{"id": "C32", "title": "GICP weight matrices are well defined for estimated covariances", "statement": "For covariances produced by the estimators (or the invalid fallback) the fused covariance is symmetric positive definite for every rigid pose, so its inverse exists and the GICP error is non-negative and zero only at zero residual.", "quantifier": "every pair of estimated covariances and rigid pose", "why_tests_cant": "positive definiteness over all orthonormal frames and poses", "anchors": ["include/small_gicp/factors/gicp_factor.hpp:GICPFactor::linearize", "include/small_gicp/util/normal_estimation.hpp:CovarianceSetter"]}
{"id": "C33", "title": "Estimated normals are oriented towards the sensor and degenerate neighbourhoods are flagged", "statement": "Each estimated normal satisfies point . normal <= 0, has the eigenvector's length (one), is the direction of least variance of the neighbours, and a point with fewer than five neighbours gets the documented invalid value; covariances are plane-regularised with eigenvalues (1e-3,1,1).", "quantifier": "every cloud", "why_tests_cant": "sign choice over all eigen-solver outputs", "anchors": ["include/small_gicp/util/normal_estimation.hpp"]}
{"id": "C34", "title": "Parallel normal/covariance estimation equals the serial one", "statement": "estimate_*_omp/_tbb write for every point the same value as the serial version, for every schedule.", "quantifier": "every cloud and every interleaving of per-point writes", "why_tests_cant": "schedules", "anchors": ["include/small_gicp/util/normal_estimation_omp.hpp", "include/small_gicp/util/normal_estimation_tbb.hpp", "include/small_gicp/util/normal_estimation.hpp"]}
{"id": "C35", "title": "Robust kernels down-weight monotonically and bound the loss", "statement": "Huber and Cauchy weights are in (0,1], non-increasing in |e|; the robustified error is non-decreasing in the raw error and never exceeds it; Cauchy's robustified error stays below its width. In doubles the weights stay finite, in [0,1] and non-increasing for every residual that is not NaN, but they can reach zero, and an infinite raw error then becomes NaN.", "quantifier": "every residual and positive width", "why_tests_cant": "real analysis over all residuals", "anchors": ["include/small_gicp/factors/robust_kernel.hpp"]}
{"id": "C36", "title": "Rejected correspondences never contribute", "statement": "With DistanceRejector no factor whose correspondence is farther than max_dist contributes to H, b, e or the inlier count; num_inliers equals the number of factors that contributed to the last linearisation.", "quantifier": "every cloud pair and pose", "why_tests_cant": "all inputs and iterations", "anchors": ["include/small_gicp/registration/rejector.hpp", "include/small_gicp/registration/optimizer.hpp", "include/small_gicp/factors/icp_factor.hpp"]}
{"id": "C37", "title": "Point-to-plane factor minimises the point-to-plane distance", "statement": "The plane-ICP error equals half the squared point-to-plane distance. (Refuted: it is half the sum of squared componentwise products; equal for axis-aligned normals, and never smaller than a third of the point-to-plane error.)", "quantifier": "every residual and unit normal", "why_tests_cant": "algebraic identity over all reals", "anchors": ["include/small_gicp/factors/plane_icp_factor.hpp"]}
{"id": "C38", "title": "RegistrationPCL never uses caches that belong to other inputs", "statement": "After any sequence of public calls, align returns what it would return if the search trees, covariances and voxel maps were computed anew from the clouds, covariances and parameters currently set. (Proved for every history that does not change the neighbour count, the voxel resolution or a cloud's covariances after an align used them and does not modify a set cloud in place; refuted for each of these four. In every history without in-place changes the kept data belongs to the current clouds.)", "quantifier": "every sequence of public calls", "why_tests_cant": "all API histories", "anchors": ["include/small_gicp/pcl/pcl_registration_impl.hpp"]}
{"id": "C39", "title": "RegistrationPCL setters leave valid parameters", "statement": "Thread count stays >= 1, neighbour count stays >= 5 and voxel resolution stays > 0 after any sequence of setter calls. (Refuted for the voxel resolution.)", "quantifier": "every sequence of setter calls", "why_tests_cant": "all API histories", "anchors": ["include/small_gicp/pcl/pcl_registration_impl.hpp"]}
{"id": "C40", "title": "Projective search stays inside the image and returns genuine neighbours", "statement": "Projective search never reads outside the index image, each returned index is a valid point index with its true distance and is the best among the searched window; neighbours are distinct when the image is at least as wide/high as the window. (Refuted for narrower images with wrap-around. Also refuted: that the nearest point of the whole cloud is found, and that a point straight behind the origin can be found at all.)", "quantifier": "every image size, window, border mode and query pixel", "why_tests_cant": "border arithmetic over all sizes", "anchors": ["include/small_gicp/ann/projective_search.hpp"]}
{"id": "C41", "title": "Raw point files round trip", "statement": "read_points(write_points(points)) returns the same points with the homogeneous coordinate forced to one; partial trailing records are ignored.", "quantifier": "every point list / every byte string", "why_tests_cant": "all byte strings", "anchors": ["include/small_gicp/benchmark/read_points.hpp:read_points", "include/small_gicp/benchmark/read_points.hpp:write_points"]}
{"id": "C42", "title": "read_ply returns every vertex of a binary PLY", "statement": "read_ply returns the x,y,z of every vertex. (True only for 4 float properties per vertex; refuted for 3+extra data (buffer overrun) and for more than 4 properties (trailing vertices missing).)", "quantifier": "every file", "why_tests_cant": "all property counts and payload sizes", "anchors": ["include/small_gicp/benchmark/read_points.hpp:read_ply"]}
{"id": "C43", "title": "Registration settings are honoured by every registration type", "statement": "align() uses the configured max_correspondence_distance, thread count, thresholds and init pose for every registration type. (Refuted for VGICP: the distance is ignored; and VGICP with a KdTree returns the identity instead of the initial pose.)", "quantifier": "every setting", "why_tests_cant": "interaction of all settings with all types", "anchors": ["src/small_gicp/registration/registration_helper.cpp"]}
{"id": "C44", "title": "RestrictDoFFactor only adds a diagonal penalty on restricted axes", "statement": "RestrictDoFFactor leaves b and e unchanged, adds lambda only on the diagonal entries of masked-out axes, preserves symmetry and PSD, and with optimizer damping mu > 0 the squared motion on restricted axes is at most |b|^2/(4 lambda mu). (A bound |b|/lambda independent of the damping is refuted.)", "quantifier": "every mask in {0,1}^6, lambda >= 0, H PSD", "why_tests_cant": "all real matrices", "anchors": ["include/small_gicp/factors/general_factor.hpp:RestrictDoFFactor"]}
{"id": "C45", "title": "Flow-graph odometry output does not depend on scheduling", "statement": "The TBB flow-graph odometry yields the same trajectory, in frame order, for every scheduling of its parallel nodes. (The first frame of a second run is refuted: it is registered against the previous run's last frame.)", "quantifier": "every schedule and number of frames", "why_tests_cant": "schedules", "anchors": ["src/benchmark/odometry_benchmark_small_gicp_tbb_flow.cpp"]}
{"id": "C46", "title": "A voxel map can be used as a point cloud", "statement": "Iterating indices 0..size-1 of an incremental voxel map enumerates its stored points. (Refuted: size counts voxels and the indices are packed.)", "quantifier": "every map", "why_tests_cant": "needs maps with more than one voxel", "anchors": ["include/small_gicp/ann/incremental_voxelmap.hpp:traits::Traits<IncrementalVoxelMap>"]}
{"id": "C47", "title": "Split-axis selection samples valid points only", "statement": "Choosing a split axis reads only points of the range, at least one and fewer than twice max_scan_count of them, and always yields an axis in {0,1,2}; max_scan_count 0 is a division by zero.", "quantifier": "every range length and max_scan_count", "why_tests_cant": "integer arithmetic over all sizes and the int/size_t conversion", "anchors": ["include/small_gicp/ann/projection.hpp:AxisAlignedProjection::find_axis"]}
{"id": "C48", "title": "The reported error is the error of the returned pose", "statement": "RegistrationResult::error is the summed factor error at T_target_source for the correspondences of the last linearisation. (Holds for Levenberg-Marquardt with a general factor that adds no error; refuted for Gauss-Newton, which reports the error of the pose before its last step.)", "quantifier": "every problem, settings and solver outputs", "why_tests_cant": "needs the error re-evaluated at the returned pose for every run", "anchors": ["include/small_gicp/registration/optimizer.hpp:GaussNewtonOptimizer::optimize", "include/small_gicp/registration/optimizer.hpp:LevenbergMarquardtOptimizer::optimize"]}
{"id": "C49", "title": "Cloud attributes are exactly what the history of calls set, and has_* tells whether they were", "statement": "After any history of resizes and element assignments, points, normals and covariances have one common length, and every read yields the last value set since the element came into existence. has_normals(cloud) / has_covs(cloud) are true only for clouds whose normals / covariances were set. (The last sentence is refuted: resize allocates both attributes, so every non-empty cloud built from points reports them, with unset values.)", "quantifier": "every history of cloud operations", "why_tests_cant": "depends on the whole history of the cloud, not on one call", "anchors": ["include/small_gicp/points/point_cloud.hpp:PointCloud::resize", "include/small_gicp/points/point_cloud.hpp:Traits<PointCloud>::has_normals", "include/small_gicp/points/traits.hpp:has_normals"]}
{"id": "C50", "title": "A copied voxel map is independent of the original", "statement": "Inserting into a copy of an incremental voxel map leaves the original's voxels and search results unchanged. (Refuted: the copy shares its voxels with the original, so insertions into existing voxels show up in both, while new voxels show up in one.)", "quantifier": "every map, copy and insertion history", "why_tests_cant": "aliasing over every history of two maps", "anchors": ["include/small_gicp/ann/incremental_voxelmap.hpp:IncrementalVoxelMap::flat_voxels"]}
{"id": "C51", "title": "Robust factors minimise the robustified error", "statement": "The vector b a robust factor contributes is the gradient of its robustified error, and -b summed over a problem is a descent direction of the summed robustified error. (Refuted: b is the gradient only inside Huber's width; outside it is twice the gradient, for Cauchy it is the gradient divided by the weight; summed, -b can be an ascent direction.)", "quantifier": "every factor kind, kernel, cloud pair and pose", "why_tests_cant": "a statement about derivatives at every pose", "anchors": ["include/small_gicp/factors/robust_kernel.hpp:RobustFactor::linearize", "include/small_gicp/factors/robust_kernel.hpp:RobustFactor::error"]}
{"id": "C52", "title": "Registering two vectors of raw points never faults and honours the settings", "statement": "align(target, source, init_T, setting) on vectors of points always returns: for every registration type, whatever the linear solver, the eigen-solver, the initial pose and the schedules do. The clouds it registers summarise the raw points voxel by voxel with a normal and a covariance for every point, correspondences are nearest points of the target, and the settings are honoured. (Needs some points inside the voxel grid, all of them with several threads; refuted for an empty target, whose missing tree is searched, and by the C++ standard for VGICP from a pose with NaN.)", "quantifier": "every pair of point vectors, setting, initial pose, solver output and schedule", "why_tests_cant": "the composition of all stages over every input and schedule, including poses that overflow", "anchors": ["src/small_gicp/registration/registration_helper.cpp:align", "src/small_gicp/registration/registration_helper.cpp:preprocess_points", "include/small_gicp/util/downsampling_omp.hpp:voxelgrid_sampling_omp", "include/small_gicp/ann/kdtree.hpp:UnsafeKdTree::knn_search"]}
{"id": "C53", "title": "Python batch searches equal the single searches, row by row", "statement": "KdTree(points) followed by batch_nearest_neighbor_search / batch_knn_search gives in row i exactly what nearest_neighbor_search / knn_search gives for query i, with any number of threads and any schedule of the build and of the search; for finite queries that is the exact nearest neighbour(s), padded with index -1 and the largest double. (Refuted for batch_knn_search once (rows - 1) * k reaches 2^31: the offset is computed in int and overflows. knn_search with k = 0 ends the process instead of raising an exception.)", "quantifier": "every array, query array, k, thread schedule of the build and of the search", "why_tests_cant": "schedules and padding cannot be enumerated, and the overflow needs result arrays of many gigabytes", "anchors": ["src/python/kdtree.cpp:batch_nearest_neighbor_search", "src/python/kdtree.cpp:batch_knn_search", "src/python/kdtree.cpp:knn_search", "include/small_gicp/ann/kdtree_omp.hpp:KdTreeBuilderOMP"]}
{"id": "C54", "title": "A numpy array means the same points in every Python entry point", "statement": "For an (N,3) array, or an (N,4) array with ones in the last column, KdTree(array), voxelgrid_sampling(array) and preprocess_points(array) have exactly the outcomes they have for PointCloud(array), PointCloud(array).points() gives the rows back, and trees built either way on any schedule answer alike. (Refuted for other last columns: KdTree(array) drops them, PointCloud(array) keeps them and lets them take part in distances, so the same array has different nearest neighbours.)", "quantifier": "every array, query, schedule, resolution and thread count", "why_tests_cant": "relates four entry points for every array", "anchors": ["src/python/kdtree.cpp:KdTree", "src/python/pointcloud.cpp:PointCloud", "src/python/preprocess.cpp:voxelgrid_sampling", "src/python/preprocess.cpp:preprocess_points", "include/small_gicp/points/eigen.hpp:Traits<Eigen::MatrixXd>"]}
{"id": "C55", "title": "Python align always returns, and the tree passed to it makes no difference", "statement": "align() on arrays always returns and honours the settings for every registration type; on clouds the result is the same whether a tree of the target is passed or not, however that tree was built; on a voxel map it honours the distance after any history of insertions. Arrays of another shape and unknown type names give the identity, unconverged. (Refuted: with arrays and VGICP max_correspondence_distance has no effect; a tree of another, larger cloud is not detected and reads out of range.)", "quantifier": "every array or cloud pair, tree, schedule, insertion history, pose and setting", "why_tests_cant": "equality over all schedules of the tree build and all histories of a map", "anchors": ["src/python/align.cpp:align"]}
{"id": "C56", "title": "Python preprocessing and views: one result on every schedule, nothing lost", "statement": "estimate_normals / covariances give one result for all thread counts and schedules, with or without a tree passed; preprocess_points returns a voxel-wise summary of the points with all attributes and a tree of exactly those points; points(), normals() and voxel_points() show every element, and a cloud made from points() has the same points. (Refuted: points(), normals() and voxel_points() of an empty object form the address of a missing element; preprocess_points of an empty array returns a tree whose search is undefined, where an empty cloud is refused.)", "quantifier": "every cloud, k, tree, thread count and schedule", "why_tests_cant": "equality over all schedules and thread counts", "anchors": ["src/python/preprocess.cpp:estimate_normals", "src/python/preprocess.cpp:preprocess_points", "src/python/pointcloud.cpp:points", "src/python/voxelmap.cpp:voxel_points"]}
{"id": "C57", "title": "The odometry classes track every sequence of frames, on one trajectory", "statement": "For any sequence of frames the parallel odometry classes (GICP and VGICP, scan to scan and scan to model) give exactly one trajectory whatever the schedules: the identity first, then each pose is the pose before composed with the registration of the frame against the frame before (scan to scan), or the registration, from the pose before, against the map of all frames before at their poses (scan to model). Frames to come never change poses already given, and the command line parameters are honoured. (Refuted: the model classes ignore max_correspondence_distance and use 1.0; the scan to scan VGICP class ignores num_threads; an empty frame makes the next step of the scan to scan GICP class undefined, while the others survive it.)", "quantifier": "every sequence of frames, parameter set, solver output and schedule", "why_tests_cant": "an invariant over unbounded histories under every schedule", "anchors": ["src/benchmark/odometry_benchmark_small_gicp_omp.cpp:estimate", "src/benchmark/odometry_benchmark_small_vgicp_omp.cpp:estimate", "src/benchmark/odometry_benchmark_small_gicp_model_omp.cpp:estimate", "src/benchmark/odometry_benchmark_small_vgicp_model_omp.cpp:estimate", "include/small_gicp/benchmark/benchmark_odom.hpp:OnlineOdometryEstimation"]}
{"id": "C58", "title": "Registration does not depend on the coordinate frame of the target", "statement": "Moving the target cloud (points and covariances) by a rigid motion G and starting from G*T instead of T gives the pose G*result, with the same H, b, error, inliers, iterations and convergence flag, for ICP and GICP, Gauss-Newton and Levenberg-Marquardt, with or without a robust kernel, whatever kd-trees are built over the two targets. (Refuted for PlaneICP: its error multiplies normal and residual component by component, so the same alignment has another error in another frame.)", "quantifier": "every rigid motion, target, source, start pose, optimizer setting and kd-tree; source points with one nearest target point at the poses visited", "why_tests_cant": "equality over all rigid motions and all clouds, in exact arithmetic", "anchors": ["include/small_gicp/factors/gicp_factor.hpp:linearize", "include/small_gicp/factors/icp_factor.hpp:linearize", "include/small_gicp/factors/plane_icp_factor.hpp:linearize", "include/small_gicp/registration/optimizer.hpp:optimize", "include/small_gicp/registration/registration.hpp:align"]}
{"id": "C59", "title": "ICP never leaves the points further from the target than at the start", "statement": "Point-to-point ICP with Levenberg-Marquardt: the sum over the source points of the squared distance to the nearest target point, each capped at the correspondence limit, is at the returned pose at most what it was at the start pose; and the returned error and inlier count bound it. (Refuted for GICP: an accepted step can change the correspondences to ones with far tighter covariances, so that the cost at the returned pose, measured afresh, is over 70 times the cost at the start.)", "quantifier": "every target, source, start pose, solver, exponential map and setting of the optimizer", "why_tests_cant": "a bound on every run over all clouds; correspondences change with each linearisation", "anchors": ["include/small_gicp/factors/icp_factor.hpp:linearize", "include/small_gicp/factors/gicp_factor.hpp:linearize", "include/small_gicp/registration/optimizer.hpp:LevenbergMarquardtOptimizer", "include/small_gicp/registration/rejector.hpp:DistanceRejector"]}
{"id": "C60", "title": "An exact alignment is kept, and a zero error is an exact alignment", "statement": "If at the start pose every source point lies exactly on a target point, registration returns that pose unchanged, converged in its first iteration, with every point an inlier and error zero, for ICP, PlaneICP and GICP, Gauss-Newton and Levenberg-Marquardt, with or without a robust kernel or a degree-of-freedom restriction. In particular a cloud registered onto itself from the identity gives the identity. The same holds in double arithmetic, for any schedule of the threads and any order of the sums, when every moved source point has the rounded coordinates of a target point and the values are far from overflow and underflow. Conversely, point-to-point ICP that reports error zero with every point an inlier has placed every source point exactly on a target point.", "quantifier": "every pair of clouds and pose with this property, every kd-tree, setting, thread schedule and correct solver", "why_tests_cant": "holds for every cloud and every start pose; a test sees a few clouds and schedules", "anchors": ["include/small_gicp/registration/optimizer.hpp:optimize", "include/small_gicp/factors/icp_factor.hpp:linearize", "include/small_gicp/factors/plane_icp_factor.hpp:linearize", "include/small_gicp/factors/gicp_factor.hpp:linearize", "include/small_gicp/factors/robust_kernel.hpp:RobustFactor", "include/small_gicp/registration/termination_criteria.hpp:converged"]}
{"id": "C61", "title": "The timing statistics are the mean and standard deviation of what was recorded", "statement": "After any sequence of recorded values the summary reports their mean, their population standard deviation and the last value; equal values have deviation zero, and with the full log enabled the median is available.", "quantifier": "every sequence of recorded values, every arithmetic for the parts that do not depend on rounding", "why_tests_cant": "accumulators over arbitrary histories; undefined behaviour in the median may go unnoticed in a test", "anchors": ["include/small_gicp/benchmark/benchmark.hpp:Summarizer"]}
{"id": "C62", "title": "Benchmark options are honoured and engines are found by name", "statement": "Options may be given in any order after the two paths, the last setting of each wins and the rest keep the stated defaults; unknown options and options without a value are refused; every tuning parameter the engines use can be set. An engine is created exactly for the listed names, whatever order the compilation units registered them in.", "quantifier": "every argument list, every way of converting numbers, every registration order", "why_tests_cant": "registration order is left open by the language, argument lists are unbounded", "anchors": ["src/benchmark/odometry_benchmark.cpp:main", "src/small_gicp/benchmark/benchmark_odom.cpp:create_odometry", "src/small_gicp/benchmark/benchmark_odom.cpp:register_odometry", "include/small_gicp/benchmark/benchmark_odom.hpp:OdometryEstimationParams"]}
{"id": "C63", "title": "A data set is read in the order of its file names, whatever the directory listing", "statement": "Opening a data set gives one frame per .bin file of the directory, in the order of the names, at most as many as asked for; the order in which the operating system lists the directory does not matter, other files are ignored, and a file that cannot be read is an empty frame. Conversion keeps every point in place with exactly the numbers of the file and fourth coordinate one; releasing empties the data set and changes nothing returned. Scans numbered with leading zeros come in numeric order.", "quantifier": "every directory content and listing order, every file content, every correct sort", "why_tests_cant": "listing order is chosen by the file system; the float conversion ranges over all bit patterns", "anchors": ["include/small_gicp/benchmark/benchmark.hpp:KittiDataset", "include/small_gicp/benchmark/read_points.hpp:read_points"]}
{"id": "C64", "title": "PCL clouds give back what they were given, to float precision", "statement": "After any sequence of resizes and writes through the traits, every attribute of a PCL cloud reads as the last value set, rounded to the nearest float (infinite beyond the float range); access outside the cloud throws. Floats are kept exactly, so data sets convert without loss and writing back what was read changes nothing. Covariances stay symmetric and positive definite. A cloud has normals or covariances if they were set.", "quantifier": "every history of calls, every double value", "why_tests_cant": "rounding ranges over all doubles; histories are unbounded", "anchors": ["include/small_gicp/pcl/pcl_point_traits.hpp:Traits", "include/small_gicp/pcl/pcl_point.hpp:PointNormalCovariance"]}
{"id": "C65", "title": "Registration written in Python with the per-point factors sees the library's own system", "statement": "What a factor's linearize returns does not depend on what the object was used for before, so one factor can be reused for all points. It succeeds exactly if the source point has a neighbour within the limit of the rejector, and returns zeros otherwise; the limit is a distance. Adding up the accepted results over all source points gives exactly, bit for bit, the H, b and error the library's serial registration works with, and the H and b a registration reports are those sums. An index outside the source cloud is refused.", "quantifier": "every pair of clouds, pose, search structure, rejector, factor kind and state of the factor object; every registration run with either optimiser", "why_tests_cant": "bit equality over all clouds and histories of the factor object cannot be sampled; the existing test compares with five percent tolerance on one pair", "anchors": ["src/python/factors.cpp:define_factors", "src/test/python_test.py:test_factors", "include/small_gicp/registration/reduction.hpp:SerialReduction"]}
{"id": "C66", "title": "Odometry on the PCL interface registers every frame against the one before", "statement": "With the small_gicp_pcl engine the first frame is the origin, every further frame is registered against the frame before it, each with covariances of its own whatever was kept between calls, and the pose is the product of the motions; points and motions are the nearest floats. Frames that PCL does not accept are passed over.", "quantifier": "every sequence of frames, every placement of clouds in memory, every acceptance rule of PCL", "why_tests_cant": "kept trees and covariances change sides with every frame, so the property is about whole histories; addresses are chosen by the allocator", "anchors": ["src/benchmark/odometry_benchmark_small_gicp_pcl.cpp:SmallGICPPCLOdometryEstimation", "include/small_gicp/pcl/pcl_registration_impl.hpp:RegistrationPCL"]}
{"id": "C67", "title": "Estimated normals and covariances turn with the cloud", "statement": "Estimating a cloud and a rigidly moved copy of it, each with its own search structure and solver, gives moved covariances at every point; the normals are the moved ones or their opposites, each facing the origin of its own frame, so turning about the origin turns the normals. GICP against a target prepared in either frame returns the same alignment up to the motion.", "quantifier": "every cloud whose neighbourhoods have a unique flattest direction and no tie at the k-th neighbour, every rigid motion, any correct solver, any exact search and the kd-tree with any projection axes", "why_tests_cant": "a relation between two runs on two clouds that must hold for all rigid motions", "anchors": ["include/small_gicp/util/normal_estimation.hpp:estimate_normals_covariances", "include/small_gicp/util/normal_estimation.hpp:NormalSetter", "include/small_gicp/util/normal_estimation.hpp:CovarianceSetter", "include/small_gicp/ann/kdtree.hpp:knn_search"]}
{"id": "C68", "title": "The order of the points does not matter", "statement": "Registering clouds whose points are listed in another order, source and target, with or without attributes, gives the same result in every field: pose, convergence, iterations, inliers, H, b and error; with any factor, robust kernel, optimizer and general factor. Up to rounding: over the reals exactly, in doubles the last bits of the sums may differ.", "quantifier": "every pair of clouds, every two permutations, every initial guess for which no nearest point is tied, every kd-tree of either target", "why_tests_cant": "a relation between runs on all permutations of all clouds", "anchors": ["include/small_gicp/registration/registration.hpp:Registration::align", "include/small_gicp/registration/reduction.hpp:SerialReduction", "include/small_gicp/registration/optimizer.hpp:LevenbergMarquardtOptimizer", "include/small_gicp/registration/optimizer.hpp:GaussNewtonOptimizer", "include/small_gicp/ann/kdtree.hpp:KdTree"]}
{"id": "C69", "title": "A missing shift is found", "statement": "When a source cloud fits the target exactly at some pose and the initial guess is off by a shift of less than half the spacing of the target (and within the correspondence limit), registration goes to the true pose: Gauss-Newton without damping returns it exactly, converged after at most two iterations with every point an inlier, with any factor. With damping lambda, point-to-point and a source of n points about its centroid, every iteration leaves at most the fraction lambda / (n + lambda) of the shift, and a converged run is within lambda / n times the translation threshold. Half the spacing is the limit: from beyond it a neighbouring pose can be returned as converged. Exact over the reals.", "quantifier": "every pair of clouds, every pose at which they fit, every shift below half the spacing, every damping and iteration limit, every kd-tree of the target", "why_tests_cant": "quantifies over all clouds and initial guesses; tests try a few displacements", "anchors": ["include/small_gicp/registration/registration.hpp:Registration::align", "include/small_gicp/registration/optimizer.hpp:GaussNewtonOptimizer", "include/small_gicp/registration/optimizer.hpp:LevenbergMarquardtOptimizer", "include/small_gicp/factors/icp_factor.hpp:ICPFactor", "include/small_gicp/factors/gicp_factor.hpp:GICPFactor", "include/small_gicp/factors/plane_icp_factor.hpp:PointToPlaneICPFactor"]}
{"id": "C70", "title": "The orientation of the source frame does not matter", "statement": "Registering the source turned about the origin of its own frame, points, normals and covariances, from the initial guess turned back, takes the same steps: the returned pose is the other one turned back, H and b are those of the turned frame, and convergence, iterations, inliers and error are the same; with any factor, search structure, robust kernel and optimizer with positive damping. A degree-of-freedom restriction of single axes is meant in the source frame and turns with it, and moving the origin of the source does change the result, because the damping weighs turning against shifting. Exact over the reals.", "quantifier": "every rotation, every pair of clouds, every initial guess, every search structure, every positive damping, every correct solver", "why_tests_cant": "a relation between runs for all rotations and clouds", "anchors": ["include/small_gicp/registration/registration.hpp:Registration::align", "include/small_gicp/registration/optimizer.hpp:GaussNewtonOptimizer", "include/small_gicp/registration/optimizer.hpp:LevenbergMarquardtOptimizer", "include/small_gicp/factors/general_factor.hpp:RestrictDoFFactor", "include/small_gicp/util/lie.hpp:se3_exp"]}
{"id": "C71", "title": "Points that are not numbers", "statement": "A NaN coordinate does not silently corrupt a registration against a kd-tree, but it does end it: the tree answers such a query with some point at a NaN distance, no distance limit rejects it, and ICP, point-to-plane ICP and GICP then return the initial guess, not converged, after no accepted step, with a NaN error; the same holds for a NaN initial guess. On x86 a voxel map gives such a source point no correspondence, and one-thread downsampling drops such raw points, while downsampling with several threads can let one through.", "quantifier": "every cloud, every position and number of NaN coordinates, every initial guess, every schedule, solver, setting and number of threads", "why_tests_cant": "one NaN among any number of points meets comparisons in the search, the rejector, the reductions and the optimizer that are all false; the combination with every schedule cannot be enumerated", "anchors": ["include/small_gicp/registration/rejector.hpp:DistanceRejector", "include/small_gicp/registration/optimizer.hpp:LevenbergMarquardtOptimizer", "include/small_gicp/ann/knn_result.hpp:KnnResult::push", "include/small_gicp/ann/incremental_voxelmap.hpp:IncrementalVoxelMap", "include/small_gicp/util/downsampling.hpp:voxelgrid_sampling", "include/small_gicp/util/downsampling_omp.hpp:voxelgrid_sampling_omp", "src/small_gicp/registration/registration_helper.cpp:align"]}
{"id": "C72", "title": "The unit of length does not matter without damping", "statement": "Registering the same measurements in another unit of length (both clouds, the initial translation, the translation threshold and the maximum correspondence distance converted) takes the same steps and returns the same rotation, the converted translation and the same inliers and iteration count, as long as no damping is used; normals and covariances prepared from the clouds in each unit agree. Huber's constant converts like a length, Cauchy's like a squared length. With any positive damping the result does depend on the unit.", "quantifier": "every pair of clouds, every unit, factor, rejector, kernel, solver, search and run whose systems have one solution and whose points have one nearest neighbour at the poses visited; for the negative part every positive damping", "why_tests_cant": "a whole optimisation is compared with its converted copy for all data and all units; no finite set of runs covers it", "anchors": ["include/small_gicp/registration/optimizer.hpp:GaussNewtonOptimizer", "include/small_gicp/registration/optimizer.hpp:LevenbergMarquardtOptimizer", "include/small_gicp/registration/termination_criteria.hpp:TerminationCriteria", "include/small_gicp/registration/rejector.hpp:DistanceRejector", "include/small_gicp/registration/general_factor.hpp:RestrictDoFFactor", "include/small_gicp/factors/robust_kernel.hpp:Huber", "include/small_gicp/factors/robust_kernel.hpp:Cauchy", "include/small_gicp/factors/gicp_factor.hpp:GICPFactor", "include/small_gicp/util/normal_estimation.hpp:estimate_local_features"]}
{"id": "C73", "title": "Estimated normals are as accurate as the distance from the origin allows", "statement": "In double precision, each normal that estimation stores for a point with at least five neighbours has length one and faces the origin up to rounding, and no direction exists along which the neighbours vary less by more than a bound proportional to 2^-53, the number of neighbours and the squared largest coordinate (plus the eigen-solver's own error). The bound grows with the distance from the origin: a flat strip moved 4500 km within its plane, all coordinates exact, gets normals lying in the plane.", "quantifier": "every cloud of finite doubles up to 2^400 in magnitude, every neighbour count up to 2^30, every search result and every solver meeting its contract; for the negative part every search order and every solver accurate to 1e-6", "why_tests_cant": "a rounding bound for all inputs and all neighbour counts cannot be established by sampling; the failure needs coordinates tests do not use", "anchors": ["include/small_gicp/util/normal_estimation.hpp:estimate_local_features", "include/small_gicp/util/normal_estimation.hpp:NormalSetter"]}
{"id": "C74", "title": "The returned pose stays a rigid motion in double precision", "statement": "The rotation of every increment, for every finite rotation vector up to 2^100 radians per axis, keeps every length up to 87 units of 2^-53 and keeps the orientation. A registration that starts from a rotation rigid up to e returns one that keeps every length up to (1+e)(1+128*2^-53)^n - 1 after at most n iterations, whatever is registered and however the run ends: nothing is re-orthonormalised, but the error grows at most linearly (129 units per iteration; from the identity with the default settings below 1e-12). The same holds for motions composed into a trajectory.", "quantifier": "every increment, every sine and cosine within 2^-52 of the true value, every initial pose, solver, linearisation, iteration limit, registration type and schedule", "why_tests_cant": "an error bound over all rotation vectors and all histories of increments cannot be sampled", "anchors": ["include/small_gicp/util/lie.hpp:so3_exp", "include/small_gicp/util/lie.hpp:se3_exp", "include/small_gicp/registration/optimizer.hpp:GaussNewtonOptimizer", "include/small_gicp/registration/optimizer.hpp:LevenbergMarquardtOptimizer"]}
{"id": "C75", "title": "On fixed-point coordinates downsampling is exact, order-independent and idempotent in double precision", "statement": "If the coordinates are whole multiples of one power of two (integers, or a scanner's fixed step) and their sums stay below 2^53 steps, every sample is the mean of the points of its voxel rounded once, lies in that voxel, and does not depend on the order of the points or on how the sort treats equal keys; sampling the result again with the same leaf size returns it. Without fixed point: a cloud with one point per voxel in voxel order is returned unchanged. (For arbitrary coordinates sampling twice can merge samples: refuted under C09.)", "quantifier": "every fixed-point cloud (step 2^-1074 to 2^800), every positive leaf size, every sorting algorithm meeting std::sort's contract, every order of the points", "why_tests_cant": "exactness and independence of the order are claims about all clouds and all sort implementations", "anchors": ["include/small_gicp/util/downsampling.hpp:voxelgrid_sampling"]}
{"id": "C76", "title": "No step is longer than the current error allows", "statement": "The error predicted by the linearised problem is never negative, so a step computed with damping mu from a problem of error e has squared length (rotation and translation together) at most e / (2 mu), and its part along axes restricted with strength lambda at most e / (2 lambda) whatever the damping. The first bound is attained.", "quantifier": "every step tried by Levenberg-Marquardt and every step of Gauss-Newton, on any clouds, search, rejector and factor (point, plane, covariance, plain or with a robust kernel), every initial pose and history, every solver of symmetric positive definite systems", "why_tests_cant": "the bound is needed where a problem is degenerate or far from converged; tests see a few well-posed problems", "anchors": ["include/small_gicp/registration/optimizer.hpp:GaussNewtonOptimizer", "include/small_gicp/registration/optimizer.hpp:LevenbergMarquardtOptimizer", "include/small_gicp/registration/registration.hpp:Registration", "include/small_gicp/factors/general_factor.hpp:RestrictDoFFactor"]}
{"id": "C77", "title": "The template example's search, rejector and general factor do what they say", "statement": "The brute-force search of the registration template example returns the k nearest points in ascending order (all of them if there are fewer) and touches nothing else of the caller's buffers, so it can serve registration and normal estimation of the cloud it was built from; its general factor restricts roll and pitch, whose motion in a step is at most sqrt(e / (2 lambda)). Two claims fail: source normals are estimated with a search built from the target, which reads the source out of bounds when the target is larger; and the feature test of the rejector compares the target's features with themselves, so pairs with different features are accepted.", "quantifier": "every cloud without NaN distances, every query, every k from 0 to 2^31-1, every std::priority_queue meeting its contract; every pair of clouds and features for the refutations; every schedule of the parallel loop", "why_tests_cant": "the example is run by hand on one data set where both mistakes go unnoticed", "anchors": ["src/example/03_registration_template.cpp:MyNearestNeighborSearch", "src/example/03_registration_template.cpp:MyCorrespondenceRejector", "src/example/03_registration_template.cpp:MyGeneralFactor", "src/example/03_registration_template.cpp:example2", "include/small_gicp/ann/traits.hpp:nearest_neighbor_search"]}
{"id": "C78", "title": "Threads and schedules change the sums by rounding only", "statement": "Whatever addition does, the serial, OpenMP and TBB reductions each add up every accepted factor's contribution exactly once and leave the same factors behind; they differ in order and bracketing only. In doubles each of the 43 entries of the result (H, b and e) is then finite and within n * 2^-52 times the sum of the magnitudes of the n contributions of their exact sum, so two runs with any schedules and any numbers of threads agree up to twice that. The same holds for the error summed over the factors.", "quantifier": "every list of factors, every number of threads above zero, every assignment of iterations, interleaving, splitting and joining, every order of adding the private copies; any addition for the first part; up to 2^52 finite doubles with magnitudes summing to at most 2^1022 for the bound", "why_tests_cant": "runs on one machine sample a few schedules and show small differences without bounding them", "anchors": ["include/small_gicp/registration/reduction.hpp:SerialReduction", "include/small_gicp/registration/reduction_omp.hpp:ParallelReductionOMP", "include/small_gicp/registration/reduction_tbb.hpp:ParallelReductionTBB"]}
{"id": "C79", "title": "In doubles, normal-direction splitting misses a nearer point by rounding only", "statement": "A kd-tree split along arbitrary directions can miss the exact nearest neighbours in doubles (see C07), but only by rounding. Construction succeeds, and every search reports as many distinct points as exist up to k, in ascending order, each with its own computed distance. A point that is left out although its computed distance is smaller than a reported one has an exact distance r to the query such that the reported distance is at most (1 + 2^-51)(1 + tau) r + 2^-47 M, where M bounds the coordinates and 1 + tau the length of the directions. In particular the nearest-neighbour search always finds a point, and its distance is that close to the distance of every point of the cloud.", "quantifier": "every cloud and query with coordinates up to M (2^-400 to 2^400), every source of splitting directions of length up to 1 + tau (0 <= tau <= 1), every conforming nth_element, every k and leaf size of at least 3, any evaluation order of the squared distance including fused multiply-add", "why_tests_cant": "the misses need projections equal up to rounding, which random clouds do not produce, and no run bounds how far off a miss can be", "anchors": ["include/small_gicp/ann/projection.hpp:NormalProjection", "include/small_gicp/ann/kdtree.hpp:UnsafeKdTree::knn_search", "include/small_gicp/ann/kdtree.hpp:UnsafeKdTree::nearest_neighbor_search"]}
{"id": "C80", "title": "The Python odometry example tracks every sequence of frames that have points, and what empty frames do to it", "statement": "Both odometry classes of the Python example return one pose for every frame, whatever the schedules of the parallel preprocessing, as long as every frame has points. Scan to scan: each frame is registered with GICP against the frame before it, starting from the previous motion, within a distance of 1, and the motions multiply up. Scan to model: each frame is registered against the voxel map of all frames before it at their reported poses, starting from the last pose moved on by the last motion; that map is never empty. Frames without points are not refused. Scan to scan, the frame after one is registered against a tree without nodes, which is undefined behaviour. Scan to model, 110 of them in a row clear the map, and drawing it reads the first of no points.", "quantifier": "every sequence of arrays (in the scan-to-model case at most 2^32 rows in all), every schedule, every solver, every matrix product and inverse, at least one thread", "why_tests_cant": "a test runs one sequence under one schedule, and data sets have no empty scans", "anchors": ["src/example/kitti_odometry.py:ScanToScanMatchingOdometry", "src/example/kitti_odometry.py:ScanToModelMatchingOdometry", "src/python/preprocess.cpp:preprocess_points", "src/python/align.cpp:align", "src/python/voxelmap.cpp:voxel_points"]}
{"id": "C81", "title": "The statistics of Gaussian voxels are accurate in doubles, however their points arrive", "statement": "After any history of insertions into a Gaussian voxel map in doubles, every voxel reports the number of points it was given since it was created, and each component of its mean and of its covariance is the mean over those points up to (n + 2c) 2^-52 times the largest magnitude plus c 2^-1073, where c is the number of insertions that visited the voxel. The fourth component of the mean stays exactly one. The same points spread over insertions differently or in another order give means that differ by at most the two errors. They need not be equal: seven points with whole coordinates followed by an eighth give another mean than all eight in one insertion.", "quantifier": "every history of insertions with n + 2c up to 2^52, finite values up to 2^900, every pose, every voxel", "why_tests_cant": "a test inserts a few clouds and compares with a tolerance; multiplying the mean back by the count at every insertion could lose accuracy over long histories", "anchors": ["include/small_gicp/ann/gaussian_voxelmap.hpp:GaussianVoxel::add", "include/small_gicp/ann/gaussian_voxelmap.hpp:GaussianVoxel::finalize", "include/small_gicp/ann/incremental_voxelmap.hpp:IncrementalVoxelMap::insert"]}
{"id": "C82", "title": "The translation of a pose increment is accurate in doubles up to the cancellation at small angles", "statement": "For a pose increment in doubles whose rotation part is longer than 1.1e-10, the translation of its exponential is finite and within 31 (e / angle + 40 2^-53) times the length of the translation part of the true one, where e bounds the error of the library's sine and cosine. With correctly rounded sine and cosine the error is at most 2^-22 times the length at every angle, on both sides of the small-angle threshold. It is not of the order of the rounding unit: at the angle 2^-27 the cosine rounds to one, the translation across the axis is returned unchanged, and the error is at least 2^-29 times its length, half of the digits of a double.", "quantifier": "every increment with finite components, rotation up to 2^100 and translation up to 2^900, every sine and cosine within the stated error", "why_tests_cant": "tests compare exponentials at ordinary angles with a tolerance; the loss is concentrated at angles near 1e-8", "anchors": ["include/small_gicp/util/lie.hpp:se3_exp", "include/small_gicp/util/lie.hpp:so3_exp"]}
{"id": "C83", "title": "A wider correspondence limit keeps every correspondence, and what counts as no limit", "statement": "At the same pose, linearising with a larger maximum correspondence distance (in magnitude) succeeds with the smaller one too, and keeps every correspondence of the smaller one with the same target point, so the inlier count never decreases; for point-to-point and point-to-plane factors the summed error, rounding included, never decreases either unless it is NaN. A limit that is NaN, infinite or at least 2^512 gives exactly the run without a limit, and a negative limit exactly the run with its magnitude.", "quantifier": "every cloud, search, pose and factor state, every pair of finite limits, and for the last sentence every run of the Levenberg-Marquardt optimizer", "why_tests_cant": "depends on the squaring of the limit, the comparison with the reported squared distance and the rounding of sums being monotone for all doubles", "anchors": ["include/small_gicp/registration/rejector.hpp:DistanceRejector", "src/small_gicp/registration/registration_helper.cpp:align", "include/small_gicp/registration/reduction.hpp:SerialReduction::linearize"]}
{"id": "C84", "title": "Neighbour distances do not depend on how the tree was built", "statement": "Two kd-trees over the same finite points, listed in any order and built with any leaf sizes of at least three, axis scan counts and nth_element implementations, answer every query with as many neighbours at distances that compare equal, unused slots included. If no two points are equally far from the query, and the points are listed in the same order, the indices and distances are identical. With a tie this fails for indices: the leaf size alone decides which of the equally near points is reported.", "quantifier": "every cloud and reordering of it, every pair of build settings, every finite query and every k", "why_tests_cant": "a test compares a few trees; this covers every shape of tree the build settings can produce", "anchors": ["include/small_gicp/ann/kdtree.hpp:KdTreeBuilder::build_tree", "include/small_gicp/ann/kdtree.hpp:UnsafeKdTree::knn_search", "include/small_gicp/ann/knn_result.hpp:KnnResult::push", "include/small_gicp/ann/projection.hpp:AxisAlignedProjection::find_axis"]}
