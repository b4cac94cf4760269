{"id": "C01", "title": "measure performs an exact Bayes update", "statement": "Calling measure(L) when the total sum(p_i*L(s_i)) is positive replaces every weight by p_i*L(s_i)/total, so the new weights sum to 1, and changes no particle state, no bias, no particle count and no particle order. With binary32 rounding and a computed total of at least 2^-100 every new weight of n <= 2^20 particles is within (n+4)/2^22 of that exact value.", "quantifier": "every particle list of any size, every weights vector, every likelihood function with a positive total (real arithmetic; binary32 with all rounding errors for the error bound)", "why_tests_cant": "A test fixes one likelihood and a particle count; the update law is about every likelihood and size.", "anchors": ["include/mcl_3dl/pf.h: ParticleFilter::measure"]}
{"id": "C02", "title": "a measurement that kills all particles is a no-op", "statement": "If the weighted likelihood total is not greater than zero (zero, negative or NaN) measure() leaves all particles and the reported entropy exactly as they were; in IEEE binary32 a single NaN likelihood on any particle is enough to make the whole measurement a no-op.", "quantifier": "every particle list, every likelihood function, every arithmetic (no algebraic law assumed), and all binary32 values including NaN and infinities", "why_tests_cant": "NaN positions, sizes and magnitudes are unbounded; a test can only try some.", "anchors": ["include/mcl_3dl/pf.h: ParticleFilter::measure"]}
{"id": "C03", "title": "weights stay in [0,1] under IEEE rounding", "statement": "With binary32 rounding, if all weights and likelihoods are finite and non-negative and the computed total is positive and finite, every weight after measure() is a finite float in [0,1], and the weights of n <= 2^20 particles add up to 1 within (n+1)/2^23.", "quantifier": "every list of binary32 weights and likelihoods of any length, all rounding errors included", "why_tests_cant": "The set of rounding error combinations grows exponentially with the particle count.", "anchors": ["include/mcl_3dl/pf.h: ParticleFilter::measure"]}
{"id": "C04", "title": "reported entropy is a Shannon entropy", "statement": "After a successful measure() on n non-negative weights getEntropy() is -sum p_i ln p_i of the new weights, is between 0 and ln n, equals ln n for equal weights and 0 when one particle carries all weight.", "quantifier": "every particle count and every non-negative weight/likelihood combination with positive total (real arithmetic)", "why_tests_cant": "The bounds are inequalities over a continuum of weight vectors of every dimension.", "anchors": ["include/mcl_3dl/pf.h: ParticleFilter::measure", "include/mcl_3dl/pf.h: ParticleFilter::getEntropy"]}
{"id": "C05", "title": "resampling keeps the count, resets weights and invents no pose", "statement": "resample() keeps the number of particles, gives every particle the same weight 1/n, leaves biases alone, and every resulting pose is either an exact copy of a pose that was in the filter or such a copy plus one freshly drawn noise, normalized.", "quantifier": "every non-empty particle list, every arithmetic (no law assumed, so IEEE with NaN included), every random offset, every noise sequence, every outcome std::sort may produce", "why_tests_cant": "std::sort is unstable and the random engine is arbitrary: schedules of ties and draws cannot be enumerated.", "anchors": ["include/mcl_3dl/pf.h: ParticleFilter::resampleUsingNoiseGenerator"]}
{"id": "C06", "title": "resampling is low-variance (systematic)", "statement": "For strictly positive weights and a random offset strictly inside (0, step), a particle of normalised weight w appears in the new set either floor(n*w) or ceil(n*w) times, in the original order.", "quantifier": "every particle count, every positive weight vector, every offset in the open interval (real arithmetic)", "why_tests_cant": "The claim is a floor/ceiling inequality over all weight vectors and offsets.", "anchors": ["include/mcl_3dl/pf.h: ParticleFilter::resampleUsingNoiseGenerator"]}
{"id": "C07", "title": "dead particles do not survive resampling", "statement": "A particle with weight zero is never copied by resample() when the random offset is positive and ties are kept in order; without the order guarantee (std::sort is not stable) or with offset exactly 0 a zero-weight particle can be selected.", "quantifier": "every non-negative weight vector with positive total, every offset, every legal std::sort outcome", "why_tests_cant": "Needs an adversarial sort and an offset of measure zero.", "anchors": ["include/mcl_3dl/pf.h: ParticleFilter::resampleUsingNoiseGenerator", "include/mcl_3dl/pf.h: Particle::operator<"]}
{"id": "C08", "title": "only duplicates are perturbed by resampling noise", "statement": "Within one resample() call the first copy of each selected particle is exact and only further copies get noise -- except the particle sorted first, whose very first copy is already perturbed.", "quantifier": "every particle list, offset, noise sequence and legal sort outcome", "why_tests_cant": "Needs all selection patterns.", "anchors": ["include/mcl_3dl/pf.h: ParticleFilter::resampleUsingNoiseGenerator"]}
{"id": "C09", "title": "resizing yields exactly the requested number of existing poses", "statement": "resizeParticle(m) on a non-empty filter yields exactly m particles of weight 1/m whose poses all are poses of the old filter, in real arithmetic each old particle is kept floor or ceil of m*w times; on an empty filter with m>0 it dereferences past the end (undefined behaviour).", "quantifier": "every particle list, every m, every arithmetic for the structural part", "why_tests_cant": "m and n are unbounded.", "anchors": ["include/mcl_3dl/pf.h: ParticleFilter::resizeParticle", "src/mcl_3dl.cpp: cbResizeParticle"]}
{"id": "C10", "title": "expectation is the weighted mean", "statement": "expectation() over weights that sum to at most 1 returns, componentwise, sum(w_i*s_i)/sum(w_i): it lies between the smallest and largest component, does not depend on particle order, and equals the common pose if all particles agree; the particle set is not modified.", "quantifier": "every non-empty particle list, every non-negative weights with positive sum (real arithmetic)", "why_tests_cant": "Convexity and order independence are universally quantified.", "anchors": ["include/mcl_3dl/pf.h: ParticleFilter::expectation", "include/mcl_3dl/pf.h: ParticleWeightedMean"]}
{"id": "C11", "title": "expectation with a pass ratio uses the most probable particles", "statement": "expectation(r) with r<1 should average the most probable particles; the code orders by the cumulative weight of the last resampling instead, which was never written before the first resampling (undefined behaviour) and does not select the most probable particles afterwards.", "quantifier": "every particle list, legal sort outcome and ratio", "why_tests_cant": "The failure depends on the operation history.", "anchors": ["include/mcl_3dl/pf.h: ParticleFilter::expectation", "include/mcl_3dl/pf.h: Particle::operator<"]}
{"id": "C12", "title": "covariance is symmetric and positive semi-definite", "statement": "covariance() returns a square matrix that is symmetric (in any arithmetic) and, in real arithmetic with non-negative weights of positive sampled total, positive semi-definite: no direction has negative variance. With a sampling ratio below one it uses exactly floor(n*ratio) of the n particles, none twice, and never reads outside the particle list; with the default ratios it is the covariance of all particles about the expectation. A ratio that asks for less than one particle yields NaN in every entry.", "quantifier": "every particle list, sampling permutation and ratio, every test vector", "why_tests_cant": "PSD is a statement about all directions and all particle sets.", "anchors": ["include/mcl_3dl/pf.h: ParticleFilter::covariance"]}
{"id": "C13", "title": "max returns the most probable particle", "statement": "max() returns the pose of a particle whose weight is greatest, and of the earliest one on ties; maxBiased() the same for weight times bias; on an empty filter the access is undefined behaviour.", "quantifier": "every non-empty particle list (real arithmetic)", "why_tests_cant": "All positions of the maximum and all ties.", "anchors": ["include/mcl_3dl/pf.h: ParticleFilter::max", "include/mcl_3dl/pf.h: ParticleFilter::maxBiased"]}
{"id": "C14", "title": "each filter operation touches only its own part of the state", "statement": "predict() changes only poses, bias() only biases, noise() only poses (each by exactly one fresh noise), appendParticle(k) only adds k zero-weight particles at the end; the count, order and everything else stay the same.", "quantifier": "every particle list and every user callback (any arithmetic)", "why_tests_cant": "Frame conditions quantify over all callbacks.", "anchors": ["include/mcl_3dl/pf.h: ParticleFilter::predict", "include/mcl_3dl/pf.h: ParticleFilter::bias", "include/mcl_3dl/pf.h: ParticleFilter::addNoiseUsingNoiseGenerator", "include/mcl_3dl/pf.h: ParticleFilter::appendParticle"]}
{"id": "C15", "title": "the particle set stays a probability distribution for ever", "statement": "Starting from init() with at least one particle, after any finite sequence of measure, resample, resize to a positive number, noise, predict, bias and append calls, the filter is non-empty, all weights are non-negative and they sum to 1. In binary32 arithmetic, with likelihoods between 0 and 2^100 and never more than 2^20 particles, all weights stay finite numbers in [0,1] and add up to 1 within (n+1)/2^23.", "quantifier": "every operation history of any length with arbitrary callbacks, likelihoods >= 0, offsets and sort outcomes (real arithmetic; binary32 with all rounding errors for the second half)", "why_tests_cant": "Histories are unbounded.", "anchors": ["include/mcl_3dl/pf.h: ParticleFilter::init", "include/mcl_3dl/pf.h: ParticleFilter::measure", "include/mcl_3dl/pf.h: ParticleFilter::resampleUsingNoiseGenerator", "include/mcl_3dl/pf.h: ParticleFilter::resizeParticle"]}
{"id": "C16", "title": "process sees exactly the clouds accumulated since the last clear", "statement": "Whenever the accumulator calls process, the client's buffer is non-empty and consists, in arrival order, of exactly the clouds successfully accumulated since the last clear, one per remembered key.", "quantifier": "every sequence of pushes (any keys, any accumulate success/failure pattern) and resets, every accum and every positive limit", "why_tests_cant": "Message interleavings of several sensors with failures are unbounded.", "anchors": ["src/cloud_accum.cpp: CloudAccumulationLogic::push", "src/cloud_accum.cpp: CloudAccumulationLogic::reset"]}
{"id": "C17", "title": "no cloud is processed twice and none disappears silently", "statement": "The concatenation of all batches handed to process, all batches dropped by a failure or reset, and the current buffer, in order, is exactly the sequence of successfully accumulated clouds.", "quantifier": "every history of pushes and resets", "why_tests_cant": "Conservation over unbounded histories.", "anchors": ["src/cloud_accum.cpp: CloudAccumulationLogic::push", "src/cloud_accum.cpp: CloudAccumulationLogic::reset"]}
{"id": "C18", "title": "accumulation is bounded", "statement": "The number of buffered clouds never exceeds the configured positive limit, and clouds of the leading sensor never exceed max(accum,1).", "quantifier": "every history, every accum and every positive limit", "why_tests_cant": "Needs an invariant over histories.", "anchors": ["src/cloud_accum.cpp: CloudAccumulationLogic::push"]}
{"id": "C19", "title": "batch composition", "statement": "Every processed batch either contains exactly max(accum,1) clouds of the sensor that started it and was triggered by another cloud of that sensor, or contains exactly the configured maximum number of clouds.", "quantifier": "every history", "why_tests_cant": "All interleavings of sensors.", "anchors": ["src/cloud_accum.cpp: CloudAccumulationLogic::push"]}
{"id": "C20", "title": "accumulation makes progress", "statement": "If all clouds accumulate successfully then among any (limit + 1) consecutive pushes at least one calls process; with a single sensor process is called exactly every accum-th push after the first accum.", "quantifier": "every state reachable by any history, every sequence of keys", "why_tests_cant": "Liveness over arbitrary key sequences.", "anchors": ["src/cloud_accum.cpp: CloudAccumulationLogic::push"]}
{"id": "C21", "title": "a failed cloud discards the partial batch and processes nothing", "statement": "If accumulating a cloud fails, process is not called with it: before the trigger the partial batch is cleared and forgotten, at a trigger the previous batch is processed and nothing is kept.", "quantifier": "every reachable state and key", "why_tests_cant": "State dependent.", "anchors": ["src/cloud_accum.cpp: CloudAccumulationLogic::push"]}
{"id": "C22", "title": "pass-through mode processes every cloud alone", "statement": "With accum_cloud=0 every successfully accumulated cloud is processed immediately and alone; failed ones are never processed.", "quantifier": "every history", "why_tests_cant": "Unbounded histories.", "anchors": ["src/cloud_accum.cpp: CloudAccumulationLogicPassThrough::push"]}
{"id": "C23", "title": "a zero limit is undefined behaviour", "statement": "With total_accum_cloud_max=0 the very first push reads the front of an empty vector (undefined behaviour); with a positive limit no history ever does.", "quantifier": "every history and limit", "why_tests_cant": "Safety over all histories.", "anchors": ["src/cloud_accum.cpp: CloudAccumulationLogic::push", "src/parameters.cpp: total_accum_cloud_max_"]}
{"id": "C24", "title": "chunked radius search misses nothing", "statement": "If the query radius is at most max_search_radius, max_search_radius is at most half the chunk length, and all distance weights are at least 1, every map point strictly within the radius is found by the search in the query's chunk.", "quantifier": "every cloud, every query point, every radius, every chunk length (real arithmetic)", "why_tests_cant": "Chunk border cases form a continuum in 3-D.", "anchors": ["include/mcl_3dl/chunked_kdtree.h: ChunkedKdtree::setInputCloud", "include/mcl_3dl/chunked_kdtree.h: ChunkedKdtree::radiusSearch", "include/mcl_3dl/chunked_kdtree.h: ChunkedKdtree::getChunkId"]}
{"id": "C25", "title": "returned ids are ids of the input cloud", "statement": "Every id returned by radiusSearch is an index of the input cloud whose point is at exactly the returned squared distance and within the radius, and no id is returned twice.", "quantifier": "every cloud, query, radius and count", "why_tests_cant": "Index remapping through chunks must hold for all clouds.", "anchors": ["include/mcl_3dl/chunked_kdtree.h: ChunkedKdtree::radiusSearch", "include/mcl_3dl/chunked_kdtree.h: ChunkedKdtree::setInputCloud"]}
{"id": "C26", "title": "chunked search equals a search of the whole cloud", "statement": "Under the hypotheses of C24 radiusSearch returns a neighbour iff a brute-force search of the whole cloud does, the same number of neighbours, and the same sorted list of distances for any result limit.", "quantifier": "every cloud, query, radius and limit", "why_tests_cant": "Equivalence of two searches over all inputs.", "anchors": ["include/mcl_3dl/chunked_kdtree.h: ChunkedKdtree::radiusSearch"]}
{"id": "C27", "title": "the radius guard is sufficient", "statement": "radiusSearch only rejects radii larger than the chunk length; radii between max_search_radius and the chunk length are accepted and silently miss neighbours -- with the node's default parameters this happens for the matched/unmatched output (0.5 m > 0.4 m).", "quantifier": "all radii accepted by the guard", "why_tests_cant": "Needs the relation between two parameters.", "anchors": ["include/mcl_3dl/chunked_kdtree.h: ChunkedKdtree::radiusSearch", "src/mcl_3dl.cpp: measure (unmatch_output_dist_)", "src/parameters.cpp: load"]}
{"id": "C28", "title": "loading a new cloud forgets the old one", "statement": "After setInputCloud(c) search results depend only on c and never on previously loaded clouds.", "quantifier": "every sequence of loaded clouds", "why_tests_cant": "History property.", "anchors": ["include/mcl_3dl/chunked_kdtree.h: ChunkedKdtree::setInputCloud"]}
{"id": "C29", "title": "distance weights below one break the chunk search", "statement": "The completeness of the chunked search needs every distance weight to be at least 1: for any weight below 1 there is a map point closer than the radius in the weighted metric which is not found.", "quantifier": "every weight in (0,1)", "why_tests_cant": "Parameter continuum.", "anchors": ["include/mcl_3dl/chunked_kdtree.h: ChunkedKdtree::setPointRepresentation", "src/mcl_3dl.cpp: configure (setRescaleValues)"]}
{"id": "C30", "title": "a map update overlays the base map with the latest update only", "statement": "After a map and updates U1..Uk have been received and the update timer has fired for each, the search map should be base+Uk; because the second map pointer aliases the first, the code actually searches base+U1+...+Uk and the base map itself grows.", "quantifier": "every sequence of maps, updates, timer ticks and initial poses", "why_tests_cant": "Pointer aliasing across unbounded histories.", "anchors": ["src/mcl_3dl.cpp: MCL3dlNode::cbMapUpdateTimer", "src/mcl_3dl.cpp: MCL3dlNode::loadMapCloud", "src/mcl_3dl.cpp: MCL3dlNode::cbMapcloudUpdate"]}
{"id": "C31", "title": "search structure, published map and availability agree", "statement": "In every reachable state: if a map is available the search structure is built on the same cloud object that was last published, the accumulation buffer exists, and no null pointer is dereferenced by cloud handling or by the timer.", "quantifier": "every history of map, update, load_pcd, timer, cloud and pose events", "why_tests_cant": "Unbounded event histories.", "anchors": ["src/mcl_3dl.cpp: MCL3dlNode::loadMapCloud", "src/mcl_3dl.cpp: MCL3dlNode::cbMapUpdateTimer", "src/mcl_3dl.cpp: MCL3dlNode::cbMapcloud", "src/mcl_3dl.cpp: MCL3dlNode::cbLoadPCD", "src/mcl_3dl.cpp: MCL3dlNode::accumCloud"]}
{"id": "C32", "title": "pending updates are dropped by a new map or a new initial pose", "statement": "A map update received but not yet applied is never applied after a new map is loaded or an initial pose is accepted.", "quantifier": "every history", "why_tests_cant": "Event ordering.", "anchors": ["src/mcl_3dl.cpp: MCL3dlNode::loadMapCloud", "src/mcl_3dl.cpp: MCL3dlNode::cbPosition"]}
{"id": "C33", "title": "no localization without a map", "statement": "While no valid map is loaded (initially, or after an invalid map message or failed load_pcd) clouds are ignored: no accumulation, no measurement; global localization fails with success=false and changes no particle.", "quantifier": "every history", "why_tests_cant": "Event ordering.", "anchors": ["src/mcl_3dl.cpp: MCL3dlNode::cbCloud", "src/mcl_3dl.cpp: MCL3dlNode::cbGlobalLocalization", "src/mcl_3dl.cpp: MCL3dlNode::cbMapcloud", "src/mcl_3dl.cpp: MCL3dlNode::cbLoadPCD"]}
{"id": "C34", "title": "low-pass filter passes a constant through unchanged", "statement": "After set(c) (or construction with out0=c) any number of inputs c yields output c, for any non-negative time constant.", "quantifier": "every c, time constant >= 0 and number of inputs (real arithmetic)", "why_tests_cant": "Unbounded input sequences.", "anchors": ["include/mcl_3dl/filter.h: Filter::in", "include/mcl_3dl/filter.h: Filter::set", "include/mcl_3dl/filter.h: Filter::Filter"]}
{"id": "C35", "title": "low-pass filter converges to a constant input", "statement": "From any start value, under constant input c the output error shrinks geometrically and the output tends to c; for time constant >= 1/2 the error never increases.", "quantifier": "every start value, c and positive time constant (real arithmetic)", "why_tests_cant": "Limit statement.", "anchors": ["include/mcl_3dl/filter.h: Filter::in"]}
{"id": "C36", "title": "low-pass filter never overshoots its inputs", "statement": "For time constant >= 1/2 every output lies within the interval spanned by the start value and the inputs so far.", "quantifier": "every input sequence of any length (real arithmetic)", "why_tests_cant": "Unbounded sequences.", "anchors": ["include/mcl_3dl/filter.h: Filter::in"]}
{"id": "C37", "title": "angle filter is invariant to full turns", "statement": "In angle mode adding any multiple of 2*pi to any input does not change any output (up to the half-turn tie), and the input used by the filter is never more than pi away from the last output.", "quantifier": "every input sequence and every number of turns (real arithmetic)", "why_tests_cant": "Unbounded sequences.", "anchors": ["include/mcl_3dl/filter.h: Filter::in"]}
{"id": "C38", "title": "high-pass filter rejects constants", "statement": "Under constant input the high-pass filter output converges to zero geometrically.", "quantifier": "every constant, start value and time constant > 0 (real arithmetic)", "why_tests_cant": "Limit statement.", "anchors": ["include/mcl_3dl/filter.h: Filter::in"]}
{"id": "C39", "title": "quaternion algebra", "statement": "Quaternion multiplication is associative with the default quaternion as unit, the norm is multiplicative, and inv() is a two-sided inverse of every non-zero quaternion; normalized() has norm 1 for every non-zero quaternion.", "quantifier": "all quaternions (real arithmetic)", "why_tests_cant": "Universally quantified identities.", "anchors": ["include/mcl_3dl/quat.h: Quat::operator*", "include/mcl_3dl/quat.h: Quat::inv", "include/mcl_3dl/quat.h: Quat::normalized", "include/mcl_3dl/quat.h: Quat::conj"]}
{"id": "C40", "title": "unit quaternions act as rigid rotations", "statement": "For unit q the map v -> q*v is linear, preserves dot product, norm and cross product, and (a*b)*v = a*(b*v); for a non-unit q lengths are scaled by |q|^2.", "quantifier": "all quaternions and vectors (real arithmetic)", "why_tests_cant": "Universally quantified identities.", "anchors": ["include/mcl_3dl/quat.h: Quat::operator*(Vec3)"]}
{"id": "C41", "title": "roll-pitch-yaw round trip", "statement": "setRPY always yields a unit quaternion equal to yaw*pitch*roll; getRPY(setRPY(r,p,y)) = (r,p,y) for |p|<pi/2 and r,y in (-pi,pi]; setRPY(getRPY(q)) represents the same rotation as every unit q that is not at pitch +-90 degrees; at +-90 degrees the heading is lost.", "quantifier": "all angles / all unit quaternions (real arithmetic)", "why_tests_cant": "Continuum with a singular set.", "anchors": ["include/mcl_3dl/quat.h: Quat::setRPY", "include/mcl_3dl/quat.h: Quat::getRPY"]}
{"id": "C42", "title": "axis-angle round trip", "statement": "Quat(axis,angle) is a unit quaternion for every non-zero axis; getAxisAng of a unit quaternion returns an angle in [-pi,pi] and rebuilding gives the same rotation, except within the documented small-angle cut-off where identity is returned and the dropped rotation is below 0.003 rad.", "quantifier": "all axes, angles and unit quaternions (real arithmetic)", "why_tests_cant": "Continuum.", "anchors": ["include/mcl_3dl/quat.h: Quat::setAxisAng", "include/mcl_3dl/quat.h: Quat::getAxisAng", "include/mcl_3dl/quat.h: Quat::weighted"]}
{"id": "C43", "title": "orientation from front and up vectors", "statement": "Quat(front,up) built from the rotated x and z axes of a unit quaternion q with non-zero scalar part returns q or -q; for half-turn rotations about a skew axis it returns a different rotation.", "quantifier": "all unit quaternions and all positive scalings of the two vectors (real arithmetic)", "why_tests_cant": "Sign cases over a continuum.", "anchors": ["include/mcl_3dl/quat.h: Quat::Quat(forward, up_raw)"]}
{"id": "C44", "title": "pose difference and sum are inverse", "statement": "(s - m) + m restores position and rotation of s for every m with non-zero rotation; m + (s - m) restores the position but in general not the rotation.", "quantifier": "all poses (real arithmetic)", "why_tests_cant": "Universally quantified identity.", "anchors": ["include/mcl_3dl/state_6dof.h: State6DOF::operator+", "include/mcl_3dl/state_6dof.h: State6DOF::operator-"]}
{"id": "C45", "title": "pose transform of a cloud is a rigid motion", "statement": "transform() keeps the number, order and labels of points and all pairwise distances, for every non-zero rotation, normalized or not.", "quantifier": "all clouds and poses (real arithmetic)", "why_tests_cant": "All clouds.", "anchors": ["include/mcl_3dl/state_6dof.h: State6DOF::transform"]}
{"id": "C46", "title": "zero-sigma noise", "statement": "With zero sigma the diagonal generator returns exactly the mean without consuming randomness, so resample(0) and noise(0) leave unit-quaternion poses unchanged; but noise generated around a non-zero mean position records that whole position as odometry error.", "quantifier": "all means and poses (real arithmetic)", "why_tests_cant": "All poses.", "anchors": ["include/mcl_3dl/noise_generators/diagonal_noise_generator.h", "include/mcl_3dl/state_6dof.h: State6DOF::generateNoise", "include/mcl_3dl/pf.h: ParticleFilter::init"]}
{"id": "C47", "title": "noise-free prediction applies exactly the odometry displacement", "statement": "With zero noise parameters predict() composes the pose with the relative odometry motion: new pose = pose o prev^-1 o current.", "quantifier": "all unit-rotation poses and odometry pairs (real arithmetic)", "why_tests_cant": "Universally quantified.", "anchors": ["include/mcl_3dl/motion_prediction_models/motion_prediction_model_differential_drive.h: setOdoms", "include/mcl_3dl/motion_prediction_models/motion_prediction_model_differential_drive.h: predict"]}
{"id": "C48", "title": "noise-free predictions telescope", "statement": "Predicting along any chain of odometry poses o0..on with zero noise gives the same pose as one prediction from o0 to on; a pose that starts at o0 ends at on.", "quantifier": "all chains of any length (real arithmetic)", "why_tests_cant": "Unbounded chains.", "anchors": ["include/mcl_3dl/motion_prediction_models/motion_prediction_model_differential_drive.h: predict"]}
{"id": "C49", "title": "prediction keeps rotations normalized", "statement": "After predict() the rotation is a unit quaternion whatever the noise parameters, for unit inputs.", "quantifier": "all poses, noises and odometry (real arithmetic)", "why_tests_cant": "Continuum.", "anchors": ["include/mcl_3dl/motion_prediction_models/motion_prediction_model_differential_drive.h: predict"]}
{"id": "C50", "title": "odometry error integral decays", "statement": "Without noise each predict multiplies the integrated odometry error by (1-dt/tc): its norm never grows if 0<=dt<=2*tc and vanishes geometrically for constant dt in (0,2tc); if dt>2*tc (possible, as gaps up to 5 s are accepted) it diverges.", "quantifier": "all time steps, time constants and histories (real arithmetic)", "why_tests_cant": "Unbounded histories.", "anchors": ["include/mcl_3dl/motion_prediction_models/motion_prediction_model_differential_drive.h: predict"]}
{"id": "C51", "title": "mean pose of agreeing particles is their pose", "statement": "The pose mean of particles sharing one unit rotation (scalar part non-zero) has that rotation (up to sign) and the weighted mean position, for any positive weights.", "quantifier": "all particle lists (real arithmetic)", "why_tests_cant": "All lists.", "anchors": ["include/mcl_3dl/state_6dof.h: ParticleWeightedMeanQuat"]}
{"id": "C52", "title": "DDA ray casting never reads outside the voxel grid", "statement": "For every non-empty map whose voxel count fits in int, and every ray, every voxel reported lies in the grid and its array index is within the grid array, distinct voxels having distinct indices; a map with 2^31 or more voxels overflows int (undefined behaviour).", "quantifier": "every map cloud, ray and number of steps", "why_tests_cant": "Memory safety for all maps and rays.", "anchors": ["include/mcl_3dl/raycasts/raycast_using_dda.h: RaycastUsingDDA::getNextCastResult", "include/mcl_3dl/raycasts/raycast_using_dda.h: RaycastUsingDDA::getArrayIndex", "include/mcl_3dl/raycasts/raycast_using_dda.h: RaycastUsingDDA::updatePointCloud"]}
{"id": "C53", "title": "DDA ray casting terminates", "statement": "getNextCastResult returns false after at most |dx|+|dy|+|dz| calls and keeps returning false until the next setRay.", "quantifier": "every ray", "why_tests_cant": "Termination.", "anchors": ["include/mcl_3dl/raycasts/raycast_using_dda.h: RaycastUsingDDA::getNextCastResult"]}
{"id": "C54", "title": "DDA visits a connected chain of voxels along the ray", "statement": "For a ray that starts in the map and does not leave it below its minimum corner, the reported voxels form a chain from the begin voxel, each one step along one axis in the direction of the ray, and each is intersected by the ray; they never pass the end voxel on any axis unless the ray end lies exactly on a voxel face in a negative direction (then the end voxel is passed by one); a ray leaving the map below its minimum can report a voxel it does not touch.", "quantifier": "every ray (real arithmetic)", "why_tests_cant": "Continuum of rays.", "anchors": ["include/mcl_3dl/raycasts/raycast_using_dda.h: RaycastUsingDDA::setRay", "include/mcl_3dl/raycasts/raycast_using_dda.h: RaycastUsingDDA::getNextCastResult", "include/mcl_3dl/raycasts/raycast_using_dda.h: RaycastUsingDDA::incrementIndex"]}
{"id": "C55", "title": "DDA collision criterion", "statement": "A voxel reports a collision iff it contains a map point whose perpendicular distance to the ray line is below max(ray_angle_half*foot distance, voxel diagonal threshold); the threshold ignores the z grid size (the y size is counted twice).", "quantifier": "every map and ray", "why_tests_cant": "Continuum; parameter dependence.", "anchors": ["include/mcl_3dl/raycasts/raycast_using_dda.h: RaycastUsingDDA::hasIntersection", "include/mcl_3dl/raycasts/raycast_using_dda.h: RaycastUsingDDA::RaycastUsingDDA"]}
{"id": "C56", "title": "DDA grid follows the current map", "statement": "After setRay the voxel grid contains exactly the points of the current map if maps with different content have different stamps; with an equal stamp the old grid (pointers into the old cloud) is used.", "quantifier": "every sequence of maps and rays", "why_tests_cant": "History.", "anchors": ["include/mcl_3dl/raycasts/raycast_using_dda.h: RaycastUsingDDA::updatePointCloud"]}
{"id": "C57", "title": "k-d tree ray casting samples the ray uniformly", "statement": "The k-th result is at begin + k*grid_min along the ray, exactly floor((length+tolerance)/grid_min)-1 results are produced and none is beyond the ray end plus tolerance.", "quantifier": "every ray (real arithmetic)", "why_tests_cant": "Continuum.", "anchors": ["include/mcl_3dl/raycasts/raycast_using_kdtree.h: RaycastUsingKDTree::setRay", "include/mcl_3dl/raycasts/raycast_using_kdtree.h: RaycastUsingKDTree::getNextCastResult"]}
{"id": "C58", "title": "k-d tree ray casting reports a collision iff a map point is near the sample", "statement": "Up to the configured search tolerance, a result is a collision iff some map point is closer (weighted distance) than sqrt(2)/2*grid_max to the sample position and the reported point is a nearest one; with unit distance weights and exact search the reported sine of the incidence angle is between 0 and 1, with larger weights it can exceed 1; the search radii never exceed the beam model's maximum search range.", "quantifier": "every map and ray (real arithmetic)", "why_tests_cant": "Continuum.", "anchors": ["include/mcl_3dl/raycasts/raycast_using_kdtree.h: RaycastUsingKDTree::getNextCastResult", "src/lidar_measurement_model_beam.cpp: refreshParameters"]}
{"id": "C59", "title": "beam status classification", "statement": "getBeamStatus is decided by the first collision whose label is at most filter_label_max: TOTAL_REFLECTION if its sine is not above the threshold, else HIT if within hit_range of the beam end, else SHORT; LONG iff there is no such collision.", "quantifier": "every sequence of cast results", "why_tests_cant": "All sequences.", "anchors": ["src/lidar_measurement_model_beam.cpp: LidarMeasurementModelBeam::getBeamStatus"]}
{"id": "C60", "title": "beam likelihood range and law", "statement": "The beam likelihood is max(alpha, beta^n) with n the number of penalised beams, lies in [alpha,1] for alpha in (0,1], never increases when one more beam is penalised and equals alpha^(n/N) for N=num_points sampled beams (n<=N).", "quantifier": "every set of beams and alpha (real arithmetic)", "why_tests_cant": "Continuum.", "anchors": ["src/lidar_measurement_model_beam.cpp: LidarMeasurementModelBeam::measure", "src/lidar_measurement_model_beam.cpp: LidarMeasurementModelBeam::refreshParameters"]}
{"id": "C61", "title": "beam likelihood during global localization", "statement": "The documented law alpha^(n/N) with N the number of cast rays holds whenever the number of sampled beams is the default number; it fails when global localization reduces the number of beams because the exponent is not recomputed.", "quantifier": "every particle count", "why_tests_cant": "History dependent.", "anchors": ["src/lidar_measurement_model_beam.cpp: LidarMeasurementModelBeam::setGlobalLocalizationStatus", "src/lidar_measurement_model_beam.cpp: LidarMeasurementModelBeam::measure"]}
{"id": "C62", "title": "likelihood field score", "statement": "The likelihood is sum over matched points of weight*(match_dist_min - max(d,match_dist_flat)), is >= 0 and at most N*weight*(match_dist_min-match_dist_flat), never decreases when a point gets closer to the map, and points farther than match_dist_min contribute nothing.", "quantifier": "every cloud, map and pose (real arithmetic)", "why_tests_cant": "Continuum.", "anchors": ["src/lidar_measurement_model_likelihood.cpp: LidarMeasurementModelLikelihood::measure"]}
{"id": "C63", "title": "match ratio is a ratio", "statement": "The reported match ratio is the fraction of points with a map point within match_dist_min, always in [0,1]; an empty or missing cloud gives likelihood 1 and ratio 0.", "quantifier": "every cloud and map", "why_tests_cant": "All clouds.", "anchors": ["src/lidar_measurement_model_likelihood.cpp: LidarMeasurementModelLikelihood::measure"]}
{"id": "C64", "title": "clipping keeps exactly the points in range", "statement": "filter() passes to the sampler exactly the points with near^2<=x^2+y^2<=far^2 and zmin<=z<=zmax, in order (real arithmetic); in binary32 a point whose coordinates are NaN is never clipped.", "quantifier": "every cloud and clip setting", "why_tests_cant": "All clouds.", "anchors": ["src/lidar_measurement_model_likelihood.cpp: LidarMeasurementModelLikelihood::filter", "src/lidar_measurement_model_beam.cpp: LidarMeasurementModelBeam::filter"]}
{"id": "C65", "title": "sample budget under global localization", "statement": "The number of sampled points is the default when the particle count is at most the configured one, otherwise max(global minimum, default*configured/current); points*particles never exceeds default*configured unless clamped to the minimum, and it never exceeds the default if the minimum does not.", "quantifier": "every particle count and setting", "why_tests_cant": "Integer arithmetic over all sizes.", "anchors": ["src/lidar_measurement_model_likelihood.cpp: LidarMeasurementModelLikelihood::setGlobalLocalizationStatus", "src/lidar_measurement_model_beam.cpp: LidarMeasurementModelBeam::setGlobalLocalizationStatus"]}
{"id": "C66", "title": "uniform sampler", "statement": "sample() returns exactly num points, each a point of the input cloud, or an empty cloud if the input is empty.", "quantifier": "every cloud, num and random sequence", "why_tests_cant": "All random sequences.", "anchors": ["include/mcl_3dl/point_cloud_random_samplers/point_cloud_uniform_sampler.h: sample"]}
{"id": "C67", "title": "weighted sampler returns distinct points", "statement": "sample() returns min(num, size) points with distinct indices of the input cloud; sampling weights lie in [1, max_weight]; a zero-covariance particle set (0/0 eigenvalue ratio) makes it loop for ever whenever 2<=num<size.", "quantifier": "every cloud, normals, random sequence", "why_tests_cant": "All random sequences; divergence.", "anchors": ["include/mcl_3dl/point_cloud_random_samplers/point_cloud_sampler_with_normal.h: sample"]}
{"id": "C68", "title": "principal direction of the particle spread", "statement": "The weighted sampler should use the principal axis of the position covariance; it takes absolute values of the covariance first, so for negatively correlated axes the direction is mirrored.", "quantifier": "every covariance matrix", "why_tests_cant": "Sign patterns.", "anchors": ["include/mcl_3dl/point_cloud_random_samplers/point_cloud_sampler_with_normal.h: setParticleStatistics"]}
{"id": "C69", "title": "normal likelihood shape", "statement": "NormalLikelihood(sigma) is positive, even, maximal at 0 with value 1/sqrt(2 pi sigma^2) and strictly decreasing in |x| for sigma<>0. In float arithmetic, for 2^-20 <= sigma <= 2^20 and |x| <= 10 sigma, the computed value is finite and has a relative error of at most 1/10000 plus twice that of std::exp.", "quantifier": "every sigma and x (real arithmetic); every finite float sigma and x in the range (binary32/binary64)", "why_tests_cant": "Continuum.", "anchors": ["include/mcl_3dl/nd.h: NormalLikelihood"]}
{"id": "C70", "title": "gravity likelihood", "statement": "The IMU likelihood depends only on the angle between measured acceleration and the particle's up vector, is unchanged by yawing the particle, maximal when aligned, and its arc-cosine argument is always within [-1,1] in real arithmetic but can exceed 1 in binary32, in which case the result is NaN and the whole update is dropped. In binary32 the computed cosine is finite and within 1/80000 of the true one for rotations of nearly unit length and accelerations between 0.1 and 27 m/s^2, so only particles within 5.1 milliradians of the measured direction can exceed one, and no particle between that and the opposite direction does.", "quantifier": "all poses and accelerations", "why_tests_cant": "Continuum / rounding.", "anchors": ["include/mcl_3dl/imu_measurement_models/imu_measurement_model_gravity.h: measure"]}
{"id": "C71", "title": "parameter renaming", "statement": "paramRename gives the new name the old value iff the old is set and the new is not, never overwrites an explicitly set new parameter, touches no other parameter and is idempotent.", "quantifier": "every parameter store", "why_tests_cant": "All stores.", "anchors": ["include/mcl_3dl_compat/compatibility.h: paramRename"]}
{"id": "C72", "title": "parameter loading guards", "statement": "load() fails iff both fake_imu and fake_odom are set; after a successful load with DDA enabled the voxel size is at least the largest map grid size, and map_grid_min/max bound all three grid sizes.", "quantifier": "every parameter set", "why_tests_cant": "All parameter sets.", "anchors": ["src/parameters.cpp: Parameters::load"]}
{"id": "C73", "title": "compatibility level", "statement": "checkCompatMode accepts exactly the levels in [supported, current]; topics and services use the new name iff the level is the current one.", "quantifier": "every level", "why_tests_cant": "All integers.", "anchors": ["include/mcl_3dl_compat/compatibility.h"]}
{"id": "C74", "title": "point cloud conversion", "statement": "fromROSMsg succeeds iff the message has x, y, z fields and at least one point; then all points are kept in order with coordinates, and intensity/label are taken iff the fields exist; on failure the output is untouched.", "quantifier": "every message", "why_tests_cant": "All messages.", "anchors": ["include/mcl_3dl/point_conversion.h: fromROSMsg"]}
{"id": "C75", "title": "odometry messages are neither lost nor applied twice", "statement": "For any odometry stream the displacements applied to the particles telescope: with zero noise a particle moves by exactly first^-1 o last-applied since the last (re)initialisation; messages at most 0.05 s after the last applied one are merged, and a negative or >5 s gap discards the motion and re-initialises at the next message.", "quantifier": "every odometry stream", "why_tests_cant": "Unbounded streams.", "anchors": ["src/mcl_3dl.cpp: MCL3dlNode::cbOdom"]}
{"id": "C76", "title": "IMU gating", "statement": "Between (re)initialisations the IMU measurement is applied only if more than 0.05 s passed since the last applied one and the transform is available; time jumps reset; failed transforms change no particle.", "quantifier": "every IMU stream", "why_tests_cant": "Unbounded streams.", "anchors": ["src/mcl_3dl.cpp: MCL3dlNode::cbImu"]}
{"id": "C77", "title": "invalid initial poses are rejected", "statement": "An initial pose whose quaternion squared norm differs from 1 by more than 0.1, or that cannot be transformed, changes nothing; but a NaN quaternion passes the check.", "quantifier": "every message (IEEE comparison semantics)", "why_tests_cant": "NaN semantics.", "anchors": ["src/mcl_3dl.cpp: MCL3dlNode::cbPosition"]}
{"id": "C78", "title": "global localization covers every floor cell and heading", "statement": "A successful global_localization creates exactly one particle for each kept cell of the current map (updates included) and each of the div_yaw headings relative to the last inertial orientation, in this order, all with the same weight and bias one; a cell is kept exactly when no cell lies within a grid length of the point 1 cm plus a grid length above it; at least one cell is kept when the z distance weight is at least 1 (with a smaller weight none may remain: the service still reports success and the node has no particle left); the weights sum to div_yaw rather than 1.", "quantifier": "every map and setting (real arithmetic)", "why_tests_cant": "All maps.", "anchors": ["src/mcl_3dl.cpp: MCL3dlNode::cbGlobalLocalization"]}
{"id": "C79", "title": "particle count returns to the configured number", "statement": "After global localization each localization step multiplies the particle count by 0.75 (rounded down) but never below the configured number; after finitely many steps it equals the configured number and stays there; it never increases.", "quantifier": "every start count and configured number >= 1", "why_tests_cant": "Unbounded sequences.", "anchors": ["src/mcl_3dl.cpp: MCL3dlNode::measure"]}
{"id": "C80", "title": "global localization status lasts a fixed number of steps", "statement": "The GLOBAL_LOCALIZATION status is reported from the first step with too many particles until exactly 3*ceil(lpf_step) steps after the last such step, then never again until the next one.", "quantifier": "every history of particle counts", "why_tests_cant": "Unbounded sequences.", "anchors": ["src/mcl_3dl.cpp: MCL3dlNode::measure"]}
{"id": "C81", "title": "status decision", "statement": "Convergence status is LARGE_STD only when no global localization is in progress and some threshold is exceeded, CONVERGED iff not LARGE_STD and both the position and angle deviations are below the fix thresholds, and the diagnostics level is ERROR iff points are missing or LARGE_STD.", "quantifier": "every covariance and threshold", "why_tests_cant": "Decision logic over reals.", "anchors": ["src/mcl_3dl.cpp: MCL3dlNode::measure", "src/mcl_3dl.cpp: MCL3dlNode::diagnoseStatus"]}
{"id": "C82", "title": "published transform is consistent with the pose", "statement": "The published map->odom transform composed with the odometry pose equals the published pose; on a jump it equals the estimated pose exactly (away from pitch +-90 degrees).", "quantifier": "all poses and odometry (real arithmetic)", "why_tests_cant": "Continuum.", "anchors": ["src/mcl_3dl.cpp: MCL3dlNode::measure"]}
{"id": "C83", "title": "measurement skipping", "statement": "Of every skip_measure consecutive process calls exactly one performs a measurement; skip_measure=0 is a division by zero (undefined behaviour).", "quantifier": "every history and skip_measure", "why_tests_cant": "Unbounded.", "anchors": ["src/mcl_3dl.cpp: MCL3dlNode::measure"]}
{"id": "C84", "title": "beam origins are always in range", "statement": "Every point handed to the beam model carries a label smaller than the number of recorded sensor origins, so the origin lookup never reads out of bounds.", "quantifier": "every history of clouds and failures", "why_tests_cant": "Unbounded histories.", "anchors": ["src/mcl_3dl.cpp: MCL3dlNode::accumCloud", "src/mcl_3dl.cpp: MCL3dlNode::measure", "src/lidar_measurement_model_beam.cpp: LidarMeasurementModelBeam::measure"]}
{"id": "C85", "title": "time tolerance stays in range", "statement": "The adaptive transform tolerance always stays between 0 and 1 second whatever the wall-clock history.", "quantifier": "every clock history (real arithmetic)", "why_tests_cant": "Unbounded.", "anchors": ["src/mcl_3dl.cpp: MCL3dlNode::measure"]}
{"id": "C86", "title": "status never reports an uninitialised entropy", "statement": "The status message should report an entropy computed by a measurement; when the first processed cloud is filtered out completely before any successful measurement, the status is published with a never-written entropy.", "quantifier": "every history", "why_tests_cant": "History dependent.", "anchors": ["src/mcl_3dl.cpp: MCL3dlNode::diagnoseStatus", "src/mcl_3dl.cpp: MCL3dlNode::measure", "include/mcl_3dl/pf.h: ParticleFilter::getEntropy"]}
{"id": "C87", "title": "an overflowing likelihood total silently destroys the weights", "statement": "In binary32, if the weighted likelihood total overflows to infinity (one infinite likelihood is enough), measure() does not reject it: every weight becomes NaN or 0.", "quantifier": "every particle list, every likelihood function with non-negative non-NaN weighted values whose computed total is infinite", "why_tests_cant": "All overflow patterns and particle counts.", "anchors": ["include/mcl_3dl/pf.h: ParticleFilter::measure"]}
{"id": "C88", "title": "6DOF covariance has no negative variance and its angle wrapping terminates", "statement": "The pose covariance computed by covariance() uses, for every particle whose orientation is a quaternion, position differences and angle differences that equal the true difference modulo a full turn and lie in [-pi,pi] (the wrapping loops run at most once); the resulting 6x6 matrix is positive semi-definite for non-negative weights of positive total.", "quantifier": "every particle list, weight vector and direction (real arithmetic)", "why_tests_cant": "All particle sets and directions; termination of loops on all inputs.", "anchors": ["include/mcl_3dl/state_6dof.h:covElement", "include/mcl_3dl/pf.h:covariance"]}
{"id": "C89", "title": "DDA ray casting skips no voxel", "statement": "For a ray that lies in the map (extended by the tolerance) and does not end exactly on a voxel face in a negative direction, every point of the ray lies in the begin voxel, a reported voxel or the end voxel, and the number of reported voxels is the number of voxel faces between begin and end, minus one.", "quantifier": "every map and every such ray (real arithmetic)", "why_tests_cant": "Continuum of rays.", "anchors": ["include/mcl_3dl/raycasts/raycast_using_dda.h: RaycastUsingDDA::setRay", "include/mcl_3dl/raycasts/raycast_using_dda.h: RaycastUsingDDA::getNextCastResult"]}
{"id": "C90", "title": "the configured search structure covers every measurement search", "statement": "For every parameter set with non-negative map grids, distance weights of at least one and a map chunk at least twice the largest sensor search range, no search performed by the beam or likelihood model of the configured node misses a map point in range (up to the configured tolerance); the default parameters meet these conditions. The search that colours unmatched points uses a larger radius than configured and can miss points with the default parameters.", "quantifier": "every parameter set, map and query point (real arithmetic)", "why_tests_cant": "Infinitely many parameter sets, maps and points.", "anchors": ["src/parameters.cpp:load", "src/mcl_3dl.cpp:configure", "include/mcl_3dl/chunked_kdtree.h:radiusSearch"]}
{"id": "C91", "title": "number of global localization headings", "statement": "The number of headings tried by global localization is 2*pi/grid_ang rounded to the nearest integer, at least one up to an interval of two turns and zero (no particle at all) above.", "quantifier": "every positive angular grid", "why_tests_cant": "Continuum of intervals.", "anchors": ["src/parameters.cpp:load"]}
{"id": "C92", "title": "a measurement uses the latest clouds, each exactly once", "statement": "Every measurement works on a non-empty consecutive run of the most recent clouds that could be transformed while a map was loaded (just the arriving cloud without accumulation); every point of these clouds occurs exactly once, is transformed to the robot frame exactly once and carries the number of its cloud, the i-th sensor origin belongs to the i-th cloud and the stamp is that of the newest one. A cloud is never used twice, also after failed transforms.", "quantifier": "every history of messages and failures", "why_tests_cant": "Unbounded histories with arbitrary failures.", "anchors": ["src/mcl_3dl.cpp: MCL3dlNode::accumCloud", "src/mcl_3dl.cpp: MCL3dlNode::measure", "src/cloud_accum.cpp"]}
{"id": "C93", "title": "no legal history makes the node fail", "statement": "With settings that make sense (at least one particle, skip interval and headings, search radii within a chunk, non-zero standard deviations, not both sensors faked) and an environment that keeps its contracts (searches answer from the loaded map, maps arrive with increasing stamps, samplers return input points, requested sizes and global localization grids are not empty), every finite history of maps, updates, clouds, odometry, inertial messages, poses, landmarks and service calls is processed to its end: no null pointer, no out-of-range access, no division by zero, no failed assertion, no exception and no endless ray, and the outcome does not depend on how long the rays are allowed to run. The k-d tree ray caster works with every map; the DDA ray caster with every map whose grid can be built.", "quantifier": "every legal history of events of any length, every setting that makes sense (real arithmetic)", "why_tests_cant": "Unbounded histories over a continuum of messages.", "anchors": ["src/mcl_3dl.cpp: MCL3dlNode (all callbacks)", "include/mcl_3dl/pf.h", "src/lidar_measurement_model_beam.cpp", "include/mcl_3dl/raycasts"]}
{"id": "C94", "title": "particles stay usable", "statement": "After every such history the node has at least one particle, no particle has a negative weight and not all weights are zero.", "quantifier": "every legal history of events of any length (real arithmetic)", "why_tests_cant": "Unbounded histories.", "anchors": ["src/mcl_3dl.cpp: MCL3dlNode (all callbacks)", "include/mcl_3dl/pf.h"]}
{"id": "C95", "title": "one localization step in full", "statement": "Every localization step multiplies the weight of every particle, exactly once, by its beam likelihood, its likelihood field score and the normal density of its accumulated odometry error, evaluated with the points of this measurement and the last published map; estimate and published covariance are those of the weighted particles; the new particles are a resampling of them, each with freshly drawn odometry noise, moved by the expansion noise exactly if the match ratio is below the threshold, and reduced exactly if there were more than configured.", "quantifier": "every history of events, every cloud that leads to a localization step, every environment answer (real arithmetic)", "why_tests_cant": "Composes all parts of the node over arbitrary histories.", "anchors": ["src/mcl_3dl.cpp: MCL3dlNode::measure"]}
{"id": "C96", "title": "which particles and which match ratio are shown", "statement": "A localization step publishes the particles it was given, in order, before they are resampled; every other event that publishes particles publishes the new ones. The reported match ratio is that of the best particle.", "quantifier": "every node state and event", "why_tests_cant": "Unbounded particle sets and histories.", "anchors": ["src/mcl_3dl.cpp: MCL3dlNode::measure, publishParticles"]}
{"id": "C97", "title": "matched and unmatched points", "statement": "The matched and unmatched clouds of a localization step are two disjoint selections, in order, of the down-sampled points at the published pose: a matched point has a map point nearer than the match distance, an unmatched point has no map point within the unmatch distance (if the search structure covers it, up to the search tolerance), every other point lies between. They are published exactly at steps with a subscriber whose stamp is more than the interval after, or more than a second before, that of the last report.", "quantifier": "every history, cloud, map and setting (real arithmetic)", "why_tests_cant": "Continuum of points and unbounded histories.", "anchors": ["src/mcl_3dl.cpp: MCL3dlNode::measure", "include/mcl_3dl/chunked_kdtree.h"]}
{"id": "C98", "title": "the saved point cloud", "statement": "With output_pcd the file written at the end contains the likelihood points of every localization step since the last map load, each placed at the pose published by its step, in order; without it, or before the first map, nothing is written.", "quantifier": "every history of events", "why_tests_cant": "Unbounded histories.", "anchors": ["src/mcl_3dl.cpp: MCL3dlNode::measure, ~MCL3dlNode, loadMapCloud"]}
{"id": "C99", "title": "landmark measurements", "statement": "A landmark multiplies every weight by the likelihood of the six-dimensional difference between particle and measured pose (zero exactly for the measured pose), resamples, publishes the new particles and changes nothing else; every particle is kept floor or ceiling of N * weight * likelihood / total times.", "quantifier": "every node state, measured pose and positive likelihood (real arithmetic)", "why_tests_cant": "Continuum of poses, weights and resampling offsets.", "anchors": ["src/mcl_3dl.cpp: MCL3dlNode::cbLandmark", "include/mcl_3dl/pf.h"]}
{"id": "C100", "title": "particles without odometry noise", "statement": "After the start, and after an expansion, requested or automatic, every particle moves exactly with the odometry (it carries no sampled noise), and this stays so whatever happens until the next localization step. A pose built from a position and an orientation (or roll, pitch and yaw) carries no noise and no accumulated odometry error; a sum or difference of poses carries no noise and the sum or difference of the odometry errors.", "quantifier": "every history of events", "why_tests_cant": "Unbounded histories.", "anchors": ["src/mcl_3dl.cpp: MCL3dlNode::cbExpansionReset, measure", "include/mcl_3dl/state_6dof.h: operator+"]}
{"id": "C101", "title": "landmark likelihood", "statement": "The likelihood of a landmark is the six-dimensional normal density of the pose difference: the product of the one-dimensional densities if the components are independent; for every positive definite covariance positive, even and strictly decreasing away from zero in every direction, so that no particle gets a larger likelihood than one at the measured pose and only particles there get the same. A covariance with a computed determinant of zero makes the landmark either ignored or turns every weight into NaN; for a determinant between 2^-80 and 2^80 the computed coefficient has a relative error below 1/4000000.", "quantifier": "every dimension, positive definite covariance, pose and particle set (real arithmetic); every particle set for the singular case (binary32)", "why_tests_cant": "Continuum of covariances and poses.", "anchors": ["include/mcl_3dl/nd.h: NormalLikelihoodNd", "src/mcl_3dl.cpp: MCL3dlNode::cbLandmark"]}
{"id": "C102", "title": "initial pose follows the covariance of the message", "statement": "Vectors generated for a covariance matrix have the requested mean and covariance whenever the underlying draws have mean zero and unit covariance (only the lower triangle of the matrix is used), equal the mean without covariance, and never move in a direction in which the covariance has no spread. After an accepted initial pose every particle stands at such a vector, with no odometry error and weight 1/N.", "quantifier": "every dimension, mean, positive semi-definite covariance and family of draws (real arithmetic)", "why_tests_cant": "Continuum of covariances; statistical tests only bound the error of samples.", "anchors": ["include/mcl_3dl/noise_generators/multivariate_noise_generator.h", "src/mcl_3dl.cpp: MCL3dlNode::cbPosition", "include/mcl_3dl/state_6dof.h: generateNoise"]}
{"id": "C103", "title": "odometry error of the first particles", "statement": "The particles of the configured initial pose (unlike those of an initial pose message) carry their whole map position as accumulated odometry error, so that a localization step with them multiplies every weight by the normal density of the distance from the origin of the map.", "quantifier": "every configured initial pose and history in which the first particles are still in use (real arithmetic)", "why_tests_cant": "Continuum of poses; a test at the origin does not show it.", "anchors": ["src/mcl_3dl.cpp: MCL3dlNode::configure, measure", "include/mcl_3dl/state_6dof.h: generateNoise"]}
{"id": "C104", "title": "debug markers show the estimate's beams", "statement": "With the beam model enabled, every localization publishes one marker array: for each sampled beam, in order, a line from the beam's origin at the estimated pose to the measured point at the estimated pose, blue if the beam is long, red if short, green if hit, faint green if totally reflected, preceded by a cube of the same colour at the position where the ray was stopped unless the beam is long; then one magenta point for each sampled likelihood point; the marker ids are 0,1,2,... Drawing does not influence the localization: it only casts the rays of one more evaluation of the beam model.", "quantifier": "every map, estimate with a unit rotation, sampled point sets, beam origins, and both ray casters after any earlier rays", "why_tests_cant": "the colours, positions and numbering depend on every ray against every map; tests only check that markers are published", "anchors": ["src/mcl_3dl.cpp:464-627 MCL3dlNode::measure", "src/lidar_measurement_model_beam.cpp:157-192 getBeamStatus"]}
{"id": "C105", "title": "clouds, sensor origins and initial poses end up where they were", "statement": "If the transforms the node looks up are those of a moving robot, every point that enters a measurement lies where its sensor saw it at the time of its own cloud, its origin is where that sensor was at that time, and both are expressed relative to the robot at the time of the newest accumulated cloud, so that the distance from the origin to the point is the measured range; an initial pose given in any frame places the particles around the same place in the map frame at the time of the message.", "quantifier": "every motion of the robot and its sensors, every history of clouds from any number of sensors, every accumulation setting, every initial pose message", "why_tests_cant": "depends on all motions and on which of several clouds a point came from; the tests use a static transform tree", "anchors": ["src/mcl_3dl.cpp:170-186 cbPosition", "src/mcl_3dl.cpp:276-300 accumCloud", "src/mcl_3dl.cpp:321-359 measure"]}
{"id": "C106", "title": "the IMU faked from odometry ignores the tilt of the robot", "statement": "With fake_imu, and odometry messages in the odometry frame that agree with the transforms, the acceleration handed to the IMU model is always exactly along the robot's own z axis, whatever constant tilt the odometry reports. So the particles are weighted as if the robot stood upright: a particle that agrees with a tilted odometry is weighted strictly worse than an upright one.", "quantifier": "every constant orientation, every stream of odometry messages, every filter constant, every particle", "why_tests_cant": "a claim about every orientation and every stream through the low pass filter; the tests fake the IMU with level odometry only", "anchors": ["src/mcl_3dl.cpp:235-247 cbOdom", "src/mcl_3dl.cpp:941-1000 cbImu"]}
{"id": "C107", "title": "without noise the node is exact dead reckoning", "statement": "With every noise parameter (resampling, expansion, odometry errors) zero and all particles at one pose, no cloud, IMU message, landmark, map, resize or expansion request ever moves or spreads them: after every history the particles stand exactly at the start pose composed with the odometry displacements that were applied, every published particle cloud shows just that pose, each localization computes exactly that pose (rotation up to the quaternion sign, half turns excepted), and its covariance is exactly zero when there are at most num_particles particles. With odometry without time jumps the displacement is the one from the first to the last applied message, which is at most 0.05 s old. With zero initial spread the node starts that way at the configured initial pose.", "quantifier": "every history of events without an accepted initial pose and without global localization, every sort, random stream, cloud and transform, every particle count", "why_tests_cant": "ranges over unbounded histories of all event kinds; the tests check one rosbag with tolerances of half a metre", "anchors": ["src/mcl_3dl.cpp:210-266 cbOdom", "src/mcl_3dl.cpp:304-898 measure", "src/mcl_3dl.cpp:899-940 cbLandmark", "include/mcl_3dl/pf.h resample, resizeParticle, noise, predict", "include/mcl_3dl/motion_prediction_models/motion_prediction_model_differential_drive.h"]}
{"id": "C108", "title": "the true pose is never lost", "statement": "Suppose one particle stands exactly at the true pose with the largest weight and the smallest accumulated odometry error. Without resampling and odometry noise, and as long as every sensor message agrees with the true pose (all points used by the likelihood model lie on map points, no beam is penalised, the filtered acceleration is vertical, landmarks report the pose itself), a particle at the true pose survives every measurement and resampling with the largest weight, whatever the other particles are: after every history one particle stands exactly at the initial pose composed with the applied odometry, and every published particle cloud contains that pose. A node one of whose initial particles was drawn without displacement (and none nearer to the map origin) starts that way.", "quantifier": "every history of such events, every particle set, map, cloud, random offset in (0, 1/n) and sort that leaves sorted lists alone", "why_tests_cant": "ranges over unbounded histories and all positions of the wrong particles; a test can only sample a few", "anchors": ["src/mcl_3dl.cpp:210-266 cbOdom", "src/mcl_3dl.cpp:304-898 measure", "src/mcl_3dl.cpp:899-940 cbLandmark", "src/mcl_3dl.cpp:942-1008 cbImu", "include/mcl_3dl/pf.h measure, resample", "src/lidar_measurement_model_likelihood.cpp measure", "src/lidar_measurement_model_beam.cpp measure"]}
{"id": "C109", "title": "every service call is answered once, truthfully or not", "statement": "Every service call is answered exactly once and nothing else is answered. load_pcd reports success exactly if the file could be read; global localization reports success exactly if the last attempt to load a map succeeded, and then its text is the number of particles the filter has from then on. The expansion service always reports failure with an empty text although it always perturbs every particle.", "quantifier": "every history of events, every particle count, map and random stream", "why_tests_cant": "ranges over all histories; tests call each service once", "anchors": ["src/mcl_3dl.cpp:1172-1189 cbLoadPCD", "src/mcl_3dl.cpp:1019-1038 cbResizeParticle, cbExpansionReset", "src/mcl_3dl.cpp:1039-1120 cbGlobalLocalization"]}
{"id": "C110", "title": "what is published when", "statement": "Every event publishes exactly the messages of its kind, in a fixed order: a map or load request the map; the map timer the updated map if one is pending; an accepted initial pose, a landmark and a service the particles; a localization the transform (if configured), the pose, the matched and unmatched points at their rate, the particles and the status; a cloud that finds no points only the status. Nothing else publishes a pose, a transform or a status.", "quantifier": "every history of events and every setting", "why_tests_cant": "unbounded histories of all event kinds", "anchors": ["src/mcl_3dl.cpp: all callbacks"]}
{"id": "C111", "title": "faked sensors", "statement": "With fake_imu the node does, over every history, exactly what it does with a real IMU that follows each non-initialising odometry message with one of the same header and orientation whose acceleration is the vertical rotated by that orientation; that acceleration is the one of the opposite tilt. With fake_odom the node does exactly what it does with real odometry that follows every applied IMU message with a pose at the origin with the IMU's orientation.", "quantifier": "every history of events, every transform, every unit quaternion", "why_tests_cant": "equality of two unbounded runs for all inputs", "anchors": ["src/mcl_3dl.cpp:210-266 cbOdom", "src/mcl_3dl.cpp:942-1017 cbImu"]}
{"id": "C112", "title": "the published map to odometry transform over a history", "statement": "At every localization the published transform is the sequence of corrections that make the odometry agree with the estimates so far, each of x, y, z, roll, pitch and yaw sent through a first order low-pass filter that starts from zero and restarts at the correction at every jump; the published pose is that transform applied to the odometry. So the position never overshoots the corrections since the last jump, a correction unchanged since a jump is published exactly, and a first correction that is not a jump is published only as a fraction.", "quantifier": "every history of events, every filter constant (at least 1/2 for no overshoot)", "why_tests_cant": "every stream of estimates through the filters; tests look at final values only", "anchors": ["src/mcl_3dl.cpp:699-800 measure", "include/mcl_3dl/filter.h", "include/mcl_3dl/filter_vec3.h"]}
{"id": "C113", "title": "the ROS interface", "statement": "The node refuses to start (with an exception) exactly at an unsupported compatibility level and exits with status 1 exactly if both sensors are faked. Otherwise every input is subscribed exactly once, under its documented name for the level and with the configured queue size, except that a faked sensor is not subscribed; every output is advertised and every service offered exactly once; whatever the namespace and the name of the node, no two topics coincide (so the node never receives its own output) and no two services coincide. Queue sizes of 0 and more are used as given; negative ones become numbers of the order of 2^32.", "quantifier": "every parameter set, namespace, node name and kind of event", "why_tests_cant": "all parameter sets and names; the launch tests use one", "anchors": ["src/mcl_3dl.cpp:1204-1268 configure", "src/mcl_3dl.cpp:1457-1469 main", "include/mcl_3dl_compat/compatibility.h"]}
{"id": "C114", "title": "time stamps and the status of unusable clouds", "statement": "At every event of every history every published transform and particle cloud is stamped with the time of the last odometry message (the clock before any), plus the low-pass filtered interval (each between 0 and 1 s, the first counted from time 0) between the localizations before it, plus the configured tolerance. A cloud without usable points publishes exactly one status: normal, points not found, match ratio 0, size 0, the last entropy, flagged as an error.", "quantifier": "every history of events, every clock", "why_tests_cant": "unbounded histories and clocks that jump", "anchors": ["src/mcl_3dl.cpp:385-391, 700-724, 866-873 measure", "src/mcl_3dl.cpp:1101-1125 publishParticles", "src/mcl_3dl.cpp:1127-1148 diagnoseStatus"]}
{"id": "C115", "title": "reconfiguring the warning thresholds while running", "statement": "Whatever requests to change the three warning thresholds arrive between whatever events, everything the node does is the same as without them except the convergence status: no pose, transform, particle, matched cloud, map, service answer or other status field changes. The thresholds in force at an event are, each on its own, the last value requested for it (the first entry of the request with its name), clamped to 0 .. the largest double, before any request the clamped value on the parameter server and the largest double if there is none; the values the parameter loader reads itself are overwritten. The convergence status says large standard deviation exactly if, outside global localization, a published standard deviation (square root of the covariance) exceeds the threshold in force; with the defaults, and as long as the narrowing to float loses nothing, it never does.", "quantifier": "every interleaving of reconfiguration requests and events, every parameter set", "why_tests_cant": "unbounded interleavings of requests and events", "anchors": ["src/parameters.cpp:313-325 cbParameter", "cfg/MCL3DLParams.cfg", "src/mcl_3dl.cpp:730-760 measure"]}
{"id": "C116", "title": "every parameter sets its own setting", "statement": "After loading, each of the documented numeric, boolean and string parameters has set exactly the one setting it is named after, converted to its type, or its default; all names are distinct from each other and from the old names they replace; changing one parameter on the server changes no setting of a differently named parameter (other than through renaming); a parameter no name of which is known has no effect at all; with an empty server the settings have the defaults the documentation lists. A real number given for an integer setting is rounded to the nearest integer, but down if it is negative; an integer counts as a real number; a value of any other type is ignored; a negative count becomes 2^64 (2^32) minus its amount.", "quantifier": "every content of the parameter server and every change of one parameter", "why_tests_cant": "all values of all parameters", "anchors": ["src/parameters.cpp:43-310", "src/lidar_measurement_model_likelihood.cpp:50-80", "src/lidar_measurement_model_beam.cpp:55-110", "doc/Parameters.md"]}
{"id": "C117", "title": "the integrated rotational odometry error has no effect", "statement": "The parameters odom_err_integ_ang_tc and odom_err_integ_ang_sigma have no observable effect: with any values of them on the parameter server the node starts if it starts without them, and every history of events gives exactly the same outputs or the same failure (provided std::sort treats particles by their weights only). The integral of the rotational odometry error is computed for every particle, but no output and no weight depends on it; only the translational one reduces weights.", "quantifier": "every parameter set, every value of the two parameters, every history", "why_tests_cant": "a non-effect over all histories and parameter values", "anchors": ["src/parameters.cpp:141-142", "src/mcl_3dl.cpp:400-421 measure", "include/mcl_3dl/motion_prediction_models/motion_prediction_model_differential_drive.h:56-67"]}
{"id": "C118", "title": "the points each measurement gets, drawn by the node's own samplers", "statement": "The whole node, with the uniform and the weighted sampler drawing from one random engine that is shared and carried from draw to draw, behaves in every history like the node with some choice of points: nothing fails as long as the surroundings are legal (draws in range, non-negative weights). For a processed cloud the beam (likelihood) model is given points of the down-sampled cloud that are within its own range and height limits, as many as its own number of points (or the number for global localization, scaled by the size of the particle set), drawn with the sampler chosen by the use_random_sampler_with_normal parameter; when no point is in the range of the likelihood model or the number asked for is zero, the only output is a status with ERROR_POINTS_NOT_FOUND, and otherwise a pose is published.", "quantifier": "every parameter set, engine, history and cloud", "why_tests_cant": "ranges over all histories, clouds and random draws", "anchors": ["src/mcl_3dl.cpp:355-430 measure", "include/mcl_3dl/point_cloud_random_samplers/*", "src/lidar_measurement_model_*.cpp filter"]}
{"id": "C119", "title": "after global localization the weighted sampler sees only the first particles", "statement": "Right after a global localization the mean and covariance from which the weighted sampler takes its search directions are not those of the particle set: the weights then sum up to the number of headings rather than 1, so with K kept cells only the first K+1 particles (standing on the first K/headings+1 cells) enter.", "quantifier": "every history, every map, every number of headings", "why_tests_cant": "quantifies over all maps and particle sets of any size", "anchors": ["src/mcl_3dl.cpp:1039-1130 cbGlobalLocalization", "src/mcl_3dl.cpp:355-430 measure", "include/mcl_3dl/pf.h expectation, covariance"]}
{"id": "C120", "title": "the points of a measurement, draw by draw", "statement": "For every processed cloud the points given to the beam model and then to the likelihood model are drawn one after the other from the one engine of the sampler. Uniform sampler: the i-th point is the one at the i-th drawn index. Weighted sampler: a wheel is spun until as many different points as asked for are hit (all points, without a draw, when there are no more than that); the sector of a point is 1 without a normal and otherwise grows linearly with the angle from 1 (normal perpendicular) to the maximum weight (normal parallel to the direction of the largest spread, seen from the mean pose); the maximum weight follows from the ratio of the two largest deviations and the three settings of the sampler. No other event touches the engine, and nothing is drawn between two processed clouds.", "quantifier": "every parameter set, engine, history, cloud and number of points", "why_tests_cant": "ranges over all draws, histories and cloud sizes", "anchors": ["src/mcl_3dl.cpp:369-383 measure", "include/mcl_3dl/point_cloud_random_samplers/point_cloud_uniform_sampler.h", "include/mcl_3dl/point_cloud_random_samplers/point_cloud_sampler_with_normal.h"]}
{"id": "C121", "title": "resampling is unbiased", "statement": "If the random number of a resampling is uniformly distributed over its range, then in the mean every particle is selected exactly N*w/W times (N particles, w its weight, W the sum of the weights), and for every quantity computed from a particle the mean over the selected particles (before noise is added to the repeated ones) is in the mean the weighted mean over the particles before.", "quantifier": "every particle set of any size with positive weights, every quantity", "why_tests_cant": "a statement about the integral over all random numbers, for every set of weights", "anchors": ["include/mcl_3dl/pf.h:182-227 resample"]}
{"id": "C122", "title": "from the parameter server to a node that never fails", "statement": "If the parameters on the server (defaults for the missing ones, old names translated) are in the stated ranges - at least one particle, skip_measure at least 1, total_accum_cloud_max at least 1 unless accum_cloud is 0, no negative beam_likelihood and match_weight, search radii not above map_chunk, no zero sigma, a grid_ang of at most 12 rad - then the node, once it has started, gets through every history of events in legal surroundings without a failed assertion, null pointer, division by zero or endless loop, and its particles stay usable. The defaults are in these ranges.", "quantifier": "every parameter server in the ranges, every legal history", "why_tests_cant": "ranges over parameter sets and histories of any length", "anchors": ["src/parameters.cpp:45-325 load", "src/mcl_3dl.cpp configure and all callbacks"]}
{"id": "C123", "title": "the likelihood score and the match ratio as the C++ floats compute them", "statement": "With finite non-negative settings and at most 2^24 points, in IEEE single precision and whatever distances the search reports: the score is finite, not negative and at most the number of matched points times a power of two bounding match_dist_min*match_weight; a point counts as matched exactly when its (rounded) distance and match_dist_flat are at most match_dist_min; the match ratio is finite, in [0,1], 1 exactly when every point matches and 0 exactly when none does. Rounding does not break the order: a cloud whose points are all at least as close to the map never gets a lower score or ratio. The score differs from the documented sum by at most n(n+7)/2^24 times that power of two. One NaN distance makes the score NaN. Multiplied with the beam likelihood and the odometry factor it stays in the range in which a measurement keeps the weights a distribution.", "quantifier": "every list of distances of length up to 2^24, every setting, in binary32", "why_tests_cant": "ranges over all floats and lists; rounding errors accumulate and comparisons of rounded values are involved", "anchors": ["src/lidar_measurement_model_likelihood.cpp:105-139 measure", "src/mcl_3dl.cpp:402-426 measure_func"]}
{"id": "C124", "title": "the chunked map on C++ floats", "statement": "With chunk numbers and chunk borders computed in single precision, every map point whose distance from the query is at most the map's search radius minus 2^-21 times (largest coordinate + chunk length) is in the chunk that the search looks into (coordinates up to 2^22 chunk lengths, search radius at most half a chunk). Whatever the floats are, a chunk only holds points of the cloud, under their own indices, each once, and a search at a map point looks into a chunk that holds it. Without the tolerance the claim is false: with 20 m chunks and a 1 m radius a map point 1 - 2^-24 m away is missed.", "quantifier": "every cloud, query, chunk length and radius in binary32", "why_tests_cant": "ranges over all floats; rounding near chunk borders is hit by few inputs", "anchors": ["include/mcl_3dl/chunked_kdtree.h:90-216 setInputCloud", "include/mcl_3dl/chunked_kdtree.h:217-263 radiusSearch, getChunkId"]}
{"id": "C125", "title": "what the odometry noise parameters do", "statement": "When an odometry step (translation d, rotation r by the angle th) is applied, a particle moves by d lengthened by its factor noise_ll plus noise_al * th along its own x axis, and turns by r and, about the vertical axis of the map, by noise_la * |d| + noise_aa * th; its position deviates from exact odometry by at most |noise_ll| |d| + |noise_al| |th|. Odometry that reports no motion moves no particle, whatever the parameters, stamps and gaps. Along a straight path the drift depends on the path only, not on the number of messages. Two expectations are false: a robot turning on the spot by any total angle can be reported (0.1 s apart) so that no particle ever gets rotational noise, since rotations with |w| >= 0.999999 count as angle 0; and negating the odometry quaternion (the same rotation) negates the angle and so the noise.", "quantifier": "every particle and noise factors, every pair of odometry poses, every odometry stream and total angle", "why_tests_cant": "ranges over all reals and unbounded message streams", "anchors": ["include/mcl_3dl/motion_prediction_models/motion_prediction_model_differential_drive.h: setOdoms, predict", "include/mcl_3dl/quat.h: getAxisAng", "src/mcl_3dl.cpp: MCL3dlNode::cbOdom"]}
{"id": "C126", "title": "single precision does not wear out a particle's rotation", "statement": "Computed in single precision (round to nearest), normalizing a quaternion whose squared length lies between 1/4 and 4 gives finite components, a squared length within 2e-6 of 1 and components within 1/300000 of the exact result, and a product of quaternions of at most length 3/2 is exact up to 35 * 2^-24 per component. Hence after any number of odometry steps (between orientations of nearly unit length) and resamplings with noise, in any order, the rotation of a particle is finite and of squared length within 2e-6 of 1: the error does not accumulate, as long as sinf and cosf are finite with sin^2 + cos^2 within 1/1000 of 1. If sinf and cosf are accurate to 1.25e-7, the computed rotation moves away from the one computed in exact arithmetic by at most 1/12000 (Euclidean distance of unit quaternions) per step. But a single odometry message whose orientation is all zeros turns the rotation of every particle into not-a-number for good, no matter what follows; and quaternions of tiny or huge length do not normalize (infinity, or zero) although they represent rotations.", "quantifier": "every quaternion, every history of odometry steps and resamplings, every library meeting the weak requirement", "why_tests_cant": "unbounded histories of rounding errors", "anchors": ["include/mcl_3dl/quat.h: Quat::operator*, normalized, inv, setRPY, setAxisAng", "include/mcl_3dl/motion_prediction_models/motion_prediction_model_differential_drive.h: setOdoms, predict", "include/mcl_3dl/state_6dof.h: State6DOF::operator+"]}
{"id": "C127", "title": "the choice of the map frame does not matter", "statement": "Describing the world in another map frame - turned by any angle about the vertical and shifted by any vector - changes nothing but the description. (1) The filter never looks into a pose: if two sequences of filter operations are the same operation by operation up to a translation of poses, the two filters are the translations of each other after every sequence (weights, biases and undefined behaviour included), in every arithmetic, and an order the sort may produce in one frame is one it may produce in the other. (2) Prediction from odometry, adding noise, resampling and resizing are the same operations in both frames (with the same displacement described in each frame; under a pure shift the very same numbers), and only the motion between two odometry poses matters, not the odometry frame, for any rigid 3D change of it. (3) The likelihood field with exact search gives the moved pose in the moved map the same score and match ratio (and, with approximate search, scores in one and the same band) if x and y have equal distance weights or the frame is only shifted; the gravity likelihood is the same. (4) Under a shift the estimate (for any pass ratio) is shifted and the covariance is the same matrix, always; under a turn the estimate is the same place and the same orientation, whenever the mean directions of the particles determine one away from the half turn.", "quantifier": "every change of frame, every filter, every sequence of operations, every map and scan, all loading histories of the map", "why_tests_cant": "a symmetry over all inputs and histories", "anchors": ["include/mcl_3dl/pf.h: ParticleFilter", "include/mcl_3dl/state_6dof.h: State6DOF, ParticleWeightedMeanQuat", "include/mcl_3dl/motion_prediction_models/motion_prediction_model_differential_drive.h: setOdoms, predict", "src/lidar_measurement_model_likelihood.cpp: measure"]}
{"id": "C128", "title": "the order of particles, scan points and map points does not matter", "statement": "In exact arithmetic a measurement that scores poses, a prediction and a bias turn the same particles in another order into the same particles (in another order), with the same entropy; both estimates and the covariance over all particles are the same. The likelihood of a scan does not depend on the order of its points in either measurement model (whatever the nearest neighbour search answers; for beams with every ray caster that answers each ray from the map alone), and the likelihood field with exact search does not depend on the order of the map points or on duplicates. Resampling does depend on the order of the particles: two orders of the same three particles and the same first offset can keep different poses.", "quantifier": "every filter and every reordering, every scan, map, pose, every loading history", "why_tests_cant": "a symmetry over all inputs and all permutations", "anchors": ["include/mcl_3dl/pf.h: measure, predict, bias, expectation, expectationBiased, covariance, resample", "src/lidar_measurement_model_likelihood.cpp: measure", "src/lidar_measurement_model_beam.cpp: measure"]}
{"id": "C129", "title": "a negative accum_cloud silently switches the localization off", "statement": "If accum_cloud is negative (the total limit is then negative by default as well), the numbers are converted to counts near 2^64: in every history of fewer than 2^63 events from the start no cloud publishes anything or touches the particles, and after a map has arrived every cloud that can be transformed is added to the buffer and none is ever removed - with any clouds the buffer holds the points of all of them.", "quantifier": "every history of events and all particle states, maps and clouds; every negative int", "why_tests_cant": "no finite run shows that no later cloud is measured", "anchors": ["src/mcl_3dl.cpp: configure, cbCloud", "src/cloud_accum.cpp: push", "src/parameters.cpp: load"]}
{"id": "C130", "title": "in single precision the smoothing filter never drifts away", "statement": "With a time constant between 1 and 1024 steps and values of magnitude at most M (1e-15 to 1e15), after construction and any calls of in() and set() - however many, in any order - no operation overflows and the output differs from the filter over the reals given the same calls by at most 12 * 2^-24 * time constant * M: it stays that close to the range of the values given, a constant repeated for ever stays that close to itself, the vector filter does so in each component, and a step input is approached geometrically down to that distance. (It does not pass a constant through unchanged: with the default lpf_step of 16, the value 3.7 comes out nine units in the last place away and stays there.)", "quantifier": "every float time constant in range, every start value and every finite sequence of calls with float arguments", "why_tests_cant": "an error that accumulates by one rounding per scan shows after days, not in a test", "anchors": ["include/mcl_3dl/filter.h: Filter::Filter, Filter::set, Filter::in", "include/mcl_3dl/filter_vec3.h: FilterVec3"]}
{"id": "C131", "title": "clipping in single precision", "statement": "With finite limits (far between 1e-6 and 1e15 m, near zero or in the same range), filter() keeps, in order and each as often as it occurs, every finite point whose exact squared horizontal distance is within the squared limits by a relative 2^-22 and whose height is within the limits, and no point that is outside by as much or whose height is outside at all; an undecided point is within a relative 1.25e-7 of a limit. Overflowing squares count as far. An infinite x or y is clipped unless the other is NaN; a NaN x or y leaves only the height to decide, and a NaN height is never looked at.", "quantifier": "every cloud of floats including infinities and NaN, every configuration in range", "why_tests_cant": "rounding and overflow at every float coordinate", "anchors": ["src/lidar_measurement_model_likelihood.cpp: LidarMeasurementModelLikelihood::filter", "src/lidar_measurement_model_beam.cpp: LidarMeasurementModelBeam::filter"]}
{"id": "C132", "title": "a scan moved in single precision lands where it should", "statement": "State6DOF::transform, in floats, keeps the number and order of the points and gives finite coordinates within M/30000 + P/8000000 of the exact rigid motion by the particle's position and exactly normalized rotation, for every finite quaternion of length between 1/2 and 2, points with coordinates up to M (1e-5 to 1e9 m) and positions with coordinates up to P (at most 1e9 m): 3.4 mm for points 100 m away plus 0.13 mm per kilometre of map. The rotation alone, by a quaternion already normalized, errs by at most 83 * 2^-24 * M per coordinate. The scan stays rigid: the distance between any two of its points changes by at most four times the first bound.", "quantifier": "every float pose in range and every finite cloud of float points in range", "why_tests_cant": "rounding at every pose and point", "anchors": ["include/mcl_3dl/state_6dof.h: State6DOF::transform", "include/mcl_3dl/quat.h: Quat::operator*, Quat::normalized, Quat::conj", "include/mcl_3dl/vec3.h: Vec3::operator+"]}
