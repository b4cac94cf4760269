# Formal model of at-wat/mcl_3dl in Rocq (Coq 8.16.1)

The C++ code in /repo is modelled function by function as total Gallina
functions (or, where a C++ library leaves a choice -- `std::sort` with ties,
random draws, FLANN's order among equal distances -- as relations or explicit
inputs).  Every definition carries a comment with the file and lines it models
and says what was simplified.

## 1. Conventions

* **Arithmetic.** The particle filter, the samplers and the clip test are written
  once over a record `Arith.arith` of operations with *no laws*.  A theorem proved
  for every `arith` also holds for IEEE binary32/64 including NaN, infinities and
  every rounding error.  Quantitative theorems are proved for the instance over
  Coq's reals (`RA`), rounding theorems for Flocq's binary32/binary64 (`Ieee.v`, error analysis in `IeeeErr.v`).
  The remaining models (filters, quaternions, states, ray casting, lidar models,
  the node) are written over the reals only, with separate binary32 definitions
  where a rounding effect is itself the claim.  The column "arithmetic" of the
  table below says which one a property is proved for.
* **Undefined behaviour** is a distinct outcome (`None`, `Undefined`, `Null`,
  `Undef`), never a default value: front of an empty vector, end iterator, null
  pointer, uninitialised field, integer division by zero, index out of range,
  failed `assert`.  Loops that might not terminate take fuel; running out of it
  is the outcome `Fuel`, and termination theorems give a sufficient amount.
* **Oracles** (universally quantified, constrained only by the stated spec):
  `std::sort` = any permutation that is sorted (not stable; in the node: any
  function meeting `NodeSpec.sorts`); random numbers = arbitrary streams of
  standard normal numbers and arbitrary uniform numbers, from which the node
  model computes poses and noises as the generators do; tf lookups = arbitrary
  functions of target, source and time that may fail; callbacks of the accumulator = arbitrary results;
  pcl::VoxelGrid = arbitrary function of the cloud (`keeps_labels` where a theorem
  needs it); Eigen's inverse, determinant and SelfAdjointEigenSolver = arbitrary
  values that meet `is_inverse`, `det` (Laplace expansion), `eigen_of`; the FLANN
  radius search = any list meeting `KdSpec.flann_result`: exactly the indices with
  squared distance < squared radius, sorted, cut at max_nn, within FLANN's
  epsilon tolerance.
* **Files** (`rocq/theories/`, flat): `XModel.v` the code, `XSpec.v` the
  independent vocabulary used by the statements, `XProofs.v` lemmas, `XProps.v`
  the property theorems, `XDemo.v` or `Example ..._nonvacuous` in `XProps.v` a
  concrete non-trivial case that meets each theorem's hypotheses.
* **Naming.** `Cnn_...` is a property theorem; `..._refuted` shows by a witness
  that a claim a user might expect is false of the code (the statement in
  properties.jsonl says so); `..._partial` proves part of a property.
* **Generated files.** ASSUMPTIONS.md (output of `Print Assumptions` for every
  property theorem) and MANIFEST.json.

## 2. Per property: what is modelled and how it is proved

| id | property | model | proof | arithmetic |
|----|----------|-------|-------|------------|
| C01 | measure performs an exact Bayes update | PfModel.measure (pf.h) | list induction on the two loops; rounding error analysis of products, sum and quotients (IeeeErr, PfErrProps) | reals; IEEE binary32 (Flocq) |
| C02 | a measurement that kills all particles is a no-op | PfModel.measure | list induction; Flocq witness/NaN propagation for the NaN half | any arithmetic (no laws), hence also IEEE with NaN/inf; IEEE binary32 (Flocq) |
| C03 | weights stay in [0,1] under IEEE rounding | PfModel.measure instantiated at binary32 | Flocq: monotone rounding of sums and quotients; relative error of the float sum by induction | IEEE binary32 (Flocq) |
| C04 | reported entropy is a Shannon entropy | PfModel.measure, entropy | Gibbs' inequality proved from ln x <= x-1 | reals |
| C05 | resampling keeps the count, resets weights and invents no pose | PfModel.resample, std::sort as a relation, offset and noise as inputs | invariant of the scan loop | any arithmetic (no laws), hence also IEEE with NaN/inf |
| C06 | resampling is low-variance (systematic) | PfModel.resample | counting multiples of the step in an interval with floor/ceil | reals |
| C07 | dead particles do not survive resampling | PfModel.resample | lower_bound characterisation; two explicit witnesses for the refuted halves | reals |
| C08 | only duplicates are perturbed by resampling noise | PfModel.resample | invariant of the scan loop: which element is compared with its predecessor | reals |
| C09 | resizing yields exactly the requested number of existing poses | PfModel.resizeParticle | as C05/C06; empty and zero-size cases computed | any arithmetic (no laws), hence also IEEE with NaN/inf; reals for the counts |
| C10 | expectation is the weighted mean | PfModel.expectation, expectationBiased over a vector space of states | list induction on the accumulator | reals |
| C11 | expectation with a pass ratio uses the most probable particles | PfModel.expectation with pass_ratio, cumulative probabilities left by resample | explicit witness; uninitialised read is an outcome | reals |
| C12 | covariance is symmetric and positive semi-definite | PfModel.covariance, sample_indices (std::shuffle as an arbitrary permuting function) | sum-of-squares argument for an arbitrary direction; permutation argument for the sample | any arithmetic (no laws), hence also IEEE with NaN/inf; reals; IEEE binary32 (Flocq) |
| C13 | max returns the most probable particle | PfModel.max, maxBiased | argmax invariant of the scan | any arithmetic (no laws), hence also IEEE with NaN/inf; reals |
| C14 | each filter operation touches only its own part of the state | predict, bias, noise, appendParticle | pointwise over the particle list | any arithmetic (no laws), hence also IEEE with NaN/inf |
| C15 | the particle set stays a probability distribution for ever | all ParticleFilter operations as an operation language | invariant by induction over operation lists; in binary32 the invariant carries the error of the sum | reals; IEEE binary32 (Flocq) |
| C16 | process sees exactly the clouds accumulated since the last clear | AccumModel (cloud_accum.cpp), state machine with callbacks as oracles | trace invariant | discrete (no arithmetic) |
| C17 | no cloud is processed twice and none disappears silently | AccumModel (cloud_accum.cpp), state machine with callbacks as oracles | multiset conservation over traces | discrete (no arithmetic) |
| C18 | accumulation is bounded | AccumModel (cloud_accum.cpp), state machine with callbacks as oracles | invariant over histories | discrete (no arithmetic) |
| C19 | batch composition | AccumModel (cloud_accum.cpp), state machine with callbacks as oracles | invariant over histories | discrete (no arithmetic) |
| C20 | accumulation makes progress | AccumModel (cloud_accum.cpp), state machine with callbacks as oracles | counting argument over histories | discrete (no arithmetic) |
| C21 | a failed cloud discards the partial batch and processes nothing | AccumModel (cloud_accum.cpp), state machine with callbacks as oracles | invariant over histories | discrete (no arithmetic) |
| C22 | pass-through mode processes every cloud alone | AccumModel (cloud_accum.cpp), state machine with callbacks as oracles | case analysis of push | discrete (no arithmetic) |
| C23 | a zero limit is undefined behaviour | AccumModel (cloud_accum.cpp), state machine with callbacks as oracles | case analysis; undefined outcome is a constructor | discrete (no arithmetic) |
| C24 | chunked radius search misses nothing | KdModel: chunked_kdtree.h, FLANN specified by KdSpec.flann_result | geometry of chunk boundaries over Z indices and real coordinates | reals |
| C25 | returned ids are ids of the input cloud | KdModel: id remapping | list/chunk invariant of setInputCloud | reals |
| C26 | chunked search equals a search of the whole cloud | KdModel | C24+C25, permutation of the brute-force result | reals |
| C27 | the radius guard is sufficient | KdModel: radius guard | case analysis and an explicit witness | reals |
| C28 | loading a new cloud forgets the old one | KdModel: setInputCloud | equality of the resulting state for every old state | discrete (no arithmetic) |
| C29 | distance weights below one break the chunk search | KdModel with a PointRepresentation | explicit witness | reals |
| C30 | a map update overlays the base map with the latest update only | NodeModel map callbacks with an explicit cloud heap (aliasing of pc_map2_) | invariant over event histories | reals |
| C31 | search structure, published map and availability agree | NodeModel map/timer | invariant over event histories | reals |
| C32 | pending updates are dropped by a new map or a new initial pose | NodeModel map/position | invariant over event histories | reals |
| C33 | no localization without a map | NodeModel | invariant over event histories | reals |
| C34 | low-pass filter passes a constant through unchanged | FilterModel (filter.h, filter_vec3.h) | induction over the input list | reals |
| C35 | low-pass filter converges to a constant input | FilterModel (filter.h, filter_vec3.h) | closed form, geometric convergence with epsilon-N | reals |
| C36 | low-pass filter never overshoots its inputs | FilterModel (filter.h, filter_vec3.h) | convexity; witness for the short time constant | reals |
| C37 | angle filter is invariant to full turns | FilterModel (filter.h, filter_vec3.h) | nearest representative modulo 2 pi; witness for the tie | reals |
| C38 | high-pass filter rejects constants | FilterModel (filter.h, filter_vec3.h) | closed form | reals |
| C39 | quaternion algebra | QuatModel (quat.h) | ring/field; witness | reals |
| C40 | unit quaternions act as rigid rotations | QuatModel | ring under the unit norm hypothesis | reals |
| C41 | roll-pitch-yaw round trip | QuatModel setRPY/getRPY | stdlib trigonometry (asin, atan, atan2 defined on top of it) | reals |
| C42 | axis-angle round trip | QuatModel setAxisAng/getAxisAng | trigonometry | reals |
| C43 | orientation from front and up vectors | QuatModel (forward, up) constructor | algebra of cross products; witness for the half turn | reals |
| C44 | pose difference and sum are inverse | StateModel operator-/operator+ | algebra; witness | reals |
| C45 | pose transform of a cloud is a rigid motion | StateModel transform | C40 pointwise | reals |
| C46 | zero-sigma noise | StateModel generateNoise/diagonal generators, normal draws as inputs | algebra with sigma=0 | reals |
| C47 | noise-free prediction applies exactly the odometry displacement | MotionPredictionModelDifferentialDrive | algebra of rigid motions | reals |
| C48 | noise-free predictions telescope | same | induction over the odometry chain | reals |
| C49 | prediction keeps rotations normalized | same | induction over the odometry chain | reals |
| C50 | odometry error integral decays | odometry error integral | closed form, limit, witness | reals |
| C51 | mean pose of agreeing particles is their pose | ParticleWeightedMeanQuaternion | induction over the particle list | reals |
| C52 | DDA ray casting never reads outside the voxel grid | RayModel: RaycastUsingDDA | invariant of the voxel walk; index injectivity over Z; Flocq for the rounding of the grid indices | reals; IEEE binary32 (Flocq) |
| C53 | DDA ray casting terminates | RayModel | explicit fuel bound proved sufficient | reals |
| C54 | DDA visits a connected chain of voxels along the ray | RayModel | walk invariant; witnesses for the refuted halves | reals |
| C55 | DDA collision criterion | RayModel | case analysis of hasCollision | reals |
| C56 | DDA grid follows the current map | RayModel: cached grid | invariant over cast histories; witness for equal stamps | reals |
| C57 | k-d tree ray casting samples the ray uniformly | KRay part of RayModel: RaycastUsingKDTree | induction over the samples | reals |
| C58 | k-d tree ray casting reports a collision iff a map point is near the sample | same, search specified by C26 | case analysis; geometry of the incidence sine | reals |
| C59 | beam status classification | LidarModel: beam model | case analysis, both casters | reals |
| C60 | beam likelihood range and law | LidarModel | power law; Flocq range for binary32 | reals; IEEE binary32 (Flocq) |
| C61 | beam likelihood during global localization | LidarModel | algebra of the exponent; witness | reals |
| C62 | likelihood field score | LidarModel: likelihood model | list induction | reals |
| C63 | match ratio is a ratio | LidarModel | list induction | reals |
| C64 | clipping keeps exactly the points in range | LidarModel filter lambda | filter specification; NaN case in any arithmetic | any arithmetic (no laws), hence also IEEE with NaN/inf |
| C65 | sample budget under global localization | LidarModel setGlobalLocalizationStatus | integer arithmetic | reals |
| C66 | uniform sampler | SamplerModel uniform | index range of the random draws | discrete (no arithmetic) |
| C67 | weighted sampler returns distinct points | SamplerModel: point_cloud_sampler_with_normal | loop invariant on the drawn set; termination measured by fuel; divergence for every fuel | reals |
| C68 | principal direction of the particle spread | SamplerModel: principal axis selection | algebra of symmetric 3x3 forms; witness | reals |
| C69 | normal likelihood shape | NdModel (nd.h) | stdlib analysis; Flocq for sigma=0 and for the error of the computed density (pi by the Machin-like series of the library, std::exp by its relative error) | reals; IEEE binary32 (Flocq) |
| C70 | gravity likelihood | NdModel + gravity measure of imu_measurement_model_gravity | Cauchy-Schwarz; Flocq witness for an argument above one; forward error analysis of the cosine (GravFloatProofs) | reals; IEEE binary32 (Flocq) |
| C71 | parameter renaming | ParamModel: compat renaming over a parameter server map | finite map lookups | discrete (no arithmetic) |
| C72 | parameter loading guards | ParamModel: Parameters::load | case analysis | reals |
| C73 | compatibility level | ParamModel: compat level | case analysis | discrete (no arithmetic) |
| C74 | point cloud conversion | ConvModel: point_conversion.h | field list search | discrete (no arithmetic) |
| C75 | odometry messages are neither lost nor applied twice | NodeModel odometry / IMU / initial pose callbacks | telescoping over event histories | reals |
| C76 | IMU gating | NodeModel odometry / IMU / initial pose callbacks | gating invariant over event histories | reals |
| C77 | invalid initial poses are rejected | NodeModel odometry / IMU / initial pose callbacks | case analysis, non-finite values as separate constructors | reals |
| C78 | global localization covers every floor cell and heading | NodeModel global localization service | list induction over the candidate cells; VoxelGrid oracle | reals |
| C79 | particle count returns to the configured number | NodeModel localization step | induction over steps | reals |
| C80 | global localization status lasts a fixed number of steps | NodeModel localization step | induction over steps | reals |
| C81 | status decision | NodeModel localization step | case analysis of the status decision | reals |
| C82 | published transform is consistent with the pose | NodeModel tf publication | algebra of rigid motions; witness for pitch 90 degrees | reals |
| C83 | measurement skipping | NodeModel cloud callback + AccumModel | counter invariant over histories | reals |
| C84 | beam origins are always in range | NodeModel cloud callback + AccumModel | invariant relating origins and frame ids | reals |
| C85 | time tolerance stays in range | NodeModel localization step | invariant over histories | reals |
| C86 | status never reports an uninitialised entropy | NodeModel localization step | invariant; witness for the uninitialised entropy | reals |
| C87 | an overflowing likelihood total silently destroys the weights | PfModel.measure at binary32 | Flocq computation | IEEE binary32 (Flocq) |
| C88 | 6DOF covariance has no negative variance and its angle wrapping terminates | StateModel covariance of 6DOF states, angle wrapping loop | fuel bound; sum of squares | reals |
| C89 | DDA ray casting skips no voxel | RayModel | connectedness and monotonicity of the walk | reals |
| C90 | the configured search structure covers every measurement search | ParamModel + KdModel + LidarModel | composition of C26 with the configured radii; witness | reals |
| C91 | number of global localization headings | ParamModel/NodeModel heading count | rounding arithmetic | reals |
| C92 | a measurement uses the latest clouds, each exactly once | NodeModel cloud callback + AccumModel | trace of the embedded accumulator, reuse of C16/C17 | reals |
| C93 | no legal history makes the node fail | whole NodeModel | invariant preserved by every legal event; every outcome other than Ok excluded | reals |
| C94 | particles stay usable | whole NodeModel | same invariant | reals |
| C95 | one localization step in full | NodeModel.measure | symbolic execution of the step against NodePostSpec | reals |
| C96 | which particles and which match ratio are shown | NodeModel outputs | symbolic execution | reals |
| C97 | matched and unmatched points | NodeModel matched/unmatched output | list specification of the two clouds | reals |
| C98 | the saved point cloud | NodeModel saved cloud | induction over histories | reals |
| C99 | landmark measurements | NodeModel landmark callback | symbolic execution; normal density as a parameter specified by C101 | reals |
| C100 | particles without odometry noise | NodeModel + StateModel noise | algebra and induction over histories | reals |
| C101 | landmark likelihood | MatModel: NormalLikelihoodNd | Laplace expansion determinant, inverse as an input with its specification | reals; IEEE binary32 (Flocq) for the singular case and the coefficient |
| C102 | initial pose follows the covariance of the message | MatModel: MultivariateNoiseGenerator | eigen decomposition as an input with its specification; linear algebra over lists | reals |
| C103 | odometry error of the first particles | StateModel/NodeModel initial particles | symbolic execution | reals |
| C104 | debug markers show the estimate's beams | MarkerModel: debug markers | beam loop with its out parameter; projection onto the likelihood loop; induction over the beams | reals |
| C105 | clouds, sensor origins and initial poses end up where they were | NodeModel: lookups by target, source, time (and fixed frame); worlds as functions from frame and time to a pose | rigid motion algebra on top of C92 and C77 | reals |
| C106 | the IMU faked from odometry ignores the tilt of the robot | NodeModel.cbOdom with fake_imu, cbImu, FilterModel | invariant of the low pass filter: its state is a multiple of the input direction; C70 for the likelihood | reals |
| C107 | without noise the node is exact dead reckoning | NodeModel.step over histories (all events), NodeTrackSpec | invariant all particles at one pose, by cases over events; zero standard deviations make the noise neutral (C46), equal poses have that mean (C47) and zero covariance (C11) | reals |
| C108 | the true pose is never lost | NodeModel.step over histories, NodeKeepSpec (tracked, truthful) | every measurement factor is largest at the truth (map distance 0, beam score 1, Gaussian at 0), so the maximal weight stays at the truth; a weight of at least 1/n is hit by systematic resampling (C06); invariant over histories | reals |
| C109 | every service call is answered once, truthfully or not | NodeModel: service responses | case analysis over events; map availability by the invariant of C33 | reals |
| C110 | what is published when | NodeModel.step outputs | case analysis over events, frame lemmas for the localization step | reals |
| C111 | faked sensors | NodeModel.cbOdom/cbImu | simulation between two runs, induction over the history | reals; exact real arithmetic for the wrong tilt |
| C112 | the published map to odometry transform over a history | NodeModel.measure, FilterModel | filters in state form, induction over the trace | reals |
| C113 | the ROS interface | IfModel: configure() 1204-1268, main, compatibility.h | case analysis over the parameters; names compared by their last segment | no arithmetic |
| C114 | time stamps and the status of unusable clouds | NodeModel.publish_tf_step, publishParticles, clock_step, points_lost | invariant of the rate filter in state form, induction over the trace | reals |
| C115 | reconfiguring the warning thresholds while running | DynModel: cbParameter, MCL3DLParams.cfg, the dynamic_reconfigure calls | simulation between the run with requests and the run without, induction over the interleaving | reals |
| C116 | every parameter sets its own setting | ParamModel.load | tables of (name, default, setting) for all parameters; evaluation of the loader row by row; induction over renames | real numbers; floats through an arbitrary rounding |
| C117 | the integrated rotational odometry error has no effect | NodeModel (all events), ParamModel | simulation up to the integral: every particle filter operation and event commutes with erasing it; induction over the history | reals |
| C118 | the points each measurement gets, drawn by the node's own samplers | NodeSampModel (measure with lidar filter/sampler objects of SamplerModel and the engine threaded through) on top of NodeModel | simulation: every run with samplers is a run of NodeModel with some choice of points; legality carried over; sampler theorems C66-C68 | reals |
| C119 | after global localization the weighted sampler sees only the first particles | NodeSampModel.particle_statistics, NodeModel.cbGlobalLocalization | C78 plus the partial sums of equal weights in expectation/covariance | reals |
| C120 | the points of a measurement, draw by draw | SamplerModel, NodeSampModel | the selection loop as an inductive relation (induction over the fuel), binary search = sector of the wheel; engine threaded by induction over the events | reals |
| C121 | resampling is unbiased | PfModel.resample | exact number of copies as a difference of two floors of linear functions of the random number; Riemann integral (Coquelicot) of the staircase over one period; sums of integrals | reals |
| C122 | from the parameter server to a node that never fails | ParamModel.load, NodeModel | C116 gives the settings, C93/C94 the run | real numbers; floats through an arbitrary rounding |
| C123 | the likelihood score and the match ratio as the C++ floats compute them | LikeFloatModel (generic in the number type; C123_same_code ties it to LidarModel) | Flocq: monotone rounding, representable bounds k*2^e, gradual underflow for the sign of a difference; induction over the points | binary32 (Flocq), round to nearest even |
| C124 | the chunked map on C++ floats | KdFloatModel (binary32 chunk numbers and borders) on KdModel.place | rounding error bounds of each operation (Flocq), then a linear case distinction on the chunk numbers; a computed counterexample at the edge | binary32 (Flocq), round to nearest even |
| C125 | what the odometry noise parameters do | StateModel.motion_predict, NodeModel.cbOdom | closed form of one prediction by quaternion algebra; induction over the odometry stream through C75; the slow turn is built with steps of at most 1/500 rad | real arithmetic |
| C126 | single precision does not wear out a particle's rotation | QuatFloatModel (quat.h in binary32, Flocq) | forward error analysis of each operation; induction over the history | binary32 |
| C127 | the choice of the map frame does not matter | PfModel/PfHist, StateModel, KdModel, LidarModel, NdModel; SymSpec (moving the world) | naturality of every filter operation by induction; quaternion algebra; the score through C62/C63 and invariance of distances | any arithmetic for the filter, R for poses and scores |
| C128 | the order of particles, scan points and map points does not matter | PfModel, StateModel, LidarModel, KdModel | folds with commuting steps are invariant under permutations; the scores through C60, C62, C63 | R |
| C129 | a negative accum_cloud silently switches the localization off | NodeModel, AccumModel, ParamModel | invariant over all histories: keys and counter are bounded by the number of events, hence below the converted limits | exact integers |
| C130 | in single precision the smoothing filter never drifts away | FiltFloatModel (against FilterModel) | coefficients within a few roundings of the exact ones; invariant on the internal state: the error bound B = 8 * 2^-24 * T(1+2T)M absorbs every rounding of a step because the pole contracts it; induction over the calls | binary32 with the double literals of the source, against R |
| C131 | clipping in single precision | ClipFloatModel (LidarModel.clip_removes over B32) | error of the rounded sum of squares by cases on overflow; comparison with the rounded squared limits | binary32 |
| C132 | a scan moved in single precision lands where it should | TransFloatModel (with NdModel.qrot32, QuatFloatModel.qnormalized32) | scaled error bounds of a quaternion product; multiplicativity of the quaternion norm bounds the exact intermediate values and the effect of the inexact normalization | binary32 against R |

Not expressible in such a model: real-time behaviour, performance, ROS message
transport and queue overflow, thread interleavings (the node is single threaded,
`ros::spin`), statistical quality of the pseudo random generators.

## 3. What is modelled

| source | model | not modelled |
|--------|-------|--------------|
| include/mcl_3dl/pf.h | PfModel | random engine (draws are inputs); `getParticle` out of range (UB) |
| cloud_accum.{h,cpp} | AccumModel | -- |
| chunked_kdtree.h | KdModel | `int` conversion of a chunk index outside the int range, the hash of ChunkId (only equality matters); `getPartialPoints`-style debug access |
| raycast.h, raycasts/*.h | RayModel, KRayProofs, Nn* | ray end cast to `int` beyond the int range (C52 `overflow_refuted` shows the limit for the grid); freed-map pointers kept by the DDA grid when a map is re-sent with the same stamp are modelled as stale *contents* (C56), not as UB |
| filter.h, filter_vec3.h | FilterModel (over the reals); FiltFloatModel (smoothing filter in binary32) | the angular variant (`remainder`) and the high-pass variant in floats |
| quat.h, vec3.h | QuatModel (over the reals); QuatFloatModel, TransFloatModel, NdModel (product, inverse, normalization, axis-angle and rpy constructors, rotation of a vector in binary32) | stream output; `getRPY`, `getAxisAng` in floats |
| state_6dof.h, noise generators, motion model | StateModel, MatModel; TransFloatModel (`transform` in binary32), QuatFloatModel (rotation part of prediction and resampling) | `Eigen` internals |
| nd.h, imu_measurement_model_gravity.h | NdModel, MatModel | `expf`, `acosf`, `sqrtf` in binary32 are specified, not computed |
| point_cloud_random_samplers/* | SamplerModel; composed with the node (shared engine, particle statistics) in NodeSampModel | -- |
| src/lidar_measurement_model_*.cpp | LidarModel; LikeFloatModel (likelihood sum), ClipFloatModel (clipping) in binary32 | debug text |
| src/parameters.cpp, compatibility.h, cfg/MCL3DLParams.cfg | ParamModel, DynModel | dynamic_reconfigure is modelled by its documented behaviour; roscpp `getParam` is modelled by its documented semantics (type-checked lookup) |
| point_conversion.h, point_types.{h,cpp} | ConvModel | `pcl::fromROSMsg`, `copyPointCloud`: documented field-matching semantics |
| src/mcl_3dl.cpp | NodeModel, MarkerModel, IfModel (configure, main) | console/diagnostic texts, `loadPcd` file parsing |

## 4. Simplifications worth knowing

* `std::sort` on NaN keys is UB in C++; the sort relation is only constrained on
  comparable keys, so theorems about resample after NaN weights speak about the
  permutation only.
* `size * 0.75` style products of small integers and literals are exact in the
  real model.
* `assert` is treated as undefined behaviour when it fails (a release build
  ignores it, a debug build aborts); C93 shows none fails in a legal history.
* The covariance of a message on `initialpose` is not rotated by the tf applied to
  its pose (mcl_3dl.cpp); the model follows the code.
* `NodeAliveSpec.legal` is the list of what C93/C94 ask of the environment
  (increasing map stamps, finite coordinates, positive parameters, ...).

## 5. Trusted base

1. Coq 8.16.1's kernel (incl. `vm_compute` where a proof uses it); no
   `native_compute`, no plugin, no kernel check switched off.
2. Axioms: only those of Coq's standard library, listed for each theorem in
   ASSUMPTIONS.md: `ClassicalDedekindReals.sig_forall_dec`,
   `ClassicalDedekindReals.sig_not_dec`, `Classical_Prop.classic`,
   `FunctionalExtensionality.functional_extensionality_dep`.  The first two and
   the last are what the reals of the standard library rest on, `classic` comes
   with its analysis and with Flocq's lemmas.  Flocq itself adds none.
3. The transcription from C++ to Gallina: read each definition beside the lines it
   cites.  `seeded/LOG.jsonl` records the wrong programs the theorems reject.
4. The specifications of the libraries given in section 1 ("Oracles").
