# Design

Subject: `dkogan/mrcal` at the commit checked out in `/repo` (C core + Python).  Nothing of it is built or
run here.  The tie between model and code is the line citation on each Gallina definition.

## 1. Approach

* `rocq/theories/M_*.v` – models.  Small total computable Gallina functions mirroring the C/Python
  functions branch by branch.  Each definition cites file and lines in `/repo`.
* `rocq/theories/S_*.v` – specification vocabulary that does not mention the models' helpers (rotations
  as matrices, declarative grammar of the camera file, dependency table of residuals, ...).  Specifications
  used by one property only are at the head of its `C_` file.
* `rocq/theories/P_*.v` – proofs (lemmas about the models).
* `rocq/theories/C_*.v` – the property theorems `Cnn_...` (with the lemmas only they need), each followed
  by `Print Assumptions`, and `Example`s showing that the hypotheses can be met.
* Integer code is modelled over `Z`/`nat`.  `int` overflow is not modelled unless the property is about
  a narrow type (`uint16_t` etc), in which case the wrap-around is explicit.
* Floating point code is modelled over the real numbers `R` of the Coq standard library (with
  Coquelicot/stdlib derivatives for the gradients).  This is the largest abstraction: rounding is not
  modelled except where the property is about rounding/printing.  Every branch of the code (small
  angle thresholds etc) is kept in the model with its literal threshold, so a property that only holds
  in exact arithmetic away from a branch says so in its hypotheses.
* A property that the faithful model violates is proved negated, as `..._refuted`, with a witness; the
  part that does hold is proved as `..._partial`.

## 2. Trusted base

* The Coq 8.16.1 kernel (and `vm_compute`).
* Axioms: integer/list theorems are closed under the global context.  Theorems over `R` use the
  axioms of `Coq.Reals` (`ClassicalDedekindReals.sig_forall_dec`, `sig_not_dec`,
  `FunctionalExtensionality.functional_extensionality_dep`) and, where Coquelicot is used,
  `Classical_Prop.classic` and friends from the standard library.  Section 5 lists the output of
  `Print Assumptions` per theorem.
* Faithfulness of the models to the cited lines (by reading).
* External code treated as oracles (Section variables, discharged at section end): the numerical
  solver (libdogleg/CHOLMOD), LAPACK SVD, OpenCV, `qsort`/STL heap primitives (by their documented
  contract), numpy primitives (by their documented contract).

## 3. Properties: plan

| id | modelled | proof |
|----|----------|-------|
| C01 | `mrcal_num_states*`, `mrcal_state_index_*` over a problem record | block list tiles `[0,num_states)`, arithmetic |
| C02 | `mrcal_num_measurements*`, `mrcal_measurement_index_*` | same |
| C03 | `optimizer_callback` as a writer of rows (row pointers, columns), `_mrcal_num_j_nonzero` | induction over the observation lists |
| C04 | columns written by the same model | bounds + `StronglySorted` per row |
| C05 | same, weights as data | equality of the emitted structure |
| C06 | `pack_*`/`unpack_*` over arrays of a field | induction over cameras/frames/points, needs scale != 0 |
| C07 | struct vs. vector version | equality |
| C08 | name printing / `sscanf` parsing over strings | induction over decimal digits; CAHVORE's `%.2f` loses information: refuted for doubles in general |
| C09 | the `strcmp`/`strncmp` chain | case analysis, string lemmas |
| C10 | `snprintf` contract | arithmetic on lengths |
| C11 | triangulated pair enumeration, decode with exact sqrt | induction; uniqueness of the pair; the `double` sqrt abstracted by its exact-floor behaviour, see section 4 |
| C12 | segment index clamps over `Z` (after truncation) | arithmetic |
| C13 | B-spline coefficient polynomials over `R` | `ring`/derivative lemmas |
| C14 | heap-driven Dijkstra with abstract priority queue contract | invariant over the main loop |
| C15 | `pairwise_index` | arithmetic (`nia`) |
| C16-C18 | `markOutliers`, the loop of `mrcal_optimize` with solver oracle | induction on observations, well-founded measure |
| C19 | `corresponding_icam_extrinsics` | invariant over the observation list |
| C20 | `M_Pose.v`: R_from_r, rotate_point_r, both branches each | Rodrigues' formula via `sin`/`cos` identities; explicit error bounds in the tiny-angle branches; refutation of exactness there |
| C21 | `M_Pose.v`: r_from_R with its three branches (near 0, near pi, general) | axis/trace algebra, bounds on `acos` near its ends |
| C22 | `M_Pose.v`: Rt compose/invert/transform, inverted variants | ring in the matrix entries, orthonormality |
| C23 | `M_Pose.v`: compose_r, compose_rt, invert_rt, transform | half-angle quaternion product; error bounds in the near-identity branch |
| C24 | `M_PoseMem.v`: strided arrays on a byte-addressed store, order of reads and writes kept | every read precedes the writes that may alias it; all strides > 0 |
| C25 | `M_Dual.v`: autodiff.hh as dual numbers | each operation against `is_derive` |
| C26 | `M_Pose.v` gradients (analytic and autodiff) | along any path, `is_derive` on each side of the thresholds |
| C27 | compose_r_tinyr0/1_gradientr0 | derivative of the quaternion product at 0 |
| C28, C29 | `M_Align.v`: R_aligned_to_vector, procrustes with an SVD oracle (contract: U, V orthogonal, singular values sorted, product) | trace inequality over rotations; uniqueness not claimed |
| C30, C31 | `M_Project.v`: pinhole, stereographic, lonlat, latlon and their inverses and gradients | trigonometry, derivatives along any path |
| C32 | `M_Project.v`, `C_Batch.v`: the loops over an output buffer with the code's pointer arithmetic | induction over the number of points; three refutations |
| C33-C36 | `M_Triangulate.v`: triangulation.cc over a number type | real algebra on rays, minimality by completing squares, planes through the baseline |
| C37, C38 | `M_Stereo.v`: mrcal_rectified_system2 | orthonormal frames, atan2 margins |
| C39 | stereo_range sparse/dense with the integer and float paths | closed form of the disparity |
| C40 | rectification_maps: incremental sin/cos recurrences, 32-bit pixel index | induction over rows and columns |
| C41 | compute_pinhole_cxy; the polynomial root finder by its contract | sign analysis of the polynomial |
| C42-C43 | M_CamFile.v: the re2c scanner and its goto-driven main loop (cameramodel-parser.re), cameramodel.py _write, mrcal_write_cameramodel_file, on byte strings; strtod as an oracle; S_CamFile.v: a declarative grammar and what a list of entries describes | soundness and completeness of the reader against the grammar by induction on fuel and text; both writers land in the grammar |
| C44 | the four pose accessors of the Python class and the writer's choice (C_CamPose.v, over M_Rt / r_from_R of M_Pose) | the stored rt is a pose; get/set through the C conversions is exact off the tiny/near-pi ranges of r_from_R (reals); refuted for tiny rotations |
| C45 | M_CamObj.v: the object's state, every public operation that changes it (with the partial updates made before an exception), write, literal_eval of what is written, _read_into_self.  Oracles: %.10g, the inputs codec, corresponding_icam_extrinsics | invariant over operation histories; explicit form of the object read back; refuted for reset, nan, newline, wrong pose size, exceptions, copies, contours printed open |
| C46 | M_OptInputs.v: _serialize/_deserialize as dictionary transformers.  Oracles: np.savez+zlib+b85 as a codec with decode(encode z) = z, numpy broadcasting equality | dictionary lookups through each rename; induction on the number of cycles |
| C47 | M_FrameNo.v: mapping_file_framenocameraindex (utils.py:788-938) with the regexes and the dict | common prefixes/suffixes by induction; the digit run is unique because two names differ |
| C48 | compute_chessboard_corners: the line-by-line state machine, parse_point, finish_chessboard_observation, the two stable sorts and the frame renumbering (M_Corners); regexes, float(), os.path and fnmatch are given functions | the rows are divided into images by an independent relation; simulation of the state machine by images, induction over the sorted list |
| C49 | the cache's temporary file, written byte by byte, and shutil.move as a rename or as a copy (C_Cache); a kill after any number of effects, any number of times | induction over the history; witness for a temporary directory on another file system |
| C50 | _HVs_HVc_HVp, _construct_model, _deconstruct_model and the dispatch of _read/_write on the vectors (M_Cahvor), over the reals; the text is not modelled | algebra of orthonormal columns, atan2/asin; the specification is the published CAHV/CAHVOR projection, stated in file coordinates |
| C51 | `utils.ingest_packed_state` with numpy slice assignment, `pack_state`/`unpack_state` and its failures, in `M_Ingest.v` | layout regions (`P_Layout`) + pack lemmas: every optimized quantity is overwritten by its unpacked value, everything else unchanged; refuted parts give the inputs where it raises or is killed |
| C52 | worst_direction_stdev, 1x1 and 2x2 branches (the scipy branch for larger matrices isn't modelled) | Cauchy-Schwarz and an explicit eigenvector |
| C53 | `M_Cross`: row mapping, chunk sums, flushes, packed 6x6 updates, final solve (`uncertainty.c` 128-1549), LAPACK dpptrf/dpptrs as an oracle with a contract | `S_Cross` gives one measurement's contribution; simulation invariant "output + pending chunks = sum so far" by induction over the rows (`P_Cross`), row shapes (`P_CrossRow`), callback rows are of that shape (`C_CrossRows`), matrices are derivatives (`C_CrossGrad`); permutation invariance as a corollary |
| C54 | M_Connect.v: compute_connectivity_matrix with uint16 counters and Python index rules | invariant: finished frames, then the current one; pairs within frames = common frames |
| C55 | M_Image.v: the min/max scan and the stretch in binary32 (Flocq), undefined casts as None | monotonicity of rounding; the scan is exact unless the maximum is only the first pixel |
| C56 | M_Tracks.v: normalize_indices with np.unique/isin/masks, loop on fuel | greatest consistent subsequence as invariant; length decreases |
| C57 | columns written by the callback model against a table of dependencies (`S_Deps.v`) | induction over the observation lists, both inclusions |
| C58 | row ids written by the callback model against `measurement_index_*` | position arithmetic on concatenated lists |
| C59, C60 | `M_OpenCV.v`: opencv.c projection and project_cahvor over R with their gradient arrays; spec in `S_LensGrad.v` (derivative along any joint path of intrinsics and point) | Coquelicot derivative rules, field |
| C61 | `M_Splined.v`: _project_point_splined over the surface model of C13, entries in the loop order of the densification | product rule over the control-point sum; uint16 column stride assumed not to overflow (2*Nx < 65536, the overflow itself is refuted elsewhere) |
| C62 | `M_Unproject.v`: _mrcal_unproject_internal with all lens models; libdogleg is an oracle returning a state and a cost (number, infinity or NaN) | independent notion of an `answer`; case analysis and the scale invariance of the models; callback Jacobian by the chain rule from C31, C59-C61, C65; four refutations (accepted solver errors and NaN, CAHVORE seeing behind, refused CAHVORE projections) |
| C63 | `M_Triangulate.v` over dual numbers | `P_TriGrad.v`: each operation carries derivatives; the strict tests hold in a neighbourhood |
| C64 | `M_Triangulate.v: lin_correct, tri_lindstrom` | real algebra; the second step is refuted (the code divides by what it should multiply with) and proved for the published formula; for rectified pairs both coincide |
| C65 | `M_Cahvore.v`: cahvore.cc and project_cahvore over a number type instantiated with R and with dual numbers; Newton iteration with the code's limit of 100 steps, failure = None | entrance-pupil geometry and projection family stated in vectors; gradients: `P_DualPath.v` (dual numbers carry rates along any path, through the iteration); the zeroing of gradients on failure is refuted (sizeof of a pointer) |
| C66 | `M_Residuals.v`: the value of every residual and Jacobian entry of optimizer_callback (mrcal.c:2302-2862, 4520-5950); instantiates the value oracles of `M_Callback.v` | along any path of states: `P_PathGrad.v` (pose code), `P_Jacobian.v` (project()), `P_TriPath.v`, then row by row; the row identities do not depend on the state. Excluded: rotations below the thresholds of R_from_r/rotate_point_r (there the computed residual is not what the gradient is of, C20, C26) and boundary points of branches |
| C67 | `M_Residuals.v` (the values) and `M_Pack.v` (unpacking into the caller's structures) | specification in `C_Residuals.v`: rotation matrices of rotation vectors, warped grid, weight*(projection-observation), stated over the unpacked structures; row by row from C06, C07, C20, C23, C36. Excluded: rotations at which the pose code is inexact (C20, C23), a warped board one corner wide (NaN), a triangulated pair with both cameras at the reference (NULL) |
| C68 | `M_Uncert.v`: the two sparse products, the choice of rows and of the formula, the scaling by unpack_state(), rms-stdev; cholmod_solve2() is an oracle with the contract `factorizes` (P'LDL'P = JtJ, the four solves solve) | the noise is any family of random variables with a linear expectation; the re-solved problem is "minimizes the linearized cost" (`fits`); normal equations, uniqueness, then sums over the rows of C66 (`P_Uncert.v`, `C_Uncert.v`) |
| C69 | `M_Uncert.v`: _observed_pixel_uncertainty_from_inputs with measurements_board/point | trace of the projection onto the range of J; with regularization an inequality |
| C70 | `M_ProjUncert.v`: dq_db of projection_uncertainty() for the three methods, with the slices into the state, the refusals and the exceptions not raised on purpose; the dense gradients of mrcal_project(). One point, no broadcasting; K is an argument (its computation is C53) | derivative along a path of packed states (`C_ProjUncert.v`): chain rule with the lens gradients of C66, the rotations of C20/C27; the sums over the blocks of the state by the layout (C01); means over lists of frames and poses. Partial: the older methods raise UnboundLocalError/TypeError if the intrinsics/poses aren't optimized; rotations with 0 < angle <= 1e-5 aren't covered for them |
| C71 | `M_Perfect.v`: ref_calibration_object() (one warp, scalar spacing, default grid), hypothesis_board_corner_positions(), make_perfect_observations() with the randn() samples as an argument, the numpy index wrap, and the weight view that is written through | the observed pixels are put through the model of optimizer_callback() and the specification of C67 (`C_Perfect.v`): rotations are unique (C20), Rt composition is the composition of the actions (C22), unpack after pack is the identity (C06). Partial: tiny rotations as in C67; false for outliers when noise is requested: their weight becomes 1 |
| C72 | `M_ImageMap.v`: image_transformation_map(), branch by branch, for every pixel of the output; unproject() (C62), cv2.initUndistortRectifyMap() and the point-in-polygon test are parameters; no rounding to 32-bit floats | `C_ImageMap.v`: scene points through both poses (C22), all lens models depend on the direction only (proved here for every model), the homography by the adjugate, the limit by continuity of the lens gradients of C66. unproject() is assumed to answer as C62 says, OpenCV as its documentation says. Partial: the OpenCV path ignores relative rotations below 1e-6; with plane_d < 0 the rays are reversed, which is wrong for the models that see behind the camera |
| C73 | `M_Quat`: quat_from_R() on an array of N rotations, with argmax and the two masked groups of assignments into the (arbitrary) output array; R_from_quat(); qt_from_Rt() writing through the view qt[...,:4]; Rt_from_qt(). The check that `out` can be reshaped in place is not modelled | `C_Quat`: the raw row has squared norm 4p with p the largest of the four pivots (>= 1), polynomial identities from orthonormality and cofactors (`nsatz`); +-q from equality of all products; axis/angle through `rod` |
| C74 | `M_UnprojGrad`: unproject(get_gradients=True) for one pixel: the closed forms with their dv/di, the stereographic route with np.linalg.solve() as an exact 2x2 inverse (None: LinAlgError), the normalization of v and of its gradients. `vs` is what the C solver returned (C62); broadcasting and `out` are not modelled | `C_UnprojGrad`: derivatives along arbitrary differentiable paths; the total derivative of the projection (`lens_path` of C63, `dense_total` of C70) must equal the pixel's rate, and the 2x2 inverse solves for the motion on the surface; projecting any path to the surface gives the normalized case for central lenses. That a differentiable path exists (implicit function theorem) is not proved; the converse (moving at the reported rate moves the pixel as asked) is |
| C75 | `M_TriUncert`: _compute_Var_q_triangulation(), _triangulation_uncertainty_internal() (the gradients of one slice, stabilize(), the columns written for the intrinsics, the poses and the frames), the covariances of triangulate(). Uses the models of unproject (C74), compose_rt/invert_rt (C20, C23), triangulation.cc with its dual numbers (C33, C63), the state layout (C01). np.linalg.solve() is an exact 3x3 inverse. The poses in the models are those of the solve; the checks on optimization_inputs and broadcasting are not modelled; _propagate_calibration_uncertainty() is a function of sigma (C68) | `P_TriUncert`: each method, the relative pose and the inverse transform along differentiable paths; `P_TriState`: the columns summed over the state; `C_TriUncert`: chained along a path of packed states. Rotations that are nonzero but tiny are excluded. Refuted: lens without distortions and do_optimize_intrinsics_distortions=False: the slice [0:-0] is empty and an exception is raised |
| C76 | `M_PinholeFit`: both functions over reals with signed zeros, infinities and NaN (no rounding, no overflow); mrcal.unproject() is a parameter | `C_PinholeFit`: induction over the query points; the cut at each coordinate is the largest scale with that coordinate in view. Refuted: a coordinate that is exactly 0 divides by +0 and the scale is -infinity (a centered pinhole camera with fit='centers-vertical'); scale_image with cx = 0 gives NaN |
| C77 | `M_Stereo`: mrcal_rectified_resolution() with the gradient of mrcal_project() of the modelled lenses (`lens_pixel_J`) | `C_Resolution`: the derivative of both pixels along the turn (chain rule over the lens gradient theorems; `tan` for the pinhole model), equality of the speeds, rounding error of the LATLON image size. Not modelled: the LENSMODEL_LONLAT branch, which mrcal_rectified_system2() cannot reach |
| C78 | `M_Seed`: the pairwise fits, the shortest-path callbacks, the joining of the poses of each frame, as loops over the rows; uses the models of C14 (traversal), C54 (connectivity), C29 (fit), `M_Perfect` (board). SVD and heap are parameters | `P_Fit`: the fit is exact for rigidly moved points that contain an orthogonal corner; `P_Seed`: loop invariant of the pairwise fit; `P_Svd`: every real 3x3 matrix has an SVD, so that the hypotheses on LAPACK can be met; `C_Seed`: position in the upper triangle, induction over the callbacks, loop invariant over the frames. Two refutations for rows out of order and for skipped frames |
| C79 | `M_Color`: the formula table, limits of the types, automatic bounds, the Python wrapper; undefined behavior of signed overflow as a result. Real numbers for float/double; no NaN; strides not modelled | `C_Color`: case analysis over the formulas against the documented table, fold lemmas for the extreme values, induction over the image; witnesses for the three exceptions |
| C80 | `M_Match`: match_feature() from the argument checks to the sub-pixel result, apply_homography(); cv2.matchTemplate() by its documented formulas; cv2.remap() and np.linalg.lstsq() as arguments. Real numbers; a division by 0 is an error value; visualization not modelled | `C_Match`: window arithmetic, first-optimum lemma, Pythagoras for the 3x3 least squares, Cauchy-Schwarz with its equality case for the normalized scores, affine functions on a box for the template; witnesses for the exceptions |
| C81 | `M_Diff`: sample_imager(), implied_Rt10__from_unprojections(), projection_diff(); the lens, the uncertainties and scipy.optimize.least_squares() as arguments. Real numbers; a value that isn't finite is None. Not modelled: noncentral models, the shape of the result for a scalar distance | `C_Diff`: residuals by the chord identity, gradients from C26, zero of the Huber cost at an exact alignment, uniqueness of a rotation from two directions, transposition lemma for many models; witness for the exception |
| C82 | `M_ModelRes`: the function at one pixel; v and the gradients of project() as arguments (lens_pixel_J of M_Unproject). Real numbers. Not modelled: broadcasting, a q of shape (2,) | `C_ModelRes`: the curve turned(v,u,t) differentiated, chain rule with the proved gradients; the rows of R_aligned_to_vector() span the tangent plane; the extremes of a quadratic form on the unit circle |
| C83 | `M_PairDiff`: the whole function, cameras as in `M_Diff`. np.norm2 as an exception, since numpy has no such function | `C_PairDiff`: Rt10 takes camera 0 coordinates to camera 1 coordinates, by C22; uniqueness of the rigid motion; witness for CAHVORE |
| C84 | `M_Ply`: the whole function; the bytes of np.float32/np.uint8 and the texts "%.1f", "%d" of a number as arguments. Not modelled: byte order of the machine, file system errors | `C_Ply`: a reader of .ply headers, run on the header with any number of points (decimal numerals: stdlib); the records by field name |
| C85 | `M_Pnm`: image structures over a byte memory, accessors, crop, generic_save() up to the libraries for .png and .jpg. Little-endian machine. Not modelled: failures of malloc() and of the file system, negative sizes and strides | `C_Pnm`: a netpbm reader (tokens, decimal numbers, big-endian samples), run on the file for all sizes; witnesses for the exceptions |
| C86 | `M_Densify`: _densify_polyline(), in real arithmetic (with rounding, the end of a segment is reached up to an ulp) | `C_Densify` with `S_Densify`: the relation `walk` between a polyline and its resampling, by induction over the segments; witnesses for the exceptions |
| C87 | `M_SynthBoard`: synthesize_board_observations() with the random rows as one sequence and the loop with fuel; project() is a function of each camera, NaN as None. Real arithmetic; no broadcasting beyond frames, cameras and corners | `C_SynthBoard`: the specification counts visible corners and speaks about angles; invariant of the loop: what has been gathered is the filtered prefix of the sequence |
| C88 | `M_SplineDomain`: _splined_stereographic_domain() with the slices as lists of indices. Real arithmetic; projection is M_Spline, M_Splined | `S_SplineDomain`: rectangles, the set of points on a polyline. `C_SplineDomain`: straight sides are covered by a discrete intermediate value argument; the segment that the C code picks, with its truncation and clamping, contains the position iff it is inside |
| C89 | `M_Ellipse`: sorted_eig(), _plot_arg_covariance_ellipse(), _plot_args_points_and_covariance_ellipse(). np.linalg.eig() and np.argsort() are external functions with contracts stated in the theorems; a single matrix, real arithmetic; what gnuplot draws for an ellipse is part of the specification | `C_Ellipse`: spectral decomposition of a symmetric (2,2) matrix from any two eigenvectors; extent in a direction and equation of the ellipse |
| C90 | `M_ImageLoad`: generic_load() branch by branch; stb_image as a record of what it says about one file; stretch equalization is M_Image, saving is M_Pnm. Not modelled: failing malloc(), overflow of sizes | `C_ImageLoad`: table of formats; the library is assumed to follow the netpbm reader of `C_Pnm` for the round trip |
| C91 | `M_PolyDiff`: the branches on the type of the difference, the loop over vertices of the first hole, the recursion, the warning; shapely's difference(), split() and centroid are oracles; exact coordinates | `C_PolyDiff`: even-odd rule and outlines as specification; contracts of shapely as hypotheses (split_ok, difference_ok, split_progress, short_cuts); induction over the recursion and over the lists of pieces |
| C92 | `M_ValidRegion`: the selection of observations, stats(), the mask, the choice and closing of the contour, scaling and rounding; the lens, projection_uncertainty(), cv2.findContours() and contourArea() are oracles; sample_imager() is that of `M_Diff` | `C_ValidRegion`: relation `gathered` between observations and residuals of a cell, population mean and deviation as equations; findContours() assumed to report set points of the mask (contours_ok); two refutations with witnesses |
| C93 | `M_BoardPoints`: the selection of points, with the caller's array after the call as part of the result; the positions themselves are in `M_Perfect` (C71) | `C_BoardPoints`: relation `chosen`, permutation for the default; induction over the observations; two calls in sequence |
| C94 | `M_NoisyVectors`: the function for one point, with the pose functions of `M_Pose`; the lenses and np.random.randn() are arguments. Not modelled: broadcasting over points | `C_NoisyVectors`: per sample, from the coordinates p1 of the point in camera 1 (act Rt01 p1 = p), and the intersection of the rays |
| C95 | `M_TriArgs`: _parse_args and the dispatch, for one pair of rays, over the triangulation routines of `M_Triangulate`. Not modelled: broadcasting, `out`, the gradients; the point of the _withgrad routines is taken to be that of the others (see C63) | `C_TriArgs`: case split on the arguments; the parsed rays meet at p, then C33 |

## 4. What is modelled, what is not

Modelled (each definition cites its lines): mrcal.c – lens model names and metadata, state and measurement
layout, packing, optimizer_callback (structure and values), markOutliers and the outer loop, all projections
with gradients, unprojection, batched project, write_cameramodel_file; poseutils.c and
poseutils-uses-autodiff.cc; autodiff.hh; triangulation.cc; cahvore.cc; opencv.c; stereo.c (rectified system,
maps, ranging); uncertainty.c (drt_ref_refperturbed); traverse-sensor-links.cc; image.c (stretch_equalization);
cameramodel-parser.re; Python: cameramodel.py (object, text form, optimization_inputs), cahvor.py (geometry),
utils.py (mapping_file_framenocameraindex, ingest_packed_state, close_contour), calibration.py
(compute_chessboard_corners and its cache), model_analysis.py (worst_direction_stdev, connectivity, _propagate_calibration_uncertainty,
_observed_pixel_uncertainty_from_inputs), the sparse products of mrcal-genpywrap.py,
the stateful parts of mrcal-pywrap.c that the above go through.

Not modelled: the numerical solver itself (libdogleg, CHOLMOD, LAPACK – oracles with the contracts stated in
the theorem that uses them), seeding (estimate_*), OpenCV's solvers, image remapping, the feature detectors,
visualization, command-line tools, file-system behaviour other than in C49, the process-level behaviour of the
C extension (reference counts, GIL).

Simplifications common to all:

* `double` is `R`, except C16/C17 (abstract arithmetic, instantiated with Flocq's binary64) and C55 (binary32).
  Decimal constants are the exact rationals written in the source, not their nearest doubles.
* `int` is `Z`; products that could overflow (num_params of huge splined models, the condensed pair index
  beyond 46341 sensors, the pixel index in C40) are either proved to be in range, refuted, or stated as bounds.
* Matrix products, norms, dot products (minimath) are their mathematical meaning; the order of floating-point
  summation is not kept.
* Division by zero in `R` is a total function in Coq: theorems that depend on a quotient carry the hypothesis
  that the divisor is nonzero, or the code's own test does.
* numpy indexing, slicing, `unique`, `isin`, `ravel`, stable sorts: by documented contract, as total functions
  with failures as `None`.
* `%.10g`/`{:.10g}` (C42, C45) is a parameter: a function to text with its contract (the text parses back to
  what it denotes); `np.savez`+zlib+b85 is a codec with decode(encode x) = x; `ast.literal_eval` is
  implemented for the subset that the writer emits.
* Threads: none of the modelled functions is concurrent.

Findings (behaviour of the code that contradicts its documentation, each a theorem `..._refuted` with a
witness): see the claims with status `partial` in MANIFEST.json; the note of each says what fails.

## 5. Print Assumptions

`rocq/ASSUMPTIONS.md` lists the output of `Print Assumptions` for every theorem `Cnn_...` of MANIFEST.json,
generated from a build log.  All the axioms are of the standard library:

* nothing (integer, list, string theorems): "closed under the global context";
* `ClassicalDedekindReals.sig_forall_dec`, `ClassicalDedekindReals.sig_not_dec`,
  `FunctionalExtensionality.functional_extensionality_dep`: the construction of `R`;
* `Classical_Prop.classic`: stdlib analysis lemmas (`Rtopology`, `MVT`, ...), Coquelicot, Flocq.
* `ClassicalEpsilon.constructive_indefinite_description` (`Coq.Logic`): only in the Example of `C_Diff`, which has to show a
  function that returns a minimizer of any cost; no theorem of MANIFEST.json uses it.

(`vcheck` also lists the opaque interfaces of `Coq.Reals.Rdefinitions` (`RbaseSymbolsImpl`, `RinvImpl`) and of
`Coq.ssr.ssrunder`, which are sealed modules of the standard library, not axioms.)
