# Formal model of batoid in Rocq (Coq 8.16.1)

The subject is `jmeyers314/batoid` at the pinned commit in `/repo`.  The code was
read as text; nothing was built or run.  Every definition of the model carries a
comment citing the file and lines it models, and says where it simplifies.

## 1. Layout

All files are in `rocq/theories` (logical name `Verif`).

Model (what the code does)

| file | content |
|---|---|
| `Num.v`, `NumR.v`, `NumF.v` | the record `Num` of arithmetic operations, without laws; its instances `XR` (exact reals with +inf, -inf, NaN) and `F64` (IEEE binary64 from the standard library's `SpecFloat`) |
| `Trig.v` | the trigonometric functions, again without laws, and their exact instance |
| `Vec.v`, `CoordSys.v` | 3-vectors, matrices, `CoordSys`, `CoordTransform` |
| `Surface.v`, `Bicubic.v` | all surfaces: sag, normal, timeToIntersect, grad; the Bicubic constructor |
| `Medium.v`, `Obscuration.v`, `Grid.v` | media, coatings, obscurations, `containsGrid` |
| `Ray.v`, `Bundle.v`, `Ops.v` | per-ray bodies of the loops of `src/batoid.cpp` and `src/rayVector.cpp`; bundles; sequences of calls as data |
| `Draw.v`, `Sky.v` | the points of drawings, radii and their caches, `clearObscuration`; sidereal time and horizon coordinates of the app |
| `Pyramid.v` | the layout of `plotUtils.zernikePyramid`, the numbering of Zernike polynomials |
| `Wave.v`, `Arrays.v` | phase and amplitude; `RayVector` as its eleven arrays: indexing, concatenation, comparison, drawing vertices |
| `Optic.v` | the optic tree: trace, traceFull, paths, traceSplit, with*, names |
| `RayGen.v`, `Field.v` | ray generators; projections, hexapolar grids, lattices, two helpers of `analysis.py` |
| `Analysis.v` | the numerical content of `analysis.py`: spots, wavefronts, Huygens and FFT point-spread functions, Jacobians, the exit pupil, `zernikeGQ` |
| `Fit.v` | `zernike`, `zernikeTA`, `zernikeXYAberrations`, `doubleZernike` |
| `Heap.v` | generators as programs over shared arrays |
| `DualView.v` | host and device copies of ray data |
| `Sched.v` | small-step semantics of the parallel loops: threads, interleavings |
| `PyObj.v` | `==`, `hash`, pickle state and printed form of the Python objects |
| `Parse.v` | optics from descriptions |

Specifications (what it should do; nothing here uses helpers of the model):
`Spec.v` and every `*Spec.v`.

Proofs: `*Proofs.v`, `*Facts.v`, `*More.v`, `*Last.v`, `ParseTree.v`, `GenQuad.v`,
`StructXR.v`, `SchedKernels.v`, `SchedEffect.v`, `AnalysisFocus.v`, `AnalysisPSF.v`,
`AnalysisFFT.v`, `Fourier.v`, `AnalysisMove.v`, `AnalysisBad.v`,
`AxialTrace.v`, `DiscProofs.v`, `LinFit.v`, `LinExist.v`, `FitSlopes.v`, `DoubleZern.v`, `FloatErr.v`, `FloatCmp.v`, `EdgeProofs.v`, `GaussLimits.v`, `GaussSurfaces.v`, `GaussLands.v`,
`FloatFrames.v`, `FloatTrace.v`, `FloatNormal.v`, `FloatMirrors.v`, `FloatRefract.v`, `EtendueProofs.v`.

Concrete cases used in examples and refutations: `Samples*.v`.

Theorems: `Properties*.v`.  Each theorem is called after its property
(`C07_reflection_law` belongs to C07), is closed by `exact` of a lemma, and has
`Print Assumptions` beneath; each property has an `Example` that shows a concrete
case meeting the hypotheses.

## 2. Two kinds of theorem, one model

The model is written **once**, generically over the record `Num T`
(`+ - * / opp sqrt abs < <= == literals NaN isnan floor`).  `Num` carries no
laws, therefore

* *structural* theorems (flags, ray independence, schedules, optic trees,
  Newton residual, Boolean algebra of obscurations, parsing, equality, ...)
  are proved for **every** `Num`, hence for IEEE doubles as compiled, including
  NaN, infinities, rounding and extended precision;
* *geometric* theorems (Snell, rigid motions, intersections on the surface,
  projections, ...) are proved for the instance `XR`: real arithmetic with
  IEEE-style special values.  Rounding error is **not** modelled there.  In `XR`
  zero has no sign: `x/0` is the infinity with the sign of `x`, `0/0` is NaN.
* *accuracy* theorems (C88, C89, C91, C99) are proved for the instance `F64`: they bound, for
  all doubles of a stated size, how far the result of a kernel is from the exact
  real result (`valF` is the real number a double stands for).  They rest on a
  proof that `SpecFloat`'s five operations round once (`C88_arithmetic`).  The
  order of operations is that of the source text: a compiler that contracts
  `a*b + c` into one operation rounds less often and is not covered;
* *refutations* are witnessed by computation with the instance `F64`
  (true binary64 arithmetic, pure Gallina, `vm_compute`) or in `XR`.

Simplifications common to the whole model

* mutation in place becomes returning the new value; aliasing is modelled only
  where a property is about it (C24, C49, C62, and reuse of descriptions in C56);
* numpy arrays are lists; shapes are tracked where the code checks them;
* a `RayVector` is a list of ray records (array-of-structs) instead of eleven
  parallel arrays (struct-of-arrays); `Arrays.v` and `Sched.v` go back to the arrays;
* Python exceptions are values (`Err`);
* trigonometric functions have an exact instance only; theorems about doubles
  that involve them hold for arbitrary functions in their place;
* C `int` indices are unbounded (`nat`/`Z`): bundles of more than 2^31-1 rays are
  out of scope.

## 3. Trusted base

* Coq's kernel and the build tools (`coqc`, `coq_makefile`).
* The axioms listed by `Print Assumptions` under each theorem.  Only the standard
  library is used, and only these four of its axioms occur; the lists below say
  which theorem uses which.
* The faithfulness of the model to the code: read, not tested.

No axioms (closed under the global context), 162 theorems:

C05_propagate_is_positionAtTime, C10_rsplit_refracted, C12_parabolic_conic_refuted,
C12_paraboloid_tangent_refuted, C12_quadric_from_surface_refuted, C12_ray_in_plane_refuted,
C13_iterative_residual, C14_every_kernel_same_point, C20_flags_sticky,
C21_failed_implies_vignetted, C22_count_and_wavelengths, C22_flux_kept_without_coating,
C23_concatenation, C23_frame_independent_of_rays, C23_selection, C24_any_schedule, C24_effect,
C24_ends, C24_no_race, C24_overlap_refuted, C24_rounding_refuted, C25_final_frame,
C25_regrouping, C25_skipped_item_is_absent, C25_trace_visits_interfaces_in_order,
C26_duplicate_names_refuted, C26_own_skip_refuted, C26_traceFull_is_trace_step_by_step,
C27_full_path_agrees, C27_full_path_chain, C27_natural_path_is_trace, C27_path_visits_in_order,
C27_single_interface_refuted, C28_live, C29_full_name, C29_lookup, C30_global_shift,
C30_local_rotation, C30_local_shift, C30_perturbed_surface, C30_prefix_refuted,
C30_skip_refuted, C30_surface, C30_unknown_name, C33_coating_refuted,
C33_global_rotation_keeps_rest, C33_global_shift_keeps_rest, C33_local_rotation_keeps_rest,
C33_local_shift_keeps_rest, C33_skip_refuted, C33_surface_coating_refuted,
C33_surface_keeps_rest, C34_boolean_ops, C34_de_morgan, C34_double_negation,
C34_only_the_members_matter, C37_closing_edge_refuted, C37_coarse_grid_refuted,
C37_out_of_bounds_refuted, C37_uninitialised_refuted, C38_unknown, C39_ring_multiple,
C40_fan_none, C40_two_sizes, C41_wavelength, C43_rejects, C44_columns, C44_index, C44_last,
C44_mask, C44_negative_partial, C44_negative_refuted, C44_out_of_range, C44_slice,
C45_concatenate, C45_copy, C46_componentwise, C46_frames_refuted, C46_lengths_refuted,
C46_nan_refuted, C46_symmetric_transitive, C47_last_double_refuted, C48_const, C49_cpu,
C49_gpu, C52_attribute_skips_partial, C52_compound_refuted, C52_interface_refuted,
C53_detector_forward, C53_forward_refuted, C53_reverse_refuted, C53_same_coatings_partial,
C54_defaults, C54_misordered_names, C54_once_hidden_always_hidden, C54_unknown_name,
C55_vignetting_exact, C56_clear, C56_clear_accepted, C56_dropped_refuted, C56_medium,
C56_misspelt_refuted, C56_obscuration, C56_optic, C56_reuse_refuted, C56_stop_refuted,
C56_surface, C56_total, C56_unknown_obscuration, C56_unknown_optic, C56_unknown_surface,
C57_steep_screen_refuted, C58_bicubic_refuted, C58_coating_lattice, C58_frame, C58_medium,
C58_obscuration, C58_optic, C58_polygon_refuted, C58_surface, C61_dead_rays_ignored,
C62_constructor, C62_fromFieldAngles_partial, C62_fromStop_partial, C63_insert,
C63_nested_refuted, C63_remove, C63_shared_name_refuted, C63_unknown_name,
C65_interface_refuted, C65_obscuration_equivalence, C65_surface_equivalence,
C65_transitive_refuted, C66_obscuration, C66_order, C66_surface, C67_equal, C67_points,
C67_spelling_refuted, C69_reference, C69_small, C71_odd, C72_exitPupil_refuted,
C72_stopless_refuted, C78_failed, C78_jmax, C78_vignetting, C79_obscurations, C80_errors,
C92_R_outer, C92_clear, C92_compound, C92_lens_refuted, C92_moved, C92_moved_cleared,
C92_radii, C92_slice_refuted, C98_apart, C98_numbered, C98_numbers, C98_panels, C98_when

Uses `ClassicalDedekindReals.sig_forall_dec`, `FunctionalExtensionality.functional_extensionality_dep`, 20 theorems:

C100_crossing, C100_lagrange, C100_pair, C40_chief, C40_chief_odd, C45_frames_refuted,
C51_condition, C83_exact, C84_dx, C84_dy, C84_slopes_exact, C85_exact, C86_plane_wave,
C86_point_source, C88_plane, C88_positionAtTime, C88_propagate, C89_speed_refuted,
C91_exact_refuted, C99_compare

Uses `ClassicalDedekindReals.sig_forall_dec`, `ClassicalDedekindReals.sig_not_dec`, `FunctionalExtensionality.functional_extensionality_dep`, 181 theorems:

C01_array_roundtrip, C01_toCoordSys_roundtrip, C01_transform_roundtrip,
C01_transform_roundtrip_reverse, C02_chain, C02_compose, C02_identity, C03_rigid,
C04_history_rotation, C04_rotateGlobal, C04_rotateLocal, C04_rotateLocal_keeps_origin,
C04_shiftGlobal, C04_shiftLocal, C04_toGlobal_spec, C04_toLocal_toGlobal, C05_flow,
C05_own_time, C05_positionAtTime_spec, C05_trajectory_kept, C07_reflect_twice,
C07_reflection_law, C08_snell, C09_total_internal_reflection, C100_conjugate, C100_curvature,
C100_curvature_polynomial, C100_curvature_sum, C100_focus, C100_lands, C100_system,
C101_corner, C101_depth, C101_lands, C101_layer, C101_mirrors, C101_periscope, C101_plate,
C101_stack, C101_two_mirrors, C101_window, C102_centre, C102_distance, C102_moment,
C10_rsplit_flux, C10_rsplit_reflected, C11_crossing_rays_arrive, C11_hyperboloid_sag_refuted,
C11_meets_sag, C11_on_line_and_surface, C11_one_sheet_on_sag, C11_sag_is_vertex_part,
C11_sphere_sag_refuted, C12_miss_iff_failed, C13_iterative_residual_real, C14_clock, C15_curve,
C15_exist, C15_normals, C15_perpendicular, C15_tilted_nan_refuted, C15_tilted_refuted,
C16_order, C16_plane_adds_nothing, C16_sags_add, C16_slopes_add, C17_normal, C17_rectangle,
C17_sag, C18_normal, C18_sag, C19_default_slopes, C19_hermite, C19_last_node_refuted,
C19_nodes, C19_outside, C19_smooth, C22_flux_never_grows, C28_failed_refuted, C28_flux,
C28_skip_refuted, C28_terminates, C28_unlimited_refuted, C31_local_rotation_undone,
C31_local_shift_undone, C31_local_shifts_add, C31_rotation_undone, C31_rotations_compose,
C31_shift_undone, C31_shifts_add, C32_moved_rays, C32_trace_covariant, C35_annulus, C35_circle,
C36_convex_polygon, C36_crossing_parity, C36_start_and_direction, C37_grid_membership_partial,
C43_coords, C43_origin, C46_equal_traces, C46_identical_rays, C47_interpolates,
C47_last_refuted, C47_last_wavelength, C47_nodes, C47_outside, C48_air, C48_air_above_one,
C48_air_dispersion, C48_sellmeier, C48_sellmeier_dispersion, C48_sumita, C51_closest,
C51_parallel, C54_vertices, C57_gradient, C57_opd_screen, C59_reflect_reversible,
C59_refract_reversible, C60_paraboloid_focus, C65_frame_alike, C65_medium_alike,
C65_surface_alike, C69_crossing, C70_time, C73_meridional, C73_real, C73_turned, C74_skewness,
C75_collimates, C75_far_to_near, C75_near_to_far, C76_collimates, C76_focuses, C77_relay,
C77_telescope, C77_through, C77_two_mirrors, C86_malus, C86_screen_medium_refuted,
C86_screen_side_refuted, C87_aberration, C87_flat, C88_arithmetic, C88_direction, C88_place,
C88_round_trip_refuted, C89_mirrors, C89_normal, C89_reflection, C90_etendue, C91_lenses,
C91_refraction, C92_clear_refuted, C92_lens, C92_slice, C94_bicubic_refuted, C94_full,
C94_path, C94_plane, C94_polygon_refuted, C94_split, C94_symmetric, C94_trace, C95_contains,
C95_full, C95_iteration, C95_iterative_refuted, C95_path, C95_split, C95_surface, C95_trace,
C97_aplanatic, C97_centre, C98_any_range_refuted, C98_pyramid, C99_circle, C99_contains,
C99_edge_refuted, C99_obscure

Uses `ClassicalDedekindReals.sig_forall_dec`, `Classical_Prop.classic`, `FunctionalExtensionality.functional_extensionality_dep`, 1 theorems:

C83_solvable

Uses `ClassicalDedekindReals.sig_forall_dec`, `ClassicalDedekindReals.sig_not_dec`, `Classical_Prop.classic`, `FunctionalExtensionality.functional_extensionality_dep`, 117 theorems:

C06_phase_law, C06_unchanged_by_frame, C06_unchanged_by_propagation, C06_zero_on_ray,
C24_reduction, C35_ray, C35_rectangle, C36_rectangle, C38_axis, C38_projection_law,
C38_round_trip, C38_round_trip_back, C38_zemax_law, C39_hexapolar_rings, C39_one_ring_refuted,
C40_dx_vector_refuted, C40_fan, C40_fan_arms, C40_grid, C40_random, C40_turned,
C40_two_refuted, C40_vectors_partial, C40_vectors_refuted, C41_asPolar, C41_asPolar_random,
C41_asSpokes_lists, C41_asSpokes_uniform, C41_fromStop, C42_rays, C49_held_refuted,
C49_split_refuted, C49_wavelength_refuted, C50_reciprocal_partial, C50_reciprocal_refuted,
C56_frame, C56_placed, C59_optic_reversible, C61_bounded_by_flux, C61_concatenation_adds,
C61_single_ray, C61_wave_sum, C62_fromFieldAngles_refuted, C62_fromStop_refuted,
C62_same_array_refuted, C62_vacuum, C64_exact, C64_int_refuted, C64_moments,
C64_spacing_refuted, C65_obscuration_alike, C68_mean, C68_other, C68_paraboloid, C68_spot,
C69_focus, C69_mean, C69_paraboloid, C69_wavefront, C70_huygens, C70_paraboloid, C70_peak,
C70_steps, C71_fft, C71_paraboloid, C71_peak, C71_total, C72_chief_refuted, C72_derivatives,
C72_fft, C72_huygens, C72_spot, C72_wavefront, C72_zernikeGQ, C78_projects, C78_recovers,
C78_value, C78_vignetting_refuted, C80_focal, C80_focal_refuted, C80_inverse, C80_linear,
C80_value, C81_exit_pupil, C82_projects, C82_recovers, C82_wavefronts, C83_fits, C84_slopes,
C84_xy, C85_fft, C85_fits, C85_huygens, C85_plate, C85_reciprocal_refuted, C87_one_time,
C90_cosine, C90_loop, C90_paths, C92_centre_refuted, C92_compound_refuted, C92_curves,
C92_mesh, C92_moved_refuted, C93_back_and_there, C93_equator, C93_horizon, C93_pointing,
C93_sidereal, C93_sidereal_refuted, C93_there_and_back, C93_zenith_refuted, C96_converges,
C96_eventually, C96_intersect, C96_parallel, C96_unique

### Not modelled

* rounding error, except in C88, C89, C91 and C99 (changes of frame, propagation, planes,
  normals, reflections, refractions, obscurations) and in the structural theorems (section 2); the accuracy of
  `sin`, ... of the C library (`sqrt` is correctly rounded by IEEE 754);
* the drawing calls of `plotUtils.py` (its layout is modelled), the widgets of `app.py` (sidereal time, horizon coordinates, the pointing of the telescope and the
  directions of the stars are modelled), the plotting calls of the drawing methods (their points are modelled), `batoid/data`;
* reading YAML text (a description is the tree `yaml.safe_load` returns), the byte
  format of `pickle` (the state it stores is modelled);
* the pybind glue in `pysrc` beyond argument order and conversions that matter to
  a property; compilation for GPUs (`DualView.v` models which copy is read or
  written, not the code generated by the compiler);
* random number generators (positions drawn are arbitrary lists);
* `galsim` (Zernike surfaces use an arbitrary conversion to polynomial
  coefficients; the fits of C78, C82-C84 take the basis functions as parameters), `numpy.polynomial.legendre.leggauss` (its exactness is a
  hypothesis of C64, C78, C82), `numpy.linalg.lstsq` (a parameter;
  C83 shows that what is asked of it can be met), `numpy.fft` (its defining sum);
* the memory model of the hardware: loads and stores of `Sched.v` are
  sequentially consistent, which the absence of data races justifies.

## 4. Property by property

| id | what is modelled | how it is proved |
|---|---|---|
| C01-C03 | `CoordTransform`, `applyForward/Reverse` on rays and arrays | identities from orthonormality, over XR on finite inputs |
| C04 | `CoordSys` edits as an op type, histories as lists | invariant by induction over histories |
| C05, C06 | `propagateInPlace`, `positionAtTime`, `phase`, `k`, `omega` | algebra over XR |
| C07 | `reflect` loop body | algebra; unit normals from C15 |
| C08, C09 | `refract` loop body | algebra over XR |
| C10 | `rSplit` loop body against `reflect`/`refract` | refracted part for every Num; reflected velocity over XR |
| C11, C12 | `timeToIntersect` of closed-form surfaces | quadratic formula over XR; sphere and conic sag sheet refuted, implicit equation proved |
| C13 | Newton loop | for every Num, by the shape of the loop |
| C14 | intersect | algebra; every kernel uses the same point, every Num |
| C15 | `normal` of every surface | derivatives by `derivable_pt_lim`, induction on sums; Tilted refuted |
| C16 | `Sum` | induction over the list, permutations |
| C17 | `horner`, `horner2d` | induction over sizes |
| C18 | `Asphere` | induction over coefficients, derivative |
| C19 | `Table`, `Bicubic` constructor | algebra of Hermite splines; floor |
| C20-C23 | all per-ray operations and the optic tree | induction over trees and histories, every Num |
| C24 | loads and stores of every loop, threads, interleavings | disjoint footprints commute; every Num |
| C25-C27 | trace, traceFull, path | induction over the optic tree, every Num |
| C28 | traceSplit work list with fuel | invariant over the work list; termination by a flux measure |
| C29, C30 | itemDict, _names, with* by name | induction over trees, strings |
| C31, C32 | with* and trace | C01-C04 lifted by tree induction |
| C33 | with* through the constructors | refuted for coatings and skip; the rest proved |
| C34-C37 | obscurations, polygon, containsGrid | Boolean algebra for every Num; real geometry over XR; containsGrid refuted |
| C38 | projections | trigonometric identities |
| C39, C40, C43 | hexapolar, asGrid, Lattice | arithmetic on Z and R, lists |
| C41, C42 | _finish/finishParallel, fromStop, fromFieldAngles | algebra over XR |
| C44-C46 | `__getitem__`, concatenate, `__eq__` | lists; negative index, frames refuted |
| C47, C48 | media | induction on the table; monotonicity over R |
| C49 | DualView state machine | simulation over op sequences |
| C50, C51 | `_reciprocalLatticeVectors`, `_closestApproach` | refuted with an exact condition / algebra |
| C52, C53 | constructor skip, rSplit coating | refuted; what holds is proved |
| C54, C55 | getGlobalRays, Interface.trace | lists |
| C56 | all of parse.py | induction over descriptions; relations on keys as specification |
| C57 | refractScreen | algebra over XR |
| C58, C65-C67 | `__eq__`, `__hash__`, `__getstate__`, `repr` of every Python object | case analysis with an abstract hash; permutations and sorting |
| C59 | reverse tracing of whole optics | algebra per surface, induction over the tree |
| C60 | paraboloid mirror | algebra over XR |
| C61 | sumAmplitude | lists over R |
| C62 | generators over shared arrays | simulation; refuted for fromStop, fromFieldAngles |
| C63 | withInsertedOptic, withRemovedOptic | induction over lists; nested names refuted |
| C64 | asSpokes | sums over equally spaced angles, quadrature as hypothesis |
| C68-C71 | spot, wavefront, huygensPSF, fftPSF from field angle to array | C40, C11, C60, C61 composed; uniqueness of the sphere crossing; Parseval by roots of unity |
| C72 | analysis functions of a moved telescope | C33/C48 equivariance of tracing lifted to the generators; two double-precision runs for the exceptions |
| C73 | tracing a ray turned about the axis | each surface's sag, normal and Newton step commute with plane turns; a lost (non-finite) iterate is lost in both; induction over the interfaces |
| C74 | skewness before and after tracing | normals of round surfaces are radial (from C73 with a flip); conserved by each interface |
| C75 | a focus, a conic mirror, the other focus | distances to the foci are linear in z; the sum of the unit vectors is along the normal |
| C76 | parallel light, a conic surface, its far focus | Snell's law determines the refracted ray from its tangential part and its side |
| C77 | chains of confocal mirrors | induction over the mirrors, each step being C75 |
| C78 | the integral of the wavefront against orthonormal polynomials over the annulus | asSpokes integrates polynomials in x and y exactly; sums of crossing times; removing obscurations commutes with everything zernikeGQ reads |
| C79 | rays compared in all but the vignetted flag | the flag is a passenger of every loop body; induction over the tree |
| C80 | mean rates over triples of corresponding rays; 2x2 matrices | the three bundles have the same number of rays in the same frame; means as sums |
| C81 | rotational symmetry (C74), lines and points | the four chief rays are rotations of one; closest approach of four lines through one point |
| C82 | integrals over the disc, combinations of polynomials, orthonormal families | the moments of the quadrature (C64), linearity, uniqueness of integrals; C78 at each field point |
| C83 | least squares: smallest sum of squares, only one; dependence at the points | minimum-norm solutions and rank of a matrix with a column of zeros; strict convexity |
| C84 | slopes, sums of squares over both components | as C83 with two columns of zeros and the rows of both components |
| C85 | affine fits to points that are not on a line; reciprocal pairs of lattices | normal equations and strict convexity; the components of the lattice code multiplied out |
| C86 | families of rays with rates of change; `lag`, `wavefront_at`, `sweeps` through a list of interfaces | chain rule; the change of slowness at a surface is along its normal, plus the gradient of the delay for a screen; induction over the interfaces |
| C87 | rays through one point, rays on a sphere | the arrival time has derivative zero, mean value theorem; dot products |
| C88 | the real value of a double, `rounded`, sizes and scales; frames orthonormal to within tau | each operation of `SpecFloat` rounds once (location of the exact result between neighbours); rules for the error of sums and products; induction over the frames |
| C89 | `nearly` unit normals, mirrors one after another | the normal is a slope vector times the reciprocal of its length, errors of the three steps; squared speed of a reflection; induction over the mirrors |
| C90 | `momentum`, `measures`, `twice_smooth`, `etendue`, families carried by an optic | the lag of a family is the same on both sides (C86); its derivative along a second parameter, mean value theorem along a path |
| C91 | `lenses` one after another, `ordinary` media and slopes | the squared length of Snell's vector is an identity in the errors of its inputs; each step's error; the error before the surface drops out; induction over the surfaces |
| C92 | `round` apertures, `surface_point`, `side_view`, `ring`, `segment`, `views` | linspace in closed form; the transform to the global frame of a point of the surface; lists point by point |
| C93 | `star_dir`, `north`, `west`, `up`, `horizon_dir`, `same_star`, `sidereal` | the change of coordinates is its own inverse; sine and cosine determine an angle in (-180, 180] |
| C94 | `mir_optic`, `mir_rays` and the mirror images of frames, surfaces and obscurations | signs move out of every operation of the arithmetic; kernels one by one; induction over the tree and the queue |
| C95 | `convert`, `conv_surface`, `conv_obsc`: every quantity times k to its dimension | powers of k move out of every operation (`hom`); kernels one by one; then the induction of C94 |
| C96 | `gap_along`, `gap_bounds`, `starts` | a turn of the loop is a Newton step of the gap, by C15; mean value theorem; induction over the iterations |
| C97 | `sphere_lens`, `beyond_centre`, and `lands`, `passes` of C75 | the distances to the two points are as n2 to n1, so the difference of the wave vectors is along the normal; uniqueness of refraction |
| C98 | `zernike_index`, `before` | loop invariant of the numbering; parities by linear arithmetic; the panels are a map over the indices |
| C99 | `double`, `exactO`, `built`, `clear_of` | every operation returns a canonical double, so comparisons are those of the values; error bounds of the distance, of the turned coordinates and of the crossing with an edge; induction over the obscuration |
| C100 | `tends`, `pencil`, `curved`, `element`, `meet`, `guided`, `reachable` | limits of the coordinates of the landing point, of the normal and of the bent velocity; the root of the quadratic that stays near the vertex; induction over the elements |
| C101 | `flat_mirror`, `images`, `layer`, `slowness`, `parity` | reflection in one plane is an isometry that keeps times; induction over the planes; the tangential part of the slowness is kept by each plane and its sign of advance by the parity |
| C102 | `shell`, `moment`, `closest` | a surface changes the slowness along its normal only, and the normal of a sphere points to its centre; induction over the spheres |

## 5. Findings

What the code does that its documentation or a reader would not expect.  The
theorem named gives the witness; items without a name were noticed while reading
and are not proved.

Tracing one surface

1. Rays that start on a sphere, quadric or paraboloid surface, or are tangent to
   it, can get NaN positions with no flag set
   (`C12_quadric_from_surface_refuted`, `C12_paraboloid_tangent_refuted`).
2. `Quadric` with conic = -1 finds no intersection (`C12_parabolic_conic_refuted`).
3. The point found on a sphere or hyperboloid can be on the far side, where
   z = sag(x, y) is false (`C11_sphere_sag_refuted`, `C11_hyperboloid_sag_refuted`).
4. `Tilted.normal` is not perpendicular to the plane, and is NaN for steep planes
   (`C15_tilted_refuted`, `C15_tilted_nan_refuted`).
5. The last row and column of a `Bicubic` are outside its domain
   (`C19_last_node_refuted`).  Uneven grids are accepted silently.
6. A ray lying in a plane is flagged as failed (`C12_ray_in_plane_refuted`).
7. A steep OPD screen makes the velocity NaN without a flag
   (`C57_steep_screen_refuted`).
8. `refract` multiplies the flux of totally reflected rays.
9. A failed ray keeps its old coordinates while its bundle changes frame.

Optic trees

10. The constructor argument `skip` is ignored (`C52_interface_refuted`,
    `C52_compound_refuted`); every with* method resets it (`C33_skip_refuted`), also
    that of enclosing assemblies (`C30_skip_refuted`).
11. with* methods reset coatings set by the user (`C33_coating_refuted`,
    `C33_surface_coating_refuted`).
12. A sibling whose name is a prefix of the edited name makes the edit fail
    (`C30_prefix_refuted`).
13. withInsertedOptic/withRemovedOptic do nothing for nested names and fail for
    shared ones (`C63_nested_refuted`, `C63_shared_name_refuted`).
14. `withPerturbedSurface` raises KeyError where the others raise ValueError.
15. `rSplit` swaps the two coatings (`C53_forward_refuted`, `C53_reverse_refuted`).
16. `traceSplit` fails with TypeError at a skipped item (`C28_skip_refuted`), may not
    end with minFlux <= 0 (`C28_unlimited_refuted`) or with a failed but
    unvignetted ray, whose flux it doubles (`C28_failed_refuted`).
    `OPDScreen.rSplit` refers to a missing attribute.
17. `traceFull` merges interfaces of equal names (`C26_duplicate_names_refuted`);
    `trace` ignores the optic's own skip, `traceFull` does not
    (`C26_own_skip_refuted`).
18. A path of a single refractive interface is reflected
    (`C27_single_interface_refuted`).
19. `Interface.withLocalRotation` rotates the stop surface about its own axes.

Bundles

20. Negative integer indices other than -1 return several rays
    (`C44_negative_refuted`).
21. `==` compares as many rays as the left side has and ignores frames
    (`C46_lengths_refuted`, `C46_frames_refuted`); a bundle with a NaN differs from
    itself (`C46_nan_refuted`).
22. `concatenateRayVectors` ignores frames (`C45_frames_refuted`).
23. Integer arrays are reinterpreted as doubles by some calls.
24. Sums of amplitudes depend on the number of threads, in the last bits
    (`C24_rounding_refuted`).
25. Loops use `int` counters: more than 2^31-1 rays overflow.

Generators

26. `fromStop` overwrites the caller's arrays, and gives wrong rays if x and y are
    the same array or overlap (`C62_fromStop_refuted`, `C62_same_array_refuted`,
    `C24_overlap_refuted`); with a scalar y it reads past its end; strided arrays
    are read as if contiguous.
27. `fromFieldAngles` with the orthographic projection divides the caller's angles
    in place (`C62_fromFieldAngles_refuted`), twice if both are one array.
28. `asGrid`: vector `lx`, `ly` are transposed, a vector `dx` makes rows coincide,
    nx = 2 with `dx` puts all rays on one point (`C40_vectors_refuted`,
    `C40_dx_vector_refuted`, `C40_two_refuted`).
29. `asSpokes`: an integer number of spokes with a list of rings is used as an angle,
    an unknown spacing uses the number of rings as a radius (`C64_int_refuted`,
    `C64_spacing_refuted`).
30. A hexapolar grid of one ring with inner radius 0 collapses
    (`C39_one_ring_refuted`).
31. `_finish` gives NaN for a direction along x, measures `backDist` from the origin
    of the frame and not from the stop vertex, and its rotation is improper.
32. `source` is documented but the generators then return None.

Media, obscurations, GPU copies

33. A table's last wavelength is read out of bounds (`C47_last_refuted`,
    `C47_last_double_refuted`).
34. `containsGrid` differs from `contains`: closing edge, coarse grids, non-square
    grids, uninitialised output (`C37_*_refuted`).
35. GPU builds: writes to wavelength after a kernel are lost, arrays obtained before
    a kernel are stale, `rSplit` declares data device-resident that was never
    copied (`C49_wavelength_refuted`, `C49_held_refuted`, `C49_split_refuted`).

Python objects and descriptions

36. Equal Bicubics with different hashes (`C58_bicubic_refuted`); polygons of one
    vertex equal to longer ones (`C58_polygon_refuted`, `C65_transitive_refuted`).
37. Interfaces with different coatings or skip compare equal
    (`C65_interface_refuted`).
38. Unions of equal items can differ because items are sorted by their printed
    form (`C67_spelling_refuted`).  The printed form of large polygons is elided by
    numpy.  `ObscUnion([])` is accepted but cannot be printed.
39. `parse_optic` drops the obscuration of an Interface, Lens or CompoundOptic
    (`C56_dropped_refuted`), ignores misspelt coordSys entries
    (`C56_misspelt_refuted`), places a stop in global coordinates
    (`C56_stop_refuted`), and a description can be read only once
    (`C56_reuse_refuted`).  `HSC.yaml` has a `medium:` entry that is ignored.
40. Surface and medium types in descriptions are passed to `eval`; `parse_table`
    refers to a class that does not exist.

Analysis

41. Reciprocal lattice vectors have wrong signs for skew lattices
    (`C50_reciprocal_refuted`).
42. `spot` takes an unknown `reference` as the origin (`C68_other`); `wavefront`,
    `huygensPSF` and `zernikeGQ` raise UnboundLocalError (`C69_reference`).
43. `wavefront`, `fftPSF` and `huygensPSF` without `dx` divide by zero for nx of 1 or 2
    (`C69_small`); `fftPSF` raises IndexError for odd nx (`C71_odd`).
44. The array of `huygensPSF` is transposed with respect to `Lattice.coords`: entry
    [i, j] belongs to the point coords[j, i] (`C70_huygens`).  Its `nx` is documented
    as optional, but None raises.
45. `drdth` averages the bundles of the shifted field angles over the rays that are
    not vignetted at the nominal angle; `dkdu` differentiates with respect to
    coordinates on the launch plane, not in the pupil; `exitPupilPos` measures the
    approach to the global z axis even for a moved telescope.
46. `zernikeGQ` with `reference='chief'` builds its chief ray without passing the
    optic, so in the global frame: turning the telescope changes every coefficient
    (C72_chief_refuted).  Optics without a stop surface are aimed at through the
    global origin wherever they stand (C72_stopless_refuted), and `exitPupilPos` of
    a telescope moved sideways by one moves by one half (C72_exitPupil_refuted).
47. `Zernike` hands `CPPPolynomialSurface` the number of rows of the coefficient
    array as xsize, which the C++ code takes as the length of a row (C17_rectangle).
    Only square arrays are read as intended; those of galsim are square.
48. `zernikeGQ` is documented as "unaffected by vignetting".  That holds for
    `reference='chief'` (C78_vignetting) and not for `reference='mean'`
    (C78_vignetting_refuted).
49. `focalLength` is the square root of the determinant of `drdth`, so it is NaN
    for an optic whose last surface has axes that reverse the parity of the image
    (C80_focal_refuted).
50. `drdth` removes from all three bundles the rays that are vignetted at the
    nominal field angle; rays vignetted only at the changed angle stay in the mean
    (stated in C80_value).
51. The lattice of `fftPSF` and `huygensPSF` (without `dx`) is reciprocal to the
    lattice of wave vectors only where `dkdu` is diagonal, because
    `_reciprocalLatticeVectors` lacks the minus signs and swaps components (C50).
    C85_reciprocal_refuted gives a plate for which the image is laid out wrongly.
52. `refractScreen` subtracts the gradient of the delay when the light travels along
    the surface normal although it adds the delay itself, and it does not divide the
    gradient by the refractive index. The documentation (`batoid/optic.py`, OPDScreen:
    cosx2 = cosx1 + d(OPD)/dx) knows no such change of sign. Light that meets a screen from behind, or in
    a medium, is bent by an amount that contradicts its delay: C86_screen_side_refuted,
    C86_screen_medium_refuted.
53. In double precision a change of frame followed by the change back does not return the
    same coordinates (C88_round_trip_refuted), nor does a mirror keep the speed exactly
    (C89_speed_refuted); the drift is bounded by C88, C89.
54. The outlines of draw3d, get3dmesh and getXZSlice are centred on the vertex even if the
    obscuration is not (C92_centre_refuted).
55. `getXZSlice(nslice=1)` of an optic without a hole fails an assertion (C92_slice_refuted).
56. `Lens.draw2d(only=Lens)` pairs the slices with `zip`: with a hole in the front only, half of
    the front is missing from the filled area (C92_lens_refuted).
57. `CompoundOptic.get3dmesh` raises TypeError when an item has no radii, although `draw3d`
    skips it (C92_compound_refuted).
58. `R_outer` and `R_inner` are cached: after `clearObscuration`, R_inner stays, and R_outer is
    None or the old radius depending on whether it was read before (C92_clear_refuted); copies
    made by `withGlobalShift` and its relatives inherit the cache, and whether they can be drawn
    depends on it (C92_moved_refuted).
59. `app.lst` computes the centuries T as jd/36525 instead of (jd - 2451545)/36525: the sidereal
    time is 1.73 to 1.78 degrees ahead between 2000 and 2050 (C93_sidereal_refuted).
60. `app.eq_to_az` returns a NaN azimuth at the zenith (C93_zenith_refuted).
61. `ObscPolygon.contains` holds on one of two opposite edges and not on the other, so it is not
    symmetric under reflections (C94_polygon_refuted).
62. `Bicubic` is defined on its first row and column of nodes but NaN on the last
    (C94_bicubic_refuted).
63. Newton's iteration is tested against an absolute 1e-12, so whether a ray fails depends on
    the unit of length (C95_iterative_refuted).
64. zernikePyramid raises ZeroDivisionError when the range starts at Z1 with the default colours, and KeyError
    when it lacks Z4 or Z5 (C98_any_range_refuted).
