{
 "claims": [
  {
   "property": "C01",
   "status": "proved",
   "theorems": [
    "C01_toCoordSys_roundtrip",
    "C01_transform_roundtrip",
    "C01_transform_roundtrip_reverse",
    "C01_array_roundtrip"
   ],
   "note": ""
  },
  {
   "property": "C02",
   "status": "proved",
   "theorems": [
    "C02_compose",
    "C02_identity",
    "C02_chain"
   ],
   "note": ""
  },
  {
   "property": "C03",
   "status": "proved",
   "theorems": [
    "C03_rigid"
   ],
   "note": ""
  },
  {
   "property": "C04",
   "status": "proved",
   "theorems": [
    "C04_history_rotation",
    "C04_toLocal_toGlobal",
    "C04_toGlobal_spec",
    "C04_shiftGlobal",
    "C04_shiftLocal",
    "C04_rotateGlobal",
    "C04_rotateLocal",
    "C04_rotateLocal_keeps_origin"
   ],
   "note": ""
  },
  {
   "property": "C05",
   "status": "proved",
   "theorems": [
    "C05_propagate_is_positionAtTime",
    "C05_positionAtTime_spec",
    "C05_flow",
    "C05_trajectory_kept",
    "C05_own_time"
   ],
   "note": ""
  },
  {
   "property": "C06",
   "status": "proved",
   "theorems": [
    "C06_phase_law",
    "C06_unchanged_by_propagation",
    "C06_unchanged_by_frame",
    "C06_zero_on_ray"
   ],
   "note": ""
  },
  {
   "property": "C07",
   "status": "proved",
   "theorems": [
    "C07_reflection_law",
    "C07_reflect_twice"
   ],
   "note": ""
  },
  {
   "property": "C08",
   "status": "proved",
   "theorems": [
    "C08_snell"
   ],
   "note": ""
  },
  {
   "property": "C09",
   "status": "proved",
   "theorems": [
    "C09_total_internal_reflection"
   ],
   "note": ""
  },
  {
   "property": "C10",
   "status": "proved",
   "theorems": [
    "C10_rsplit_refracted",
    "C10_rsplit_reflected",
    "C10_rsplit_flux"
   ],
   "note": ""
  },
  {
   "property": "C11",
   "status": "proved",
   "theorems": [
    "C11_sag_is_vertex_part",
    "C11_on_line_and_surface",
    "C11_one_sheet_on_sag",
    "C11_meets_sag",
    "C11_crossing_rays_arrive",
    "C11_sphere_sag_refuted",
    "C11_hyperboloid_sag_refuted"
   ],
   "note": "The two refuted theorems show that z = sag(x,y) fails without the condition that the line meets the sag surface (far half of a sphere) and without separability (far sheet of a hyperboloid)."
  },
  {
   "property": "C12",
   "status": "proved",
   "theorems": [
    "C12_miss_iff_failed",
    "C12_quadric_from_surface_refuted",
    "C12_paraboloid_tangent_refuted",
    "C12_parabolic_conic_refuted",
    "C12_ray_in_plane_refuted"
   ],
   "note": "Refuted theorems: NaN positions without a flag for rays starting on a conic surface, tangent to a paraboloid, or with conic = -1; a line inside a plane is flagged."
  },
  {
   "property": "C13",
   "status": "proved",
   "theorems": [
    "C13_iterative_residual",
    "C13_iterative_residual_real"
   ],
   "note": ""
  },
  {
   "property": "C14",
   "status": "proved",
   "theorems": [
    "C14_clock",
    "C14_every_kernel_same_point"
   ],
   "note": ""
  },
  {
   "property": "C15",
   "status": "proved",
   "theorems": [
    "C15_normals",
    "C15_perpendicular",
    "C15_curve",
    "C15_exist",
    "C15_tilted_refuted",
    "C15_tilted_nan_refuted"
   ],
   "note": ""
  },
  {
   "property": "C16",
   "status": "proved",
   "theorems": [
    "C16_sags_add",
    "C16_slopes_add",
    "C16_order",
    "C16_plane_adds_nothing"
   ],
   "note": ""
  },
  {
   "property": "C17",
   "status": "proved",
   "theorems": [
    "C17_sag",
    "C17_rectangle",
    "C17_normal"
   ],
   "note": ""
  },
  {
   "property": "C18",
   "status": "proved",
   "theorems": [
    "C18_sag",
    "C18_normal"
   ],
   "note": ""
  },
  {
   "property": "C19",
   "status": "proved",
   "theorems": [
    "C19_nodes",
    "C19_smooth",
    "C19_hermite",
    "C19_outside",
    "C19_default_slopes",
    "C19_last_node_refuted"
   ],
   "note": ""
  },
  {
   "property": "C20",
   "status": "proved",
   "theorems": [
    "C20_flags_sticky"
   ],
   "note": ""
  },
  {
   "property": "C21",
   "status": "proved",
   "theorems": [
    "C21_failed_implies_vignetted"
   ],
   "note": ""
  },
  {
   "property": "C22",
   "status": "proved",
   "theorems": [
    "C22_count_and_wavelengths",
    "C22_flux_kept_without_coating",
    "C22_flux_never_grows"
   ],
   "note": ""
  },
  {
   "property": "C23",
   "status": "proved",
   "theorems": [
    "C23_concatenation",
    "C23_selection",
    "C23_frame_independent_of_rays"
   ],
   "note": ""
  },
  {
   "property": "C24",
   "status": "proved",
   "theorems": [
    "C24_any_schedule",
    "C24_effect",
    "C24_no_race",
    "C24_ends",
    "C24_reduction",
    "C24_rounding_refuted",
    "C24_overlap_refuted"
   ],
   "note": "Loads and stores are sequentially consistent, which the absence of data races justifies; indices are unbounded, so the overflow of the int loop variable beyond 2^31-1 rays is not modelled. The refuted theorems show that the rounded sum does depend on the number of threads, and that overlapping arrays, which fromStop accepts, make the result depend on the schedule."
  },
  {
   "property": "C25",
   "status": "proved",
   "theorems": [
    "C25_trace_visits_interfaces_in_order",
    "C25_regrouping",
    "C25_skipped_item_is_absent",
    "C25_final_frame"
   ],
   "note": ""
  },
  {
   "property": "C26",
   "status": "proved",
   "theorems": [
    "C26_traceFull_is_trace_step_by_step",
    "C26_duplicate_names_refuted",
    "C26_own_skip_refuted"
   ],
   "note": "Proved for distinct interface names and an optic not itself marked skip; the two refuted theorems show both conditions are needed."
  },
  {
   "property": "C27",
   "status": "proved",
   "theorems": [
    "C27_path_visits_in_order",
    "C27_natural_path_is_trace",
    "C27_full_path_agrees",
    "C27_full_path_chain",
    "C27_single_interface_refuted"
   ],
   "note": "Natural-order clause needs two or more distinct interfaces, as stated; the refuted theorem shows a single interface behaves differently."
  },
  {
   "property": "C28",
   "status": "proved",
   "theorems": [
    "C28_live",
    "C28_flux",
    "C28_terminates",
    "C28_unlimited_refuted",
    "C28_failed_refuted",
    "C28_skip_refuted"
   ],
   "note": "Liveness for every number type; flux and termination over the reals. The refuted theorems show why minFlux > 0 and un-failed input rays are required, and that a skipped item raises TypeError."
  },
  {
   "property": "C29",
   "status": "proved",
   "theorems": [
    "C29_lookup",
    "C29_full_name"
   ],
   "note": ""
  },
  {
   "property": "C30",
   "status": "proved",
   "theorems": [
    "C30_global_shift",
    "C30_local_shift",
    "C30_local_rotation",
    "C30_surface",
    "C30_perturbed_surface",
    "C30_unknown_name",
    "C30_prefix_refuted",
    "C30_skip_refuted"
   ],
   "note": "Proved under the stated conditions; the refuted theorems show that both are needed: a sibling whose name begins the other name makes the edit fail, and a skip flag on the enclosing assembly is cleared. withPerturbedSurface rejects an unknown name with KeyError, the others with ValueError."
  },
  {
   "property": "C31",
   "status": "proved",
   "theorems": [
    "C31_shifts_add",
    "C31_local_shifts_add",
    "C31_shift_undone",
    "C31_local_shift_undone",
    "C31_rotations_compose",
    "C31_rotation_undone",
    "C31_local_rotation_undone"
   ],
   "note": ""
  },
  {
   "property": "C32",
   "status": "proved",
   "theorems": [
    "C32_trace_covariant",
    "C32_moved_rays"
   ],
   "note": ""
  },
  {
   "property": "C33",
   "status": "partial",
   "theorems": [
    "C33_global_shift_keeps_rest",
    "C33_local_shift_keeps_rest",
    "C33_global_rotation_keeps_rest",
    "C33_local_rotation_keeps_rest",
    "C33_surface_keeps_rest",
    "C33_coating_refuted",
    "C33_skip_refuted",
    "C33_surface_coating_refuted"
   ],
   "note": "False in general: the refuted theorems show that coatings set by the user and the skip flag are reset. Proved: everything else is kept by every optic, and everything is kept by an optic as its constructor returned it."
  },
  {
   "property": "C34",
   "status": "proved",
   "theorems": [
    "C34_boolean_ops",
    "C34_double_negation",
    "C34_de_morgan",
    "C34_only_the_members_matter"
   ],
   "note": ""
  },
  {
   "property": "C35",
   "status": "proved",
   "theorems": [
    "C35_circle",
    "C35_annulus",
    "C35_rectangle",
    "C35_ray"
   ],
   "note": ""
  },
  {
   "property": "C36",
   "status": "proved",
   "theorems": [
    "C36_crossing_parity",
    "C36_start_and_direction",
    "C36_convex_polygon",
    "C36_rectangle"
   ],
   "note": ""
  },
  {
   "property": "C37",
   "status": "partial",
   "theorems": [
    "C37_grid_membership_partial",
    "C37_closing_edge_refuted",
    "C37_out_of_bounds_refuted",
    "C37_uninitialised_refuted",
    "C37_coarse_grid_refuted"
   ],
   "note": "False in general, as the four refuted theorems show (closing edge ignored, wrong stride for non-square grids, one edge per column). Proved for vertex lists that repeat the first vertex, square grids and at most one edge between neighbouring columns."
  },
  {
   "property": "C38",
   "status": "proved",
   "theorems": [
    "C38_round_trip",
    "C38_round_trip_back",
    "C38_projection_law",
    "C38_zemax_law",
    "C38_axis",
    "C38_unknown"
   ],
   "note": ""
  },
  {
   "property": "C39",
   "status": "proved",
   "theorems": [
    "C39_hexapolar_rings",
    "C39_ring_multiple",
    "C39_one_ring_refuted"
   ],
   "note": "C39_one_ring_refuted shows the condition is needed: a single ring asked for down to radius 0 collapses to the centre."
  },
  {
   "property": "C40",
   "status": "proved",
   "theorems": [
    "C40_grid",
    "C40_chief",
    "C40_chief_odd",
    "C40_random",
    "C40_vectors_partial",
    "C40_turned",
    "C40_vectors_refuted",
    "C40_dx_vector_refuted",
    "C40_two_refuted",
    "C40_two_sizes",
    "C40_fan",
    "C40_fan_arms",
    "C40_fan_none"
   ],
   "note": "Proved for scalar sizes. C40_vectors_partial and C40_turned say what vector sizes give; the refuted theorems show that it is not the lattice spanned by lx and ly, that a vector dx makes all rows coincide, and that nx = 2 with dx puts all rays on one point."
  },
  {
   "property": "C41",
   "status": "proved",
   "theorems": [
    "C41_fromStop",
    "C41_asPolar",
    "C41_asPolar_random",
    "C41_asSpokes_uniform",
    "C41_asSpokes_lists",
    "C41_wavelength"
   ],
   "note": ""
  },
  {
   "property": "C42",
   "status": "proved",
   "theorems": [
    "C42_rays"
   ],
   "note": ""
  },
  {
   "property": "C43",
   "status": "proved",
   "theorems": [
    "C43_coords",
    "C43_origin",
    "C43_rejects"
   ],
   "note": ""
  },
  {
   "property": "C44",
   "status": "partial",
   "theorems": [
    "C44_index",
    "C44_columns",
    "C44_last",
    "C44_out_of_range",
    "C44_slice",
    "C44_mask",
    "C44_negative_partial",
    "C44_negative_refuted"
   ],
   "note": "Negative indices other than -1 are wrong: the refuted theorem gives one, and the partial theorem says what is returned (all rays from that position to the end). Everything else is proved. That the result does not share memory is not modelled."
  },
  {
   "property": "C45",
   "status": "proved",
   "theorems": [
    "C45_concatenate",
    "C45_copy",
    "C45_frames_refuted"
   ],
   "note": "The refuted theorem shows that bundles in different frames are concatenated without conversion, which moves rays."
  },
  {
   "property": "C46",
   "status": "proved",
   "theorems": [
    "C46_componentwise",
    "C46_identical_rays",
    "C46_symmetric_transitive",
    "C46_equal_traces",
    "C46_lengths_refuted",
    "C46_frames_refuted",
    "C46_nan_refuted"
   ],
   "note": "The refuted theorems show what happens outside the conditions: different lengths read past the end or ignore the extra rays, the frame is not compared, and a bundle with a NaN differs from itself."
  },
  {
   "property": "C47",
   "status": "proved",
   "theorems": [
    "C47_interpolates",
    "C47_nodes",
    "C47_outside",
    "C47_last_wavelength",
    "C47_last_refuted",
    "C47_last_double_refuted"
   ],
   "note": "The last tabulated wavelength is excluded: C47_last_wavelength shows that every table is read out of bounds there, contrary to the documentation; the refuted theorems give witnesses in reals and doubles."
  },
  {
   "property": "C48",
   "status": "proved",
   "theorems": [
    "C48_const",
    "C48_sellmeier",
    "C48_sellmeier_dispersion",
    "C48_sumita",
    "C48_air",
    "C48_air_above_one",
    "C48_air_dispersion"
   ],
   "note": ""
  },
  {
   "property": "C49",
   "status": "proved",
   "theorems": [
    "C49_cpu",
    "C49_gpu",
    "C49_wavelength_refuted",
    "C49_held_refuted",
    "C49_split_refuted"
   ],
   "note": "Proved under the stated conditions for GPU builds; the three refuted theorems show what goes wrong without them. Without a GPU there are no conditions."
  },
  {
   "property": "C50",
   "status": "partial",
   "theorems": [
    "C50_reciprocal_partial",
    "C50_reciprocal_refuted"
   ],
   "note": "False in general: C50_reciprocal_refuted gives a skewed pair, because two components have the wrong sign. C50_reciprocal_partial says exactly when it holds: the first vector along x and the second along y, which is what asGrid makes from scalar sizes."
  },
  {
   "property": "C51",
   "status": "proved",
   "theorems": [
    "C51_closest",
    "C51_parallel",
    "C51_condition"
   ],
   "note": ""
  },
  {
   "property": "C52",
   "status": "partial",
   "theorems": [
    "C52_attribute_skips_partial",
    "C52_interface_refuted",
    "C52_compound_refuted"
   ],
   "note": "False: the refuted theorems show that the constructor argument is ignored, for interfaces and compounds. Proved: an item whose skip attribute is set afterwards is left out."
  },
  {
   "property": "C53",
   "status": "partial",
   "theorems": [
    "C53_same_coatings_partial",
    "C53_detector_forward",
    "C53_forward_refuted",
    "C53_reverse_refuted"
   ],
   "note": "False: the refuted theorems show that refractive interfaces use the other coating in each direction. Proved: equal coatings on both sides, and detectors in the forward direction."
  },
  {
   "property": "C54",
   "status": "proved",
   "theorems": [
    "C54_vertices",
    "C54_defaults",
    "C54_once_hidden_always_hidden",
    "C54_unknown_name",
    "C54_misordered_names"
   ],
   "note": ""
  },
  {
   "property": "C55",
   "status": "proved",
   "theorems": [
    "C55_vignetting_exact"
   ],
   "note": ""
  },
  {
   "property": "C56",
   "status": "proved",
   "theorems": [
    "C56_obscuration",
    "C56_surface",
    "C56_medium",
    "C56_optic",
    "C56_total",
    "C56_clear",
    "C56_clear_accepted",
    "C56_unknown_obscuration",
    "C56_unknown_optic",
    "C56_unknown_surface",
    "C56_frame",
    "C56_placed",
    "C56_dropped_refuted",
    "C56_reuse_refuted",
    "C56_misspelt_refuted",
    "C56_stop_refuted"
   ],
   "note": "Bicubic surfaces in descriptions, non-string names and the attributes that only concern ray generation are not modelled. The refuted theorems show what a description does not do: an obscuration of an Interface, Lens or CompoundOptic is dropped, misspelt coordSys entries are ignored, a stop is placed in global coordinates, and a dictionary can be read only once."
  },
  {
   "property": "C57",
   "status": "proved",
   "theorems": [
    "C57_opd_screen",
    "C57_gradient",
    "C57_steep_screen_refuted"
   ],
   "note": "The refuted theorem shows that a steep screen yields a NaN velocity with no flag set."
  },
  {
   "property": "C58",
   "status": "proved",
   "theorems": [
    "C58_surface",
    "C58_medium",
    "C58_frame",
    "C58_coating_lattice",
    "C58_obscuration",
    "C58_optic",
    "C58_bicubic_refuted",
    "C58_polygon_refuted"
   ],
   "note": "Proved under the stated conditions; the refuted theorems show that both are needed: a Bicubic whose nanpolicy is spelled nan or NaN, and a polygon of one vertex, which numpy broadcasting makes equal to longer ones. User-written subclasses are not modelled."
  },
  {
   "property": "C59",
   "status": "proved",
   "theorems": [
    "C59_refract_reversible",
    "C59_reflect_reversible",
    "C59_optic_reversible"
   ],
   "note": ""
  },
  {
   "property": "C60",
   "status": "proved",
   "theorems": [
    "C60_paraboloid_focus"
   ],
   "note": ""
  },
  {
   "property": "C61",
   "status": "proved",
   "theorems": [
    "C61_concatenation_adds",
    "C61_dead_rays_ignored",
    "C61_single_ray",
    "C61_wave_sum",
    "C61_bounded_by_flux"
   ],
   "note": ""
  },
  {
   "property": "C62",
   "status": "partial",
   "theorems": [
    "C62_constructor",
    "C62_fromStop_partial",
    "C62_fromFieldAngles_partial",
    "C62_vacuum",
    "C62_fromStop_refuted",
    "C62_same_array_refuted",
    "C62_fromFieldAngles_refuted"
   ],
   "note": "False in general: the refuted theorems show that fromStop overwrites float arrays, returns wrong rays when the same array is passed as x and y, and that fromFieldAngles divides orthographic field angles by the index in place. Proved: the constructor copies; the partial theorems say which arrays can be written and that the rays are right when x and y are different arrays."
  },
  {
   "property": "C63",
   "status": "proved",
   "theorems": [
    "C63_insert",
    "C63_remove",
    "C63_unknown_name",
    "C63_nested_refuted",
    "C63_shared_name_refuted"
   ],
   "note": "Proved for subitems directly inside; the refuted theorems show that a name of a deeper item leaves the optic as it was without an error, and that a name shared elsewhere in the tree makes the call fail with KeyError."
  },
  {
   "property": "C64",
   "status": "proved",
   "theorems": [
    "C64_moments",
    "C64_int_refuted",
    "C64_spacing_refuted",
    "C64_exact"
   ],
   "note": "The exactness of numpy leggauss is a hypothesis. The refuted theorems concern other arguments of asSpokes: an integer number of spokes with a list of radii is used as an angle, and an unknown spacing uses the number of rings as a radius."
  },
  {
   "property": "C65",
   "status": "proved",
   "theorems": [
    "C65_surface_equivalence",
    "C65_obscuration_equivalence",
    "C65_surface_alike",
    "C65_medium_alike",
    "C65_obscuration_alike",
    "C65_frame_alike",
    "C65_transitive_refuted",
    "C65_interface_refuted"
   ],
   "note": "Behaviour of Zernike surfaces is up to the galsim conversion, an arbitrary function here. The refuted theorems show that equality is not transitive for one-vertex polygons, and that interfaces, which this property does not cover, compare equal although their coatings differ."
  },
  {
   "property": "C66",
   "status": "proved",
   "theorems": [
    "C66_surface",
    "C66_obscuration",
    "C66_order"
   ],
   "note": "Attributes of the Python object; the file format of pickle is not modelled."
  },
  {
   "property": "C67",
   "status": "proved",
   "theorems": [
    "C67_equal",
    "C67_points",
    "C67_spelling_refuted"
   ],
   "note": "The refuted theorem shows that equal items printed differently (1 and 1.0) can make the unions differ."
  },
  {
   "property": "C68",
   "status": "proved",
   "theorems": [
    "C68_spot",
    "C68_mean",
    "C68_other",
    "C68_paraboloid"
   ],
   "note": "Sums and means of numpy are taken left to right over exact reals."
  },
  {
   "property": "C69",
   "status": "proved",
   "theorems": [
    "C69_wavefront",
    "C69_crossing",
    "C69_mean",
    "C69_focus",
    "C69_paraboloid",
    "C69_small",
    "C69_reference"
   ],
   "note": "C69_small and C69_reference give the inputs that raise. The hypothesis inside (the ray is inside the reference sphere when traced) is what makes the crossing unique."
  },
  {
   "property": "C70",
   "status": "proved",
   "theorems": [
    "C70_huygens",
    "C70_steps",
    "C70_peak",
    "C70_time",
    "C70_paraboloid"
   ],
   "note": "np.linalg.lstsq, used only for the default lattice, is a parameter."
  },
  {
   "property": "C71",
   "status": "proved",
   "theorems": [
    "C71_fft",
    "C71_total",
    "C71_peak",
    "C71_paraboloid",
    "C71_odd"
   ],
   "note": "np.fft.fft2 is its defining sum; np.linalg.lstsq, used only for the lattice step, is a parameter. C71_odd is the failure for odd nx."
  },
  {
   "property": "C72",
   "status": "proved",
   "theorems": [
    "C72_spot",
    "C72_wavefront",
    "C72_huygens",
    "C72_fft",
    "C72_derivatives",
    "C72_zernikeGQ",
    "C72_chief_refuted",
    "C72_exitPupil_refuted",
    "C72_stopless_refuted"
   ],
   "note": "Over exact reals. The refuted theorems are the three exceptions in the statement: zernikeGQ about the chief ray, exitPupilPos, and optics without a stop surface (the last two in double precision)."
  },
  {
   "property": "C73",
   "status": "proved",
   "theorems": [
    "C73_turned",
    "C73_meridional",
    "C73_real"
   ],
   "note": "Over exact reals. Newton iteration is covered: the two runs take the same steps. Phase screens, Zernike, bicubic and tilted surfaces and polygons are excluded."
  },
  {
   "property": "C74",
   "status": "proved",
   "theorems": [
    "C74_skewness"
   ],
   "note": "Over exact reals. The final velocity is zero only after refraction into an infinite index."
  },
  {
   "property": "C75",
   "status": "proved",
   "theorems": [
    "C75_near_to_far",
    "C75_far_to_near",
    "C75_collimates"
   ],
   "note": "Over exact reals. The ray is required to have landed on the sag part of the conic (C27 tells when it does)."
  },
  {
   "property": "C76",
   "status": "proved",
   "theorems": [
    "C76_focuses",
    "C76_collimates"
   ],
   "note": "Over exact reals. The ray is required to have landed on the sag part of the conic."
  },
  {
   "property": "C77",
   "status": "proved",
   "theorems": [
    "C77_relay",
    "C77_telescope",
    "C77_two_mirrors",
    "C77_through"
   ],
   "note": "Over exact reals. The signs in the sum record for each mirror whether it was met before or after the focus; C77_two_mirrors gives them for two mirrors."
  },
  {
   "property": "C78",
   "status": "proved",
   "theorems": [
    "C78_value",
    "C78_projects",
    "C78_recovers",
    "C78_failed",
    "C78_jmax",
    "C78_vignetting",
    "C78_vignetting_refuted"
   ],
   "note": "Over exact reals; galsim.zernike.zernikeBasis and the Gauss-Legendre nodes are parameters. C78_failed, C78_jmax and C78_vignetting hold in every arithmetic. C78_vignetting_refuted is the exception named in the statement."
  },
  {
   "property": "C79",
   "status": "proved",
   "theorems": [
    "C79_obscurations"
   ],
   "note": "In every arithmetic."
  },
  {
   "property": "C80",
   "status": "proved",
   "theorems": [
    "C80_value",
    "C80_linear",
    "C80_inverse",
    "C80_focal",
    "C80_errors",
    "C80_focal_refuted"
   ],
   "note": "Over exact reals; C80_errors holds in every arithmetic. C80_focal_refuted is the reversed screen of the statement."
  },
  {
   "property": "C81",
   "status": "proved",
   "theorems": [
    "C81_exit_pupil"
   ],
   "note": "Over exact reals. One chief ray is required to get through; symmetry gives the others."
  },
  {
   "property": "C82",
   "status": "proved",
   "theorems": [
    "C82_projects",
    "C82_recovers",
    "C82_wavefronts"
   ],
   "note": "Over exact reals; zernikeBasis and the Gauss-Legendre nodes are parameters."
  },
  {
   "property": "C83",
   "status": "proved",
   "theorems": [
    "C83_fits",
    "C83_exact",
    "C83_solvable"
   ],
   "note": "Over exact reals. np.linalg.lstsq is a parameter, required to return the shortest of the best solutions and the rank for this matrix; C83_solvable shows that such an answer always exists."
  },
  {
   "property": "C84",
   "status": "proved",
   "theorems": [
    "C84_xy",
    "C84_slopes",
    "C84_slopes_exact",
    "C84_dx",
    "C84_dy"
   ],
   "note": "Over exact reals. np.linalg.lstsq as in C83; gradX and gradY of galsim.zernike.Zernike are parameters, required to be the derivatives of the polynomials (C84_dx, C84_dy)."
  },
  {
   "property": "C85",
   "status": "proved",
   "theorems": [
    "C85_fits",
    "C85_exact",
    "C85_fft",
    "C85_huygens",
    "C85_plate",
    "C85_reciprocal_refuted"
   ],
   "note": "Over exact reals. np.linalg.lstsq is a parameter, required to return the best solution for this matrix. C85_reciprocal_refuted exhibits a plate with off-diagonal derivatives for which the lattice of fftPSF is not reciprocal (the statement excludes this case)."
  },
  {
   "property": "C86",
   "status": "proved",
   "theorems": [
    "C86_malus",
    "C86_plane_wave",
    "C86_point_source",
    "C86_screen_side_refuted",
    "C86_screen_medium_refuted"
   ],
   "note": "Over exact reals, for rays that arrive exactly on the surfaces (conics do; Newton iterations only to their tolerance). The rays at each surface are assumed to depend differentiably on the parameter. Tilted planes are excluded because of their wrong normals (C15). C86_screen_side_refuted and C86_screen_medium_refuted show that OPD screens met from behind, or inside a medium, break the property (the statement excludes both)."
  },
  {
   "property": "C87",
   "status": "proved",
   "theorems": [
    "C87_one_time",
    "C87_aberration",
    "C87_flat"
   ],
   "note": "Over exact reals, with the hypotheses of C86. C87_aberration and C87_flat are about rays on a sphere, however they got there."
  },
  {
   "property": "C88",
   "status": "proved",
   "theorems": [
    "C88_arithmetic",
    "C88_propagate",
    "C88_positionAtTime",
    "C88_place",
    "C88_direction",
    "C88_round_trip_refuted",
    "C88_plane"
   ],
   "note": "For IEEE binary64 (SpecFloat), in the order of operations of the source text, without contraction into fused operations. Scales between 2^-900 and 2^890. C88_round_trip_refuted shows that the round trip is not exact."
  },
  {
   "property": "C89",
   "status": "proved",
   "theorems": [
    "C89_normal",
    "C89_reflection",
    "C89_mirrors",
    "C89_speed_refuted"
   ],
   "note": "For IEEE binary64 (SpecFloat). At every mirror the computed normal is assumed finite, its z component at least 1/1000 and, for conics, the squares of the coordinates free of overflow and underflow. C89_speed_refuted shows that the speed is not kept exactly."
  },
  {
   "property": "C90",
   "status": "proved",
   "theorems": [
    "C90_etendue",
    "C90_paths",
    "C90_loop",
    "C90_cosine"
   ],
   "note": "In exact arithmetic, from the invariance of the lag of wavefronts (C86) through any list of interfaces. The families of rays are assumed to be smooth on both sides; C90_etendue assumes that mixed second derivatives do not depend on the order."
  },
  {
   "property": "C91",
   "status": "proved",
   "theorems": [
    "C91_refraction",
    "C91_lenses",
    "C91_exact_refuted"
   ],
   "note": "For IEEE binary64 (SpecFloat). At every surface the computed normal and the outgoing velocity are assumed finite, as in C89. C91_exact_refuted shows that the speed is not exactly 1/n."
  },
  {
   "property": "C92",
   "status": "proved",
   "theorems": [
    "C92_radii",
    "C92_curves",
    "C92_mesh",
    "C92_slice",
    "C92_slice_refuted",
    "C92_lens",
    "C92_lens_refuted",
    "C92_centre_refuted",
    "C92_compound",
    "C92_compound_refuted",
    "C92_clear",
    "C92_R_outer",
    "C92_clear_refuted",
    "C92_moved",
    "C92_moved_cleared",
    "C92_moved_refuted"
   ],
   "note": "In exact arithmetic; structural parts for every arithmetic. Refuted parts are stated as exceptions in the property: C92_centre_refuted, C92_slice_refuted (nslice=1), C92_lens_refuted, C92_compound_refuted, C92_clear_refuted, C92_moved_refuted. Plotting calls and the warning for rotated surfaces are not modelled."
  },
  {
   "property": "C93",
   "status": "proved",
   "theorems": [
    "C93_horizon",
    "C93_equator",
    "C93_there_and_back",
    "C93_back_and_there",
    "C93_pointing",
    "C93_zenith_refuted",
    "C93_sidereal",
    "C93_sidereal_refuted"
   ],
   "note": "In exact arithmetic, with arctan2 and % as exact functions. C93_sidereal_refuted and C93_zenith_refuted are the exceptions named in the property."
  },
  {
   "property": "C94",
   "status": "proved",
   "theorems": [
    "C94_trace",
    "C94_path",
    "C94_full",
    "C94_split",
    "C94_symmetric",
    "C94_plane",
    "C94_polygon_refuted",
    "C94_bicubic_refuted"
   ],
   "note": "In exact arithmetic with infinities and NaN; no assumption on the rays. C94_polygon_refuted and C94_bicubic_refuted are the exceptions named in the property."
  },
  {
   "property": "C95",
   "status": "proved",
   "theorems": [
    "C95_trace",
    "C95_path",
    "C95_full",
    "C95_split",
    "C95_surface",
    "C95_contains",
    "C95_iteration",
    "C95_iterative_refuted"
   ],
   "note": "In exact arithmetic with infinities and NaN; no assumption on the rays. C95_iterative_refuted is the exception named in the property. Sums of surfaces are covered by C95_surface only."
  },
  {
   "property": "C96",
   "status": "proved",
   "theorems": [
    "C96_converges",
    "C96_intersect",
    "C96_eventually",
    "C96_unique",
    "C96_parallel"
   ],
   "note": "In exact arithmetic. Bicubic surfaces are not covered (their second derivative jumps between cells)."
  },
  {
   "property": "C97",
   "status": "proved",
   "theorems": [
    "C97_aplanatic",
    "C97_centre"
   ],
   "note": "In exact arithmetic, for rays that land on the surface (no total reflection)."
  },
  {
   "property": "C98",
   "status": "proved",
   "theorems": [
    "C98_numbers",
    "C98_numbered",
    "C98_when",
    "C98_any_range_refuted",
    "C98_panels",
    "C98_apart",
    "C98_pyramid"
   ],
   "note": "The placement of columns of equal width is matplotlib's and the numbering galsim's: neither is code of the repository. C98_any_range_refuted: allowed ranges that raise."
  },
  {
   "property": "C99",
   "status": "proved",
   "theorems": [
    "C99_compare",
    "C99_contains",
    "C99_circle",
    "C99_obscure",
    "C99_edge_refuted"
   ],
   "note": "Binary64 with round to nearest; std::hypot is modelled by sqrt(x*x+y*y), which is less accurate. The scale is bounded so that no square overflows or underflows. C99_edge_refuted: a point nearer than that."
  },
  {
   "property": "C100",
   "status": "proved",
   "theorems": [
    "C100_system",
    "C100_lands",
    "C100_crossing",
    "C100_curvature",
    "C100_curvature_sum",
    "C100_curvature_polynomial",
    "C100_conjugate",
    "C100_focus",
    "C100_pair",
    "C100_lagrange"
   ],
   "note": "In exact arithmetic. Phase screens are excluded. That rays land is proved for surfaces met by formula (C100_lands) and assumed in C100_system, which covers aspheres."
  },
  {
   "property": "C101",
   "status": "proved",
   "theorems": [
    "C101_mirrors",
    "C101_corner",
    "C101_two_mirrors",
    "C101_periscope",
    "C101_layer",
    "C101_stack",
    "C101_window",
    "C101_lands",
    "C101_depth",
    "C101_plate"
   ],
   "note": "In exact arithmetic. Phase screens are excluded."
  },
  {
   "property": "C102",
   "status": "proved",
   "theorems": [
    "C102_moment",
    "C102_distance",
    "C102_centre"
   ],
   "note": "In exact arithmetic, for rays that land on every sphere. Phase screens are excluded."
  }
 ]
}