{
 "claims": [
  {
   "property": "C01",
   "status": "proved",
   "theorems": [
    "C01_center_of_gravity"
   ],
   "note": ""
  },
  {
   "property": "C02",
   "status": "proved",
   "theorems": [
    "C02_layer_split"
   ],
   "note": ""
  },
  {
   "property": "C03",
   "status": "proved",
   "theorems": [
    "C03_laminate_integrals",
    "C03_setter"
   ],
   "note": ""
  },
  {
   "property": "C04",
   "status": "proved",
   "theorems": [
    "C04_positive_definite",
    "C04_setter",
    "C04_Layered"
   ],
   "note": ""
  },
  {
   "property": "C05",
   "status": "proved",
   "theorems": [
    "C05_homogeneous",
    "C05_reversal"
   ],
   "note": ""
  },
  {
   "property": "C06",
   "status": "proved",
   "theorems": [
    "C06_wedge",
    "C06_wedge_positive",
    "C06_flat"
   ],
   "note": ""
  },
  {
   "property": "C07",
   "status": "partial",
   "theorems": [
    "C07_wedge_xs_refuted",
    "C07_wedge_xs_ratio"
   ],
   "note": "REFUTED: the code uses tan(phi/2) instead of tan(phi)/2; exact ratio proved."
  },
  {
   "property": "C08",
   "status": "proved",
   "theorems": [
    "C08_load_decomposition"
   ],
   "note": ""
  },
  {
   "property": "C09",
   "status": "proved",
   "theorems": [
    "C09_foundation",
    "C09_setter"
   ],
   "note": ""
  },
  {
   "property": "C10",
   "status": "proved",
   "theorems": [
    "C10_parametrisations",
    "C10_power_laws"
   ],
   "note": ""
  },
  {
   "property": "C11",
   "status": "proved",
   "theorems": [
    "C11_equilibrium"
   ],
   "note": ""
  },
  {
   "property": "C12",
   "status": "proved",
   "theorems": [
    "C12_supported_complementary",
    "C12_equilibrium"
   ],
   "note": "np.linalg.eig is an oracle; true eigenpairs are a hypothesis, as in the statement."
  },
  {
   "property": "C13",
   "status": "proved",
   "theorems": [
    "C13_supported_particular"
   ],
   "note": ""
  },
  {
   "property": "C14",
   "status": "proved",
   "theorems": [
    "C14_free_fundamental"
   ],
   "note": ""
  },
  {
   "property": "C15",
   "status": "partial",
   "theorems": [
    "C15_free_particular_refuted",
    "C15_free_particular_iff"
   ],
   "note": "REFUTED for layered slabs with tangential surface load; exact condition proved."
  },
  {
   "property": "C16",
   "status": "proved",
   "theorems": [
    "C16_bounded",
    "C16_columns"
   ],
   "note": "Exact reals; overflow itself is not modelled, the bound is."
  },
  {
   "property": "C17",
   "status": "proved",
   "theorems": [
    "C17_six_columns"
   ],
   "note": ""
  },
  {
   "property": "C18",
   "status": "proved",
   "theorems": [
    "C18_derivatives"
   ],
   "note": ""
  },
  {
   "property": "C19",
   "status": "partial",
   "theorems": [
    "C19_free_derivatives_refuted",
    "C19_error"
   ],
   "note": "REFUTED: dz_dx always uses the supported system matrix; exact error proved."
  },
  {
   "property": "C20",
   "status": "proved",
   "theorems": [
    "C20_assembled_system",
    "C20_solved"
   ],
   "note": "vpst with contact stage B/C is excluded (see C36); stage C needs the stored inclination to equal the argument (see C69)."
  },
  {
   "property": "C21",
   "status": "proved",
   "theorems": [
    "C21_end_conditions",
    "C21_single_segment",
    "C21_far_field"
   ],
   "note": ""
  },
  {
   "property": "C22",
   "status": "proved",
   "theorems": [
    "C22_check",
    "C22_rejected",
    "C22_builtin_accepted",
    "C67_well_posed"
   ],
   "note": "Acceptance of valid lists without exception: C67_well_posed."
  },
  {
   "property": "C23",
   "status": "proved",
   "theorems": [
    "C23_global_balance",
    "C23_stress_free"
   ],
   "note": ""
  },
  {
   "property": "C24",
   "status": "proved",
   "theorems": [
    "C24_mirror",
    "C24_library"
   ],
   "note": ""
  },
  {
   "property": "C25",
   "status": "proved",
   "theorems": [
    "C25_restores"
   ],
   "note": ""
  },
  {
   "property": "C26",
   "status": "partial",
   "theorems": [
    "C26_zero_length",
    "C26_unknown_dof",
    "C26_refuted"
   ],
   "note": "REFUTED: a raising call leaves system and scaled foundation stiffness behind"
  },
  {
   "property": "C27",
   "status": "partial",
   "theorems": [
    "C27_rotational",
    "C27_rotational_load_free",
    "C27_translational",
    "C27_translational_refuted"
   ],
   "note": "Rotational part proved; translational part REFUTED for every object (the deflection contains the settlement under the load)"
  },
  {
   "property": "C28",
   "status": "proved",
   "theorems": [
    "C28_polynomial",
    "C28_beam_exists",
    "C28_first_contact"
   ],
   "note": ""
  },
  {
   "property": "C29",
   "status": "proved",
   "theorems": [
    "C29_polynomial",
    "C29_a2_is_lC",
    "C29_beam_exists",
    "C29_full_contact",
    "C29_contact_length"
   ],
   "note": ""
  },
  {
   "property": "C30",
   "status": "proved",
   "theorems": [
    "C30_order",
    "C30_stages",
    "C30_monotone"
   ],
   "note": ""
  },
  {
   "property": "C31",
   "status": "proved",
   "theorems": [
    "C31_bounds"
   ],
   "note": ""
  },
  {
   "property": "C32",
   "status": "proved",
   "theorems": [
    "C32_partition",
    "C32_unknown_system",
    "C32_layout"
   ],
   "note": "unknown system type: touchdown switched off"
  },
  {
   "property": "C33",
   "status": "partial",
   "theorems": [
    "C33_repeatable_partial",
    "C33_refuted"
   ],
   "note": "REFUTED on the first call with a new inclination; repeatable when the stored inclination equals the argument"
  },
  {
   "property": "C34",
   "status": "proved",
   "theorems": [
    "C34_untouched"
   ],
   "note": ""
  },
  {
   "property": "C35",
   "status": "partial",
   "theorems": [
    "C35_rejected",
    "C35_refuted"
   ],
   "note": "REFUTED: settlement beyond the crack height raises ValueError"
  },
  {
   "property": "C36",
   "status": "partial",
   "theorems": [
    "C36_face",
    "C36_refuted"
   ],
   "note": "REFUTED: end shear force is overwritten by the crack height in stages B and C"
  },
  {
   "property": "C37",
   "status": "partial",
   "theorems": [
    "C37_layered",
    "C37_refuted"
   ],
   "note": "holds for Layered, REFUTED for Inverse"
  },
  {
   "property": "C38",
   "status": "proved",
   "theorems": [
    "C38_accepted",
    "C38_grid",
    "C38_empty_segments"
   ],
   "note": ""
  },
  {
   "property": "C39",
   "status": "proved",
   "theorems": [
    "C39_foundation"
   ],
   "note": ""
  },
  {
   "property": "C40",
   "status": "proved",
   "theorems": [
    "C40_columns"
   ],
   "note": ""
  },
  {
   "property": "C41",
   "status": "proved",
   "theorems": [
    "C41_nonneg",
    "C41_no_tips",
    "C41_units",
    "C41_accepted",
    "C41_lengths"
   ],
   "note": ""
  },
  {
   "property": "C42",
   "status": "proved",
   "theorems": [
    "C42_weights"
   ],
   "note": ""
  },
  {
   "property": "C43",
   "status": "proved",
   "theorems": [
    "C43_both_sides",
    "C43_reported"
   ],
   "note": "mode II value jumps exactly by the point load at the tip"
  },
  {
   "property": "C44",
   "status": "proved",
   "theorems": [
    "C44_crack_opening"
   ],
   "note": "for any quadrature with absolute error eps"
  },
  {
   "property": "C45",
   "status": "partial",
   "theorems": [
    "C45_mode_I",
    "C45_mode_II",
    "C45_refuted"
   ],
   "note": "mode I holds; REFUTED for mode II: the integrand has the opposite sign"
  },
  {
   "property": "C46",
   "status": "proved",
   "theorems": [
    "C46_mesh",
    "C46_laminated"
   ],
   "note": ""
  },
  {
   "property": "C47",
   "status": "proved",
   "theorems": [
    "C47_equilibrium",
    "C47_units",
    "C47_reported"
   ],
   "note": ""
  },
  {
   "property": "C48",
   "status": "partial",
   "theorems": [
    "C48_refuted"
   ],
   "note": "REFUTED: the weak-layer stress is part of the formula on unsupported segments"
  },
  {
   "property": "C49",
   "status": "partial",
   "theorems": [
    "C49_flat_partial",
    "C49_refuted"
   ],
   "note": "holds on flat terrain; REFUTED on slopes"
  },
  {
   "property": "C50",
   "status": "proved",
   "theorems": [
    "C50_slab",
    "C50_weak_layer",
    "C50_invalid"
   ],
   "note": ""
  },
  {
   "property": "C51",
   "status": "partial",
   "theorems": [
    "C51_slab_partial",
    "C51_weak_layer",
    "C51_refuted"
   ],
   "note": "holds for the slab; REFUTED for the weak layer (factor 1000)"
  },
  {
   "property": "C52",
   "status": "proved",
   "theorems": [
    "C52_shear",
    "C52_normal",
    "C52_accepted"
   ],
   "note": ""
  },
  {
   "property": "C53",
   "status": "proved",
   "theorems": [
    "C53_units",
    "C53_arrays",
    "C53_top_bottom"
   ],
   "note": ""
  },
  {
   "property": "C54",
   "status": "partial",
   "theorems": [
    "C54_nonneg_partial",
    "C54_refuted",
    "C54_solved_refuted"
   ],
   "note": "holds for solved systems without an end spring; REFUTED in stage C, also for a solved system"
  },
  {
   "property": "C55",
   "status": "proved",
   "theorems": [
    "C55_recomputed",
    "C55_history",
    "C55_stale",
    "C55_surface",
    "C55_constructor"
   ],
   "note": ""
  },
  {
   "property": "C56",
   "status": "proved",
   "theorems": [
    "C56_segment",
    "C56_superposition"
   ],
   "note": ""
  },
  {
   "property": "C57",
   "status": "partial",
   "theorems": [
    "C57_lookup_partial",
    "C57_inside",
    "C57_outside_refuted"
   ],
   "note": "Proved for coordinates inside the model. REFUTED outside: a coordinate before the model (negative) is assigned the first segment instead of being reported as outside."
  },
  {
   "property": "C58",
   "status": "partial",
   "theorems": [
    "C58_split_partial",
    "C58_refuted"
   ],
   "note": "Proved when the midpoint lies beyond the first segment. REFUTED when the midpoint lies in the first segment (including a single segment model): half of the model is prepended, the total length grows by half."
  },
  {
   "property": "C59",
   "status": "partial",
   "theorems": [
    "C59_adam_partial",
    "C59_schottner",
    "C59_adam_refuted",
    "C59_mede_refuted",
    "C59_mede_curve",
    "C59_arrays"
   ],
   "note": "Schottner and, for scaling factors 0.55 to 1, Adam envelopes proved. REFUTED for other scaling factors and for the Mede criteria (failure at zero stress, decreasing with shear stress). The Mede criteria are 1 on the line of the plotted curve and another constant on its cap."
  },
  {
   "property": "C60",
   "status": "partial",
   "theorems": [
    "C60_partial",
    "C60_refuted"
   ],
   "note": "Non-negative, zero at zero, increasing and between 0.994 and 1 on the plotted envelope; REFUTED: below 1 on the envelope except at its end points (exponents 2.2 and 1/0.45)."
  },
  {
   "property": "C61",
   "status": "proved",
   "theorems": [
    "C61_result",
    "C61_result_dampened",
    "C61_total",
    "C61_affine",
    "C61_accepted",
    "C61_values"
   ],
   "note": ""
  },
  {
   "property": "C62",
   "status": "partial",
   "theorems": [
    "C62_result_partial",
    "C62_result_dampened",
    "C62_dampened_weights",
    "C62_bounded",
    "C62_bracket",
    "C62_refuted",
    "C62_damped_bracket_refuted"
   ],
   "note": "Iteration bound and bracket proved; the result is proved for success with an evaluated, present energy value and a not completely cracked model. REFUTED for a model that cracks completely (success reported at a weight never evaluated) and for the bracket of the damped variant."
  },
  {
   "property": "C63",
   "status": "partial",
   "theorems": [
    "C63_refuted"
   ],
   "note": "REFUTED: the fallbacks replace the weak-layer density (250) or thickness (30)."
  },
  {
   "property": "C64",
   "status": "proved",
   "theorems": [
    "C64_placement",
    "C64_midpoint",
    "C64_solved"
   ],
   "note": ""
  },
  {
   "property": "C65",
   "status": "proved",
   "theorems": [
    "C65_outline",
    "C65_empty"
   ],
   "note": ""
  },
  {
   "property": "C66",
   "status": "proved",
   "theorems": [
    "C66_profile",
    "C66_same_profile",
    "C66_setter"
   ],
   "note": "Texts are ASCII."
  },
  {
   "property": "C67",
   "status": "proved",
   "theorems": [
    "C67_well_posed"
   ],
   "note": "LAPACK solve/eig as oracles; soundness and completeness of the linear solver are hypotheses, met by the Gaussian elimination elim_solve."
  },
  {
   "property": "C68",
   "status": "proved",
   "theorems": [
    "C68_positive"
   ],
   "note": ""
  },
  {
   "property": "C69",
   "status": "partial",
   "theorems": [
    "C69_axial_force",
    "C69_refuted"
   ],
   "note": "REFUTED: the stored inclination is used"
  },
  {
   "property": "C70",
   "status": "partial",
   "theorems": [
    "C70_layered",
    "C70_inverse_refuted",
    "C70_methods"
   ],
   "note": "holds for Layered; REFUTED for Inverse: exactly five uses do not resolve"
  },
  {
   "property": "C71",
   "status": "partial",
   "theorems": [
    "C71_shares_partial",
    "C71_no_coupling_partial",
    "C71_refuted",
    "C71_coupling_refuted"
   ],
   "note": "REFUTED: whole length used for the weak layer, coupling terms wrong; exact decomposition proved"
  },
  {
   "property": "C72",
   "status": "partial",
   "theorems": [
    "C72_segments",
    "C72_exceeded_partial",
    "C72_anticrack",
    "C72_crossings",
    "C72_samples",
    "C72_no_crossing",
    "C72_refuted"
   ],
   "note": "Proved when the criterion is not exceeded at the ends of the model and the first crossing lies before the middle; crossings between two samples away from the middle are found by every root finder that works on sign changes. REFUTED when it is exceeded at an end: the exceeded end part is never unsupported, and with both ends exceeded the part in between is marked instead."
  },
  {
   "property": "C73",
   "status": "partial",
   "theorems": [
    "C73_found",
    "C73_terminates",
    "C73_refuted"
   ],
   "note": "REFUTED in general: with a bounded response the search never ends; proved when all large weights meet the criterion."
  },
  {
   "property": "C74",
   "status": "partial",
   "theorems": [
    "C74_exists",
    "C74_ready",
    "C74_refuted"
   ],
   "note": "The equivalence is proved. REFUTED as an unconditional statement: C74_refuted gives an admissible, stable object (ice on a thick stiff weak layer) with a double eigenvalue, for which the solution formulas have no six independent solutions."
  },
  {
   "property": "C75",
   "status": "proved",
   "theorems": [
    "C75_midpoint"
   ],
   "note": ""
  },
  {
   "property": "C76",
   "status": "proved",
   "theorems": [
    "C76_digits"
   ],
   "note": ""
  },
  {
   "property": "C77",
   "status": "proved",
   "theorems": [
    "C77_levels",
    "C77_count_refuted"
   ],
   "note": "The documented number of values (samples) is not reached: C77_count_refuted."
  },
  {
   "property": "C78",
   "status": "partial",
   "theorems": [
    "C78_colour_limit_partial",
    "C78_weak_ignored",
    "C78_refuted"
   ],
   "note": "Proved when no value is NaN. REFUTED with an unsupported segment: the NaN makes the whole weak layer drop out of the limit."
  },
  {
   "property": "C79",
   "status": "partial",
   "theorems": [
    "C79_lengths",
    "C79_refuted"
   ],
   "note": "REFUTED on slopes: the first- and full-contact lengths use the crack height of level terrain, the steady state that of the inclination. C79_lengths gives the exact objects behind the three numbers; on level terrain the claim holds."
  },
  {
   "property": "C80",
   "status": "partial",
   "theorems": [
    "C80_inverse",
    "C80_default_refuted"
   ],
   "note": "REFUTED for the default arguments, which raise IndexError; the state equality and admissibility are proved for every layer list."
  },
  {
   "property": "C81",
   "status": "partial",
   "theorems": [
    "C81_bending",
    "C81_faces",
    "C81_refuted",
    "C81_surface_refuted"
   ],
   "note": "REFUTED: the surface value is always 0 and the bottom value is the weak-layer normal stress plus the surface load less half the weak-layer thickness times the derivative of the weak-layer shear stress. C81_faces proves this exact formula with a second-order bound on the mesh error."
  },
  {
   "property": "C82",
   "status": "proved",
   "theorems": [
    "C82_states",
    "C82_general"
   ],
   "note": "Existence and uniqueness of the six constants for every initial state and for every equilibrium field on an interval starting at the left end."
  },
  {
   "property": "C83",
   "status": "partial",
   "theorems": [
    "C83_moment",
    "C83_balance_partial",
    "C83_refuted"
   ],
   "note": "REFUTED when an asymmetrically layered slab carries a tangential surface load over an unsupported length: C83_moment gives the exact remainder B11/A11 pt times that length. Proved when B11 = 0, pt = 0 or everything is supported."
  },
  {
   "property": "C84",
   "status": "partial",
   "theorems": [
    "C84_slab",
    "C84_weak_layer",
    "C84_limits_partial",
    "C84_refuted",
    "C84_shift",
    "C84_lost",
    "C84_shift_refuted"
   ],
   "note": "REFUTED: an uplifted slab is cut off by the upper axis limit (C84_refuted); for the skier systems the weak layer is shifted against the slab when the slab ends unsupported (C84_shift gives the exact shift) and vanishes when it starts unsupported (C84_lost). Slab and weak-layer positions proved otherwise; C84_limits_partial proves the limits except for uplift."
  },
  {
   "property": "C85",
   "status": "partial",
   "theorems": [
    "C85_displacements",
    "C85_stresses",
    "C85_invalid",
    "C85_scale",
    "C85_refuted"
   ],
   "note": "REFUTED: the principal stress of the weak layer is kept at unsupported points, which are not shown, and there sets the colour scale. Colours, rejection of other fields and the scale in terms of all values are proved."
  },
  {
   "property": "C86",
   "status": "partial",
   "theorems": [
    "C86_profile",
    "C86_range_partial",
    "C86_refuted"
   ],
   "note": "REFUTED: densities above 500 kg/m^3 are outside the fixed axis range. C86_profile proves the profile itself; missing in C86_range_partial are denser layers."
  },
  {
   "property": "C87",
   "status": "partial",
   "theorems": [
    "C87_shading",
    "C87_lines",
    "C87_labels_partial",
    "C87_few_points",
    "C87_fea_refuted",
    "C87_refuted"
   ],
   "note": "REFUTED: a label is placed between the last and the first point when the index reaches 0; energy release rate plots raise IndexError for fewer than 16 (11) crack lengths; plots with finite element results always raise. Shading and skier marks proved; labels proved except for index 0."
  },
  {
   "property": "C88",
   "status": "partial",
   "theorems": [
    "C88_check",
    "C88_objective",
    "C88_slope",
    "C88_find_partial",
    "C88_rejected",
    "C88_refuted"
   ],
   "note": "REFUTED: for 90 mm of ice and an interval of cracks none of which propagates the search raises ValueError instead of returning None (C88_refuted). Criterion, symmetry of slopes and the value at the limit proved. Missing: that no crack shorter than the returned one propagates; C124 proves that a shortest one exists."
  },
  {
   "property": "C89",
   "status": "proved",
   "theorems": [
    "C89_quadratic",
    "C89_mede",
    "C89_chandel",
    "C89_unknown"
   ],
   "note": "Continuity is for stresses above the lower end; the curve of Mede starts at zero, those of Chandel start with a jump at zero stress."
  },
  {
   "property": "C90",
   "status": "proved",
   "theorems": [
    "C90_split",
    "C90_library"
   ],
   "note": "Object (and thus touchdown data) held fixed; stable foundation as in C67."
  },
  {
   "property": "C91",
   "status": "proved",
   "theorems": [
    "C91_continuous",
    "C91_library"
   ],
   "note": "Object held fixed: touchdown length and mode do not vary with the layout."
  },
  {
   "property": "C92",
   "status": "proved",
   "theorems": [
    "C92_vanishing",
    "C92_growth_right",
    "C92_growth_left",
    "C92_skier"
   ],
   "note": "The sign of mode II is the finding of C45: the rates of mode I and II do not add up to the differential rate."
  },
  {
   "property": "C93",
   "status": "partial",
   "theorems": [
    "C93_external_partial",
    "C93_total_partial",
    "C93_refuted"
   ],
   "note": "REFUTED: the shear traction of the surface load is taken to work at the centre of gravity instead of the surface. Proved: the value of both potentials in terms of the raster."
  },
  {
   "property": "C94",
   "status": "proved",
   "theorems": [
    "C94_energy",
    "C94_outcomes",
    "C94_self_collapse",
    "C94_dampened",
    "C94_criterion"
   ],
   "note": "Quadrature error eps per segment stays in the statement; a completely cracked model is the exception recorded under C62."
  },
  {
   "property": "C95",
   "status": "partial",
   "theorems": [
    "C95_balance_partial",
    "C95_free_partial",
    "C95_uniform_partial",
    "C95_refuted"
   ],
   "note": "REFUTED for every slab on a slope: moment balance and constitutive law of the weak layer disagree by t/2 tau (w'+psi); the exact balance with this term is proved."
  },
  {
   "property": "C96",
   "status": "partial",
   "theorems": [
    "C96_negative",
    "C96_slope",
    "C96_refuted"
   ],
   "note": "REFUTED: without skier every short enough crack on a slope with tan^2 > kt/kn = (1-nu)/2 (32 degrees for nu = 1/4) has a negative total rate, because the sign of mode II is wrong (C45, C92)."
  },
  {
   "property": "C97",
   "status": "partial",
   "theorems": [
    "C97_release_partial",
    "C97_level",
    "C97_refuted"
   ],
   "note": "Proved for saw tests without contact on level ground. REFUTED on slopes, where mode II enters with the opposite sign: witness with rate equal to minus the work gained. In general twice the new crack length times (mode I minus mode II) is the work gained, up to end forces, the non-symmetric part of the weak layer's law, the moment missed by the particular solution, and the quadrature."
  },
  {
   "property": "C98",
   "status": "partial",
   "theorems": [
    "C98_displacements",
    "C98_forces",
    "C98_stresses_partial",
    "C98_stresses_few",
    "C98_modes",
    "C98_comparison",
    "C98_criteria",
    "C98_refuted"
   ],
   "note": "REFUTED for few points on the foundation: the stress plot raises IndexError if 1 to 10 raster points lie on it (label position out of range), e.g. 30 mm of 1 m with the default raster (C98_refuted). Proved whenever a plot is drawn."
  },
  {
   "property": "C99",
   "status": "proved",
   "theorems": [
    "C99_adjust",
    "C99_identity"
   ],
   "note": "Includes colorsys.rgb_to_hls and hls_to_rgb; names and alpha values are matplotlib's."
  },
  {
   "property": "C100",
   "status": "partial",
   "theorems": [
    "C100_kept",
    "C100_again",
    "C100_raster",
    "C100_refuted",
    "C100_broken"
   ],
   "note": "REFUTED for a single segment: the lists of the caller gain a dummy segment (C100_refuted), and a failing call with mixed lists and arrays leaves them unusable (C100_broken). Proved: unchanged from two segments on, the changed lists fit the constants, solving again gives the same constants; copies made before the call cannot be rasterised."
  },
  {
   "property": "C101",
   "status": "partial",
   "theorems": [
    "C101_sections",
    "C101_setup",
    "C101_eigen",
    "C101_solution",
    "C101_quantities",
    "C101_stresses",
    "C101_energy",
    "C101_rotational",
    "C101_translational",
    "C101_refuted"
   ],
   "note": "REFUTED for the translational substitute spring: it adds the compliance under a unit force and the settlement under the slab load, so it depends on the unit of force beyond a factor (C101_refuted). Proved for everything else: section properties, setup, eigenvalue problem, solutions in all contact stages, derived quantities, depth stresses, gdif and the rotational spring. Empirical laws (moduli and strengths from density) are tied to SI units and are not claimed."
  },
  {
   "property": "C102",
   "status": "proved",
   "theorems": [
    "C102_monotone",
    "C102_heavier",
    "C102_level",
    "C102_linear",
    "C102_reached"
   ],
   "note": "Strict where all segments have positive length; contact stage and spring of the end as given."
  },
  {
   "property": "C103",
   "status": "proved",
   "theorems": [
    "C103_quadratic",
    "C103_check"
   ],
   "note": "For a fixed crack; the coupled criterion changes the crack with the weight."
  },
  {
   "property": "C104",
   "status": "proved",
   "theorems": [
    "C104_ready",
    "C104_threshold",
    "C104_soft",
    "C104_uniform",
    "C104_profiles"
   ],
   "note": "Soft is a sufficient condition; C74 has the exact one and a stiff weak layer where it fails."
  },
  {
   "property": "C105",
   "status": "proved",
   "theorems": [
    "C105_calculated",
    "C105_analysis",
    "C105_default"
   ],
   "note": "Stage C of a PST needs six different eigenvalues also for the collapsed weak layer; vertical PST in stage A. Float overflow for long segments is outside the model."
  },
  {
   "property": "C106",
   "status": "proved",
   "theorems": [
    "C106_exceptional",
    "C106_generic",
    "C106_collapsed",
    "C106_analysis"
   ],
   "note": "C106_analysis takes the success of calc_segments (root finding) as given, as C105 does."
  },
  {
   "property": "C107",
   "status": "proved",
   "theorems": [
    "C107_rotational",
    "C107_translational"
   ],
   "note": "Linear solver and eigenvalue solver as in C27. C107_translational assumes a load q >= 0 on level ground with q L < 4 (N/mm times mm against the unit force)."
  },
  {
   "property": "C108",
   "status": "proved",
   "theorems": [
    "C108_accepted",
    "C108_analysis",
    "C108_rejected",
    "C108_distance"
   ],
   "note": "The bounds are sufficient, not sharp. C108_rejected is a finding: the bracket of the root search scales with the column, see DESIGN.md."
  },
  {
   "property": "C109",
   "status": "partial",
   "theorems": [
    "C109_springs",
    "C109_exists",
    "C109_gap",
    "C109_beyond",
    "C109_refuted"
   ],
   "note": "REFUTED in its last sentence: behind full contact there is always an interval of crack lengths for which calc_lC raises ValueError (C109_gap, C109_beyond for all models, C109_refuted for the default slab). Continuity and existence of the thresholds are proved in full."
  },
  {
   "property": "C110",
   "status": "proved",
   "theorems": [
    "C110_lengths"
   ],
   "note": "True lengths are given by solutions of the beam equations on springs, not by the polynomials of the code. Strengthens the bracketing statements of C28-C30 to exact roots."
  },
  {
   "property": "C111",
   "status": "proved",
   "theorems": [
    "C111_fading",
    "C111_outer"
   ],
   "note": "Derivatives are bounded inside segments of at least 1 mm; displacements and rotation everywhere."
  },
  {
   "property": "C112",
   "status": "proved",
   "theorems": [
    "C112_ends"
   ],
   "note": "Points in segments of at least 1 mm; intact slabs."
  },
  {
   "property": "C113",
   "status": "proved",
   "theorems": [
    "C113_conditions",
    "C113_library",
    "C113_stresses"
   ],
   "note": "Residual of an eigenpair: largest entry of K v - lambda v. The end spring of stage C is compared with the same spring."
  },
  {
   "property": "C114",
   "status": "proved",
   "theorems": [
    "C114_differential",
    "C114_incremental"
   ],
   "note": "Residuals as in C113; quadrature error absolute per integral."
  },
  {
   "property": "C115",
   "status": "proved",
   "theorems": [
    "C115_bounded"
   ],
   "note": "Cracks and skiers may sit anywhere between the outer segments; constants depend on slab, weak layer and the bound of the inner stretch only."
  },
  {
   "property": "C116",
   "status": "proved",
   "theorems": [
    "C116_ends"
   ],
   "note": "C112 without the assumption that all segments are supported."
  },
  {
   "property": "C117",
   "status": "proved",
   "theorems": [
    "C117_differential",
    "C117_incremental"
   ],
   "note": "Skier models whose outer segments are supported and at least 1 mm long; the constants depend on slab, weak layer and the length between the outer segments. The incremental rate adds the error of the quadrature."
  },
  {
   "property": "C118",
   "status": "proved",
   "theorems": [
    "C118_states",
    "C118_differential",
    "C118_incremental",
    "C118_exact"
   ],
   "note": "Unlike C113 the bound does not contain the computed constants: they are bounded first. The spring stiffness of PSTs in stage C is taken as computed. The constants are not computed numerically."
  },
  {
   "property": "C119",
   "status": "proved",
   "theorems": [
    "C119_moduli",
    "C119_comparison",
    "C119_flipped",
    "C119_stiffness"
   ],
   "note": "Finding: the modulus of profile 'comp' is not that of the default law."
  },
  {
   "property": "C120",
   "status": "proved",
   "theorems": [
    "C120_affine",
    "C120_rest",
    "C120_threshold",
    "C120_exists",
    "C120_accuracy"
   ],
   "note": "Exact arithmetic. Quadratic envelopes (adam_unpublished, schottner) only; existence is shown for symmetric segments with the load in the middle, as the criterion uses them. The stability of slab and weak layer and the correctness of the numerics are hypotheses, met by the Example."
  },
  {
   "property": "C121",
   "status": "proved",
   "theorems": [
    "C121_found",
    "C121_stress",
    "C121_upper"
   ],
   "note": "Exact reals; eigensolver and linear solver are correct oracles. The example is 90 mm of snow of 300 kg/m3 at 30 degrees with a strength for which the critical weight is 80 kg."
  },
  {
   "property": "C122",
   "status": "partial",
   "theorems": [
    "C122_gives_up_refuted",
    "C122_gives_up"
   ],
   "note": "REFUTED. For every symmetric model there is a strength of the weak layer above which the search returns 0 kg although a critical weight exists; the witness is 90 mm of snow at 30 degrees. C121 shows that it does not happen for critical weights between 2^-16 and 2^16 kg."
  },
  {
   "property": "C123",
   "status": "proved",
   "theorems": [
    "C123_dampened",
    "C123_crack"
   ],
   "note": "The layout of the reported crack, its length and weight belong together. Crossings out of order or beyond the middle are the subject of C72. The example runs the damped variant; the undamped one shares its loop."
  },
  {
   "property": "C124",
   "status": "proved",
   "theorems": [
    "C124_continuous",
    "C124_short",
    "C124_none",
    "C124_shortest",
    "C124_raises"
   ],
   "note": "Continuity, limit for short cracks, existence of a shortest propagating crack. Whether some crack of a given slab propagates is not decided."
  },
  {
   "property": "C125",
   "status": "proved",
   "theorems": [
    "C125_opens",
    "C125_mode_I",
    "C125_flat",
    "C125_propagates"
   ],
   "note": "C125_opens is for models (objects with a solved boundary value problem): both tips together sink below rest. C125_mode_I is for the rates reported by gdif, C125_flat and C125_propagates for check_crack_propagation_criterion. The slab must be at least 3 mm long, that is 3 micrometres thick. On slopes nothing is said about mode II."
  },
  {
   "property": "C126",
   "status": "proved",
   "theorems": [
    "C126_states",
    "C126_rates",
    "C126_left"
   ],
   "note": "Models solved by assemble_and_solve with any sound solver. In C126_states and C126_rates the hanging part is the last segment. C126_left gives the states for cuts at the left end without contact (-pst); the rates are for cuts at the right end. Segments carry any skier weights at their joints, also at the tip."
  },
  {
   "property": "C127",
   "status": "proved",
   "theorems": [
    "C127_parabola",
    "C127_sinks",
    "C127_mode_I"
   ],
   "note": "Level ground only: on slopes the tangential load bends the hanging part, too. Nothing is said about the sign of the quadratic coefficient, so nothing about long cuts."
  },
  {
   "property": "C128",
   "status": "proved",
   "theorems": [
    "C128_level"
   ],
   "note": "Uniqueness of the boundary value problem; both systems reduce to ends free of forces."
  },
  {
   "property": "C129",
   "status": "proved",
   "theorems": [
    "C129_rates", "C129_library", "C129_even"
   ],
   "note": "Follows from the mirrored solution (C24) and the transmission conditions at the tips (C43). Point loads at a tip are excluded for mode II, where gdif sees only one side of the jump."
  }
 ]
}
