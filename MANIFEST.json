{
 "claims": [
  {
   "property": "C01",
   "status": "proved",
   "theorems": [
    "C01_verify_shoebox",
    "C01_inverted_box_refuted"
   ],
   "note": "Shoebox verification rejects every box outside the grid"
  },
  {
   "property": "C02",
   "status": "proved",
   "theorems": [
    "C02_cell_source"
   ],
   "note": "Chopped cell takes its properties from the right source cell"
  },
  {
   "property": "C03",
   "status": "proved",
   "theorems": [
    "C03_chop_total",
    "C03_pillars"
   ],
   "note": "Chopping never reads or writes outside an array and leaves no unset entry"
  },
  {
   "property": "C04",
   "status": "proved",
   "theorems": [
    "C04_chop_zcorn"
   ],
   "note": "Chopped depths are the clamped source depths"
  },
  {
   "property": "C05",
   "status": "proved",
   "theorems": [
    "C05_chop_layers"
   ],
   "note": "Layer selection keeps every layer that meets the box"
  },
  {
   "property": "C06",
   "status": "proved",
   "theorems": [
    "C06_pillar_end_refuted",
    "C06_pillar_end_unclipped"
   ],
   "note": "Chopped COORD pillars end at the clipped depth only without clipping"
  },
  {
   "property": "C07",
   "status": "proved",
   "theorems": [
    "C07_partition"
   ],
   "note": "Mesh colouring visits every active cell exactly once"
  },
  {
   "property": "C08",
   "status": "proved",
   "theorems": [
    "C08_race_free"
   ],
   "note": "Threads working on the same colour never touch a common node"
  },
  {
   "property": "C09",
   "status": "proved",
   "theorems": [
    "C09_strips"
   ],
   "note": "Strip construction terminates with legal strips"
  },
  {
   "property": "C10",
   "status": "proved",
   "theorems": [
    "C10_chunks"
   ],
   "note": "Progress logger chunks partition the work"
  },
  {
   "property": "C11",
   "status": "proved",
   "theorems": [
    "C11_sides"
   ],
   "note": "Every boundary face is assigned exactly one side of the bounding box, or the call fails"
  },
  {
   "property": "C12",
   "status": "proved",
   "theorems": [
    "C12_pairing",
    "C12_symmetry_refuted"
   ],
   "note": "Periodic pairing is symmetric"
  },
  {
   "property": "C13",
   "status": "proved",
   "theorems": [
    "C13_complete"
   ],
   "note": "A geometric partner is always found if one exists"
  },
  {
   "property": "C14",
   "status": "proved",
   "theorems": [
    "C14_tables",
    "C14_partners"
   ],
   "note": "Boundary-condition tables always have one entry per boundary id"
  },
  {
   "property": "C15",
   "status": "proved",
   "theorems": [
    "C15_periodic",
    "C15_illegal_type"
   ],
   "note": "Periodic setup prescribes exactly the requested pressure drop"
  },
  {
   "property": "C16",
   "status": "proved",
   "theorems": [
    "C16_fixed"
   ],
   "note": "Fixed setup prescribes pdrop on one side, zero on the opposite side and no flow elsewhere"
  },
  {
   "property": "C17",
   "status": "proved",
   "theorems": [
    "C17_linear"
   ],
   "note": "Linear setup interpolates the pressure between the two ends"
  },
  {
   "property": "C18",
   "status": "proved",
   "theorems": [
    "C18_keeps_partners",
    "C18_no_stale_partner_refuted"
   ],
   "note": "Linear setup keeps the partner table of the previous setup"
  },
  {
   "property": "C19",
   "status": "proved",
   "theorems": [
    "C19_side_flux"
   ],
   "note": "Prescribed side flux is distributed without loss"
  },
  {
   "property": "C20",
   "status": "proved",
   "theorems": [
    "C20_set_type",
    "C20_history"
   ],
   "note": "Boundary condition type can only be changed between compatible kinds"
  },
  {
   "property": "C21",
   "status": "proved",
   "theorems": [
    "C21_porosity"
   ],
   "note": "Upscaled porosity is a volume-weighted mean"
  },
  {
   "property": "C22",
   "status": "proved",
   "theorems": [
    "C22_net"
   ],
   "note": "Net porosity and net-to-gross are consistent"
  },
  {
   "property": "C23",
   "status": "proved",
   "theorems": [
    "C23_critical"
   ],
   "note": "Critical saturations are pore-volume-weighted means"
  },
  {
   "property": "C24",
   "status": "proved",
   "theorems": [
    "C24_homogeneous"
   ],
   "note": "Upscaled permeability reproduces a homogeneous medium"
  },
  {
   "property": "C25",
   "status": "proved",
   "theorems": [
    "C25_velocity"
   ],
   "note": "Average velocity counts each inflow and outflow face once"
  },
  {
   "property": "C26",
   "status": "proved",
   "theorems": [
    "C26_zcorn"
   ],
   "note": "Corner depth addressing is in range and distinct"
  },
  {
   "property": "C27",
   "status": "proved",
   "theorems": [
    "C27_voigt",
    "C27_order"
   ],
   "note": "Voigt packing is a bijection"
  },
  {
   "property": "C28",
   "status": "proved",
   "theorems": [
    "C28_distribution",
    "C28_counts"
   ],
   "note": "Every saturation point is computed by exactly one MPI process and loads are balanced"
  },
  {
   "property": "C29",
   "status": "proved",
   "theorems": [
    "C29_collect"
   ],
   "note": "Collecting results over MPI is schedule independent and cannot deadlock"
  },
  {
   "property": "C30",
   "status": "proved",
   "theorems": [
    "C30_phase_tensors",
    "C30_contrast",
    "C30_single_phase",
    "C30_single_aniso_refuted"
   ],
   "note": "Phase permeability contrast is bounded"
  },
  {
   "property": "C31",
   "status": "proved",
   "theorems": [
    "C31_no_rock"
   ],
   "note": "Anisotropic sweep fails exactly on active cells without rock"
  },
  {
   "property": "C32",
   "status": "proved",
   "theorems": [
    "C32_saturation",
    "C32_accepts"
   ],
   "note": "Water saturation range and upscaled saturation are pore-volume means of cell values"
  },
  {
   "property": "C33",
   "status": "proved",
   "theorems": [
    "C33_offsets"
   ],
   "note": "Gravity offset of a cell is looked up for that cell exactly on fully active numbering"
  },
  {
   "property": "C34",
   "status": "proved",
   "theorems": [
    "C34_pc_range"
   ],
   "note": "Capillary pressure range with gravity covers all cells exactly for opposite extreme offsets"
  },
  {
   "property": "C35",
   "status": "proved",
   "theorems": [
    "C35_check_curve",
    "C35_zero_end",
    "C35_findings_refuted"
   ],
   "note": "Curve admissibility test accepts exactly the intended curves"
  },
  {
   "property": "C36",
   "status": "proved",
   "theorems": [
    "C36_steady"
   ],
   "note": "Steady-state iteration always stops and reports truthfully"
  },
  {
   "property": "C37",
   "status": "proved",
   "theorems": [
    "C37_limits"
   ],
   "note": "Initial saturations respect the cell limits"
  },
  {
   "property": "C38",
   "status": "proved",
   "theorems": [
    "C38_expand",
    "C38_inverse",
    "C38_destripe"
   ],
   "note": "Both-phase saturation expansion and destriping are inverse"
  },
  {
   "property": "C39",
   "status": "proved",
   "theorems": [
    "C39_flows",
    "C39_total",
    "C39_throws"
   ],
   "note": "Phase flows on a boundary side add up to the total flow"
  },
  {
   "property": "C40",
   "status": "proved",
   "theorems": [
    "C40_saturations",
    "C40_pressures",
    "C40_single"
   ],
   "note": "Saturation and pressure-drop sweeps hit both end points and are monotone"
  },
  {
   "property": "C41",
   "status": "proved",
   "theorems": [
    "C41_seeding"
   ],
   "note": "A failed steady-state run never seeds the next one"
  },
  {
   "property": "C42",
   "status": "proved",
   "theorems": [
    "C42_row",
    "C42_columns",
    "C42_all_components_refuted"
   ],
   "note": "Relative permeability output determines every tensor component but one"
  },
  {
   "property": "C43",
   "status": "proved",
   "theorems": [
    "C43_round_trip",
    "C43_lossless",
    "C43_missing_row"
   ],
   "note": "Control file round trip"
  },
  {
   "property": "C44",
   "status": "proved",
   "theorems": [
    "C44_step_count",
    "C44_zero_cfl"
   ],
   "note": "Explicit sub-steps add up to the requested time"
  },
  {
   "property": "C45",
   "status": "proved",
   "theorems": [
    "C45_retries",
    "C45_terminates"
   ],
   "note": "Every retry restarts from the original saturation"
  },
  {
   "property": "C46",
   "status": "proved",
   "theorems": [
    "C46_failed_state",
    "C46_unchanged_refuted"
   ],
   "note": "After a failed explicit transport solve the saturation is that of the last attempt's rejected step"
  },
  {
   "property": "C47",
   "status": "proved",
   "theorems": [
    "C47_small_step"
   ],
   "note": "Accepted saturations lie in the tolerated range"
  },
  {
   "property": "C48",
   "status": "proved",
   "theorems": [
    "C48_residual",
    "C48_once",
    "C48_wall"
   ],
   "note": "The explicit residual conserves the fluid globally"
  },
  {
   "property": "C49",
   "status": "proved",
   "theorems": [
    "C49_upstream",
    "C49_flux",
    "C49_negative_refuted",
    "C49_switched_off_refuted"
   ],
   "note": "Upstream cells are chosen consistently with the phase flux direction"
  },
  {
   "property": "C50",
   "status": "proved",
   "theorems": [
    "C50_blocks",
    "C50_reinit_serial",
    "C50_reinit_refuted"
   ],
   "note": "Block iteration over cells covers every cell once"
  },
  {
   "property": "C51",
   "status": "proved",
   "theorems": [
    "C51_velocity",
    "C51_velocity_throws",
    "C51_gravity",
    "C51_gravity_flux",
    "C51_capillary",
    "C51_time"
   ],
   "note": "The CFL time is a lower bound over cells"
  },
  {
   "property": "C52",
   "status": "proved",
   "theorems": [
    "C52_zero",
    "C52_value",
    "C52_monotone"
   ],
   "note": "Saturation matching functor is zero exactly at conserved volume"
  },
  {
   "property": "C53",
   "status": "proved",
   "theorems": [
    "C53_stops",
    "C53_zero_limit_refuted"
   ],
   "note": "The Newton solve always stops within its iteration limits"
  },
  {
   "property": "C54",
   "status": "proved",
   "theorems": [
    "C54_flags",
    "C54_accepted_refuted"
   ],
   "note": "What a Newton solve's success flag says about the returned state"
  },
  {
   "property": "C55",
   "status": "proved",
   "theorems": [
    "C55_retries",
    "C55_terminates",
    "C55_water_saturation",
    "C55_unchanged_refuted"
   ],
   "note": "Implicit retry loop restarts from the original saturation and always stops"
  },
  {
   "property": "C56",
   "status": "proved",
   "theorems": [
    "C56_cell_buffer"
   ],
   "note": "Local contribution buffer is addressed in bounds and without overlap"
  },
  {
   "property": "C57",
   "status": "proved",
   "theorems": [
    "C57_pattern",
    "C57_in_bounds"
   ],
   "note": "Every assembled Jacobian entry exists in the sparsity pattern"
  },
  {
   "property": "C58",
   "status": "proved",
   "theorems": [
    "C58_residual",
    "C58_conservation",
    "C58_periodic_refuted",
    "C58_self_refuted"
   ],
   "note": "The assembled residual is the cell balance"
  },
  {
   "property": "C59",
   "status": "proved",
   "theorems": [
    "C59_jacobian",
    "C59_stored"
   ],
   "note": "The assembled Jacobian is the derivative of the assembled residual"
  },
  {
   "property": "C60",
   "status": "proved",
   "theorems": [
    "C60_upwind"
   ],
   "note": "Implicit upwinding is consistent"
  },
  {
   "property": "C61",
   "status": "proved",
   "theorems": [
    "C61_finish",
    "C61_iteration",
    "C61_start"
   ],
   "note": "Saturations stay in range and sum to one after a step"
  },
  {
   "property": "C62",
   "status": "proved",
   "theorems": [
    "C62_storage",
    "C62_faces_refuted"
   ],
   "note": "Model parameter storage segments do not overlap"
  },
  {
   "property": "C63",
   "status": "proved",
   "theorems": [
    "C63_create",
    "C63_append",
    "C63_history",
    "C63_read",
    "C63_wrong_phases",
    "C63_clear",
    "C63_destroy",
    "C63_out_of_memory"
   ],
   "note": "Source list append keeps earlier entries"
  },
  {
   "property": "C64",
   "status": "proved",
   "theorems": [
    "C64_formula",
    "C64_symmetric",
    "C64_exact",
    "C64_hydrostatic",
    "C64_gravity",
    "C64_dynamic"
   ],
   "note": "The mimetic inverse inner product is symmetric and exact for linear pressure"
  },
  {
   "property": "C65",
   "status": "proved",
   "theorems": [
    "C65_semidefinite",
    "C65_definite"
   ],
   "note": "The mimetic inverse inner product is positive definite"
  },
  {
   "property": "C66",
   "status": "proved",
   "theorems": [
    "C66_conservation",
    "C66_solve",
    "C66_unknown_solver"
   ],
   "note": "Pressure solve conserves mass in every cell for any contact pressures"
  },
  {
   "property": "C67",
   "status": "proved",
   "theorems": [
    "C67_equations"
   ],
   "note": "A solution of the assembled system has continuous fluxes and satisfies the boundary conditions"
  },
  {
   "property": "C68",
   "status": "proved",
   "theorems": [
    "C68_periodic"
   ],
   "note": "A solution of the assembled periodic system has the prescribed jump and matching fluxes"
  },
  {
   "property": "C69",
   "status": "proved",
   "theorems": [
    "C69_symmetric",
    "C69_semidefinite",
    "C69_definite",
    "C69_unique"
   ],
   "note": "The assembled flow matrix is symmetric and positive definite, so the flow field is unique"
  },
  {
   "property": "C70",
   "status": "proved",
   "theorems": [
    "C70_numbering",
    "C70_in_order",
    "C70_order_refuted",
    "C70_interface",
    "C70_same",
    "C70_sane"
   ],
   "note": "Face degrees of freedom are numbered bijectively"
  },
  {
   "property": "C71",
   "status": "proved",
   "theorems": [
    "C71_post"
   ],
   "note": "Post-processed fluxes are exactly antisymmetric"
  },
  {
   "property": "C72",
   "status": "proved",
   "theorems": [
    "C72_structure"
   ],
   "note": "Every matrix entry the flow assembly touches is in the allocated pattern"
  },
  {
   "property": "C73",
   "status": "proved",
   "theorems": [
    "C73_tensor",
    "C73_positive",
    "C73_absent",
    "C73_uniform"
   ],
   "note": "Permeability tensors are symmetric and bounded below"
  },
  {
   "property": "C74",
   "status": "proved",
   "theorems": [
    "C74_accepts",
    "C74_kind"
   ],
   "note": "Incomplete permeability input is rejected"
  },
  {
   "property": "C75",
   "status": "proved",
   "theorems": [
    "C75_fields"
   ],
   "note": "Cell properties are read from the cell's own global index"
  },
  {
   "property": "C76",
   "status": "proved",
   "theorems": [
    "C76_inverse2x2",
    "C76_inverse3x3",
    "C76_invertible_refuted",
    "C76_matprod"
   ],
   "note": "Closed-form 2x2 and 3x3 inverses are inverses"
  },
  {
   "property": "C77",
   "status": "proved",
   "theorems": [
    "C77_formula",
    "C77_derivative",
    "C77_decreasing",
    "C77_range",
    "C77_inverse_formula",
    "C77_roundtrip"
   ],
   "note": "J-function capillary pressure and its inverse agree"
  },
  {
   "property": "C78",
   "status": "proved",
   "theorems": [
    "C78_dispatch",
    "C78_roundtrip",
    "C78_no_rocks",
    "C78_pressures"
   ],
   "note": "Capillary pressure of a cell follows its rock; the default inverse is constant"
  },
  {
   "property": "C79",
   "status": "proved",
   "theorems": [
    "C79_ordered",
    "C79_symmetric",
    "C79_same",
    "C79_not_positive"
   ],
   "note": "Arithmetic, geometric and harmonic averages are ordered"
  },
  {
   "property": "C80",
   "status": "proved",
   "theorems": [
    "C80_fraction",
    "C80_monotone",
    "C80_default",
    "C80_derivatives",
    "C80_anisotropic",
    "C80_velocities"
   ],
   "note": "Fractional flow is a monotone fraction for default fluid curves"
  },
  {
   "property": "C81",
   "status": "proved",
   "theorems": [
    "C81_default",
    "C81_rocks",
    "C81_anisotropic_default",
    "C81_anisotropic_rocks"
   ],
   "note": "CFL factors bound the sampled slopes of the flow functions"
  },
  {
   "property": "C82",
   "status": "proved",
   "theorems": [
    "C82_estimate",
    "C82_partition",
    "C82_uniform",
    "C82_simple",
    "C82_simple_uniform"
   ],
   "note": "Cell velocity is exact for uniform flow"
  },
  {
   "property": "C83",
   "status": "proved",
   "theorems": [
    "C83_index",
    "C83_read",
    "C83_write",
    "C83_assign",
    "C83_equal",
    "C83_add",
    "C83_scale",
    "C83_zero",
    "C83_eye",
    "C83_trace",
    "C83_prod_vector",
    "C83_prod",
    "C83_mat_mul_add",
    "C83_vec_mul_add",
    "C83_vec_mul_add_c",
    "C83_symmetric_update",
    "C83_congruence",
    "C83_congruence_refuted"
   ],
   "note": "Dense matrix storage and arithmetic"
  },
  {
   "property": "C84",
   "status": "proved",
   "theorems": [
    "C84_numbers",
    "C84_bijective",
    "C84_again"
   ],
   "note": "Equations are numbered without gaps or duplicates"
  },
  {
   "property": "C85",
   "status": "proved",
   "theorems": [
    "C85_terminates",
    "C85_result"
   ],
   "note": "Constraint chains resolve to independent masters"
  },
  {
   "property": "C86",
   "status": "proved",
   "theorems": [
    "C86_iff",
    "C86_diverges"
   ],
   "note": "A cyclic constraint set makes the resolver loop"
  },
  {
   "property": "C87",
   "status": "proved",
   "theorems": [
    "C87_starts",
    "C87_pattern",
    "C87_assembled",
    "C87_symmetric",
    "C87_energy"
   ],
   "note": "Assembly equals congruence with the constraint transformation"
  },
  {
   "property": "C88",
   "status": "proved",
   "theorems": [
    "C88_values",
    "C88_constraint",
    "C88_homogeneous"
   ],
   "note": "Expanded solutions satisfy the constraints"
  },
  {
   "property": "C89",
   "status": "proved",
   "theorems": [
    "C89_inverse",
    "C89_stiffness",
    "C89_compliance",
    "C89_range",
    "C89_zero_modulus",
    "C89_plane"
   ],
   "note": "Isotropic stiffness and compliance are inverse, symmetric and positive definite"
  },
  {
   "property": "C90",
   "status": "proved",
   "theorems": [
    "C90_bulk_shear",
    "C90_lame",
    "C90_lame_zero",
    "C90_young_poisson",
    "C90_velocities",
    "C90_range"
   ],
   "note": "Elastic parameter conversions agree"
  },
  {
   "property": "C91",
   "status": "proved",
   "theorems": [
    "C91_file",
    "C91_transverse",
    "C91_parameters",
    "C91_energy",
    "C91_short"
   ],
   "note": "Anisotropic input is permuted consistently"
  },
  {
   "property": "C92",
   "status": "proved",
   "theorems": [
    "C92_isotropic",
    "C92_symmetric",
    "C92_diagonal",
    "C92_diagonal_inverse",
    "C92_plane",
    "C92_plane_refused",
    "C92_plane_orthotropic"
   ],
   "note": "Which entries of a material matrix depend on the previously used matrix"
  },
  {
   "property": "C93",
   "status": "proved",
   "theorems": [
    "C93_nodal",
    "C93_reproduces",
    "C93_increment",
    "C93_one_dimension"
   ],
   "note": "Element shape functions form a nodal partition of unity"
  },
  {
   "property": "C94",
   "status": "proved",
   "theorems": [
    "C94_gradient",
    "C94_product_gradient"
   ],
   "note": "The gradient of cardinal functions is never defined"
  },
  {
   "property": "C95",
   "status": "proved",
   "theorems": [
    "C95_strain",
    "C95_rigid",
    "C95_entries",
    "C95_symmetric",
    "C95_energy",
    "C95_semidefinite",
    "C95_kernel"
   ],
   "note": "Element stiffness is symmetric, positive semidefinite and blind to rigid motion"
  },
  {
   "property": "C96",
   "status": "proved",
   "theorems": [
    "C96_from_dense",
    "C96_axpy",
    "C96_augment",
    "C96_augment_symmetric",
    "C96_diagonal",
    "C96_extract_diagonal",
    "C96_extract_diagonal_missing",
    "C96_extract_block",
    "C96_save",
    "C96_print"
   ],
   "note": "Sparse matrix helpers compute what they say"
  },
  {
   "property": "C97",
   "status": "proved",
   "theorems": [
    "C97_apply",
    "C97_direct",
    "C97_scaled",
    "C97_scaled_iff",
    "C97_uzawa",
    "C97_uzawa_load"
   ],
   "note": "Saddle point operator and Uzawa solver are consistent"
  },
  {
   "property": "C98",
   "status": "proved",
   "theorems": [
    "C98_uniform",
    "C98_second_corner",
    "C98_layer",
    "C98_extract",
    "C98_pos",
    "C98_pos_affine",
    "C98_inverse",
    "C98_inverse_convex",
    "C98_outside",
    "C98_overwritten",
    "C98_find",
    "C98_find_convex"
   ],
   "note": "Boundary quads sample and invert bilinear maps"
  },
  {
   "property": "C99",
   "status": "proved",
   "theorems": [
    "C99_quadratic",
    "C99_quadratic_near",
    "C99_quadratic_none",
    "C99_linear",
    "C99_constant",
    "C99_depressed",
    "C99_cubic_three",
    "C99_cubic_double",
    "C99_cubic_one",
    "C99_cubic_nan",
    "C99_cubic_missed",
    "C99_single_precision",
    "C99_bilinear",
    "C99_bilinear_residual"
   ],
   "note": "Quadratic and cubic root finders return roots"
  },
  {
   "property": "C100",
   "status": "proved",
   "theorems": [
    "C100_nodes",
    "C100_single"
   ],
   "note": "Mortar multiplier numbering is periodic and gap free"
  },
  {
   "property": "C101",
   "status": "proved",
   "theorems": [
    "C101_grid",
    "C101_only_if",
    "C101_uniform"
   ],
   "note": "Materials of a grid, their volume fractions and the density"
  },
  {
   "property": "C102",
   "status": "proved",
   "theorems": [
    "C102_box",
    "C102_far"
   ],
   "note": "Bounding box search works for any coordinates"
  },
  {
   "property": "C103",
   "status": "proved",
   "theorems": [
    "C103_speeds"
   ],
   "note": "Isotropic wave speeds do not depend on direction"
  },
  {
   "property": "C104",
   "status": "proved",
   "theorems": [
    "C104_speeds",
    "C104_unique",
    "C104_report",
    "C104_order",
    "C104_absent"
   ],
   "note": "Wave speeds solve the Christoffel equation of a matrix in Voigt order"
  },
  {
   "property": "C105",
   "status": "proved",
   "theorems": [
    "C105_table",
    "C105_partition",
    "C105_cut",
    "C105_depths",
    "C105_never_finishes"
   ],
   "note": "Regularised coarse blocks partition the fine grid"
  },
  {
   "property": "C106",
   "status": "proved",
   "theorems": [
    "C106_volumes",
    "C106_porosity",
    "C106_net",
    "C106_mean",
    "C106_net_porosity",
    "C106_permeability",
    "C106_formula",
    "C106_thin_cells"
   ],
   "note": "Grid statistics are ordered means"
  },
  {
   "property": "C107",
   "status": "proved",
   "theorems": [
    "C107_region"
   ],
   "note": "Region based conditions affect exactly the faces inside the region"
  },
  {
   "property": "C108",
   "status": "proved",
   "theorems": [
    "C108_thickness",
    "C108_finite"
   ],
   "note": "Model thickness is the distance between mean top and mean bottom"
  },
  {
   "property": "C109",
   "status": "proved",
   "theorems": [
    "C109_sanity"
   ],
   "note": "Relative permeability input check rejects exactly bad data and repairs the rest as documented"
  },
  {
   "property": "C110",
   "status": "proved",
   "theorems": [
    "C110_mobilities"
   ],
   "note": "Steady-state mobilities have bounded contrast"
  },
  {
   "property": "C111",
   "status": "proved",
   "theorems": [
    "C111_last_saturation"
   ],
   "note": "Reported upscaled saturation is the pore volume mean"
  },
  {
   "property": "C112",
   "status": "proved",
   "theorems": [
    "C112_transmissibility",
    "C112_series",
    "C112_half_faces",
    "C112_gravity"
   ],
   "note": "Transmissibilities and gravity fluxes of the implicit model"
  },
  {
   "property": "C113",
   "status": "proved",
   "theorems": [
    "C113_formula",
    "C113_exact",
    "C113_forms",
    "C113_symmetric_refuted"
   ],
   "note": "The inner product for tensor mobilities"
  },
  {
   "property": "C114",
   "status": "proved",
   "theorems": [
    "C114_flag",
    "C114_regularised",
    "C114_dirichlet"
   ],
   "note": "A flow problem without prescribed pressure is regularised correctly"
  },
  {
   "property": "C115",
   "status": "proved",
   "theorems": [
    "C115_patch",
    "C115_regularised"
   ],
   "note": "The flow solver reproduces linear pressure exactly"
  },
  {
   "property": "C116",
   "status": "proved",
   "theorems": [
    "C116_legacy",
    "C116_uniform"
   ],
   "note": "The legacy permeability file determines the permeability of every cell"
  },
  {
   "property": "C117",
   "status": "proved",
   "theorems": [
    "C117_header",
    "C117_header_unterminated",
    "C117_header_cases",
    "C117_documented_header_refuted",
    "C117_rows",
    "C117_rows_malformed",
    "C117_table",
    "C117_table_empty",
    "C117_anisotropic_table",
    "C117_specs",
    "C117_specs_short"
   ],
   "note": "Rock files are read row by row after their comment header"
  },
  {
   "property": "C118",
   "status": "proved",
   "theorems": [
    "C118_less",
    "C118_same_slave"
   ],
   "note": "Constraints are ordered consistently"
  },
  {
   "property": "C119",
   "status": "proved",
   "theorems": [
    "C119_fix",
    "C119_add",
    "C119_masters"
   ],
   "note": "Boundary conditions accumulate"
  },
  {
   "property": "C120",
   "status": "proved",
   "theorems": [
    "C120_nodal",
    "C120_reproduces",
    "C120_plane",
    "C120_space",
    "C120_legendre",
    "C120_legendre_zero",
    "C120_grid_small",
    "C120_grid_large"
   ],
   "note": "Higher order shape functions interpolate polynomials"
  },
  {
   "property": "C121",
   "status": "proved",
   "theorems": [
    "C121_exists",
    "C121_symmetric",
    "C121_bounds",
    "C121_energy",
    "C121_unique",
    "C121_cleared"
   ],
   "note": "The upscaled elastic stiffness is symmetric, nonnegative and below the volume average"
  },
  {
   "property": "C122",
   "status": "proved",
   "theorems": [
    "C122_assembled"
   ],
   "note": "Assembling the elastic problem depends on nothing assembled before"
  },
  {
   "property": "C123",
   "status": "proved",
   "theorems": [
    "C123_isotropic",
    "C123_sizes",
    "C123_diagonal",
    "C123_orthotropic",
    "C123_file",
    "C123_keyword",
    "C123_fluid",
    "C123_no_file",
    "C123_no_density"
   ],
   "note": "Materials are created from parameters and files as documented"
  },
  {
   "property": "C124",
   "status": "proved",
   "theorems": [
    "C124_partition"
   ],
   "note": "Chunked loops visit every task exactly once"
  },
  {
   "property": "C125",
   "status": "proved",
   "theorems": [
    "C125_operator",
    "C125_matrix",
    "C125_matrix_short",
    "C125_diagonal",
    "C125_block",
    "C125_prepare"
   ],
   "note": "Schur operator and block preconditioner of the mortar solver"
  },
  {
   "property": "C126",
   "status": "proved",
   "theorems": [
    "C126_pickers"
   ],
   "note": "Corner pickers order four vertices"
  },
  {
   "property": "C127",
   "status": "proved",
   "theorems": [
    "C127_corners",
    "C127_global",
    "C127_derivative",
    "C127_local",
    "C127_local_affine",
    "C127_integration",
    "C127_volume"
   ],
   "note": "Geometry of a boundary quad"
  },
  {
   "property": "C128",
   "status": "proved",
   "theorems": [
    "C128_plane",
    "C128_line",
    "C128_point",
    "C128_corners",
    "C128_fix_line",
    "C128_periodic",
    "C128_strong",
    "C128_weights",
    "C128_position"
   ],
   "note": "Corners are fixed and opposite faces tied"
  },
  {
   "property": "C129",
   "status": "proved",
   "theorems": [
    "C129_slaves",
    "C129_masters"
   ],
   "note": "Boundary faces are reconstructed"
  },
  {
   "property": "C130",
   "status": "proved",
   "theorems": [
    "C130_entries",
    "C130_few_pillars",
    "C130_unit_masters",
    "C130_weights_ignored"
   ],
   "note": "Mortar coupling matrix has the stated entries"
  },
  {
   "property": "C131",
   "status": "proved",
   "theorems": [
    "C131_entries",
    "C131_total",
    "C131_inside"
   ],
   "note": "Mortar element matrices are the quadrature of basis products"
  },
  {
   "property": "C132",
   "status": "proved",
   "theorems": [
    "C132_given",
    "C132_lame",
    "C132_bulk",
    "C132_permeability",
    "C132_missing",
    "C132_scaled",
    "C132_not_scaled"
   ],
   "note": "Elastic moduli are converted correctly and auxetic materials refused"
  },
  {
   "property": "C133",
   "status": "proved",
   "theorems": [
    "C133_single",
    "C133_cyclic",
    "C133_regions",
    "C133_only_if",
    "C133_scaled",
    "C133_not_scaled",
    "C133_isotropic_only",
    "C133_names",
    "C133_exact"
   ],
   "note": "Rock lists assign materials and volume fractions"
  },
  {
   "property": "C134",
   "status": "proved",
   "theorems": [
    "C134_report",
    "C134_sums",
    "C134_means",
    "C134_refused"
   ],
   "note": "Statistics per rock type partition the grid"
  },
  {
   "property": "C135",
   "status": "proved",
   "theorems": [
    "C135_dips"
   ],
   "note": "Dip averages cover exactly the cells above the volume limit"
  },
  {
   "property": "C136",
   "status": "proved",
   "theorems": [
    "C136_random",
    "C136_fixed",
    "C136_undefined"
   ],
   "note": "Random subsample windows lie in the requested box"
  },
  {
   "property": "C137",
   "status": "proved",
   "theorems": [
    "C137_defined",
    "C137_entries",
    "C137_printed",
    "C137_ntg_unfilled",
    "C137_shifted_refuted",
    "C137_chopped"
   ],
   "note": "Rows of the subsample table belong to one subsample"
  },
  {
   "property": "C138",
   "status": "proved",
   "theorems": [
    "C138_end_points",
    "C138_bounds",
    "C138_limits",
    "C138_pressures"
   ],
   "note": "Subsample end points are pore volume averages within the rocks' limits"
  },
  {
   "property": "C139",
   "status": "proved",
   "theorems": [
    "C139_volumes",
    "C139_bounds"
   ],
   "note": "Rock shares of a subsample are fractions that add up to one"
  },
  {
   "property": "C140",
   "status": "proved",
   "theorems": [
    "C140_rows",
    "C140_endless",
    "C140_deep"
   ],
   "note": "Depth trend windows"
  },
  {
   "property": "C141",
   "status": "proved",
   "theorems": [
    "C141_rows",
    "C141_refused",
    "C141_inside",
    "C141_lost"
   ],
   "note": "Variogram pairs"
  },
  {
   "property": "C142",
   "status": "proved",
   "theorems": [
    "C142_value",
    "C142_undefined",
    "C142_tensor",
    "C142_diagonal",
    "C142_fixed"
   ],
   "note": "Capillary mobility of a cell"
  },
  {
   "property": "C143",
   "status": "proved",
   "theorems": [
    "C143_conditions",
    "C143_sources",
    "C143_closed",
    "C143_no_capillary",
    "C143_switched_off"
   ],
   "note": "Capillary pressure problem"
  },
  {
   "property": "C144",
   "status": "proved",
   "theorems": [
    "C144_step",
    "C144_start_range",
    "C144_volume",
    "C144_conserved",
    "C144_in_range",
    "C144_undefined"
   ],
   "note": "Saturation after an implicit capillary step"
  },
  {
   "property": "C145",
   "status": "proved",
   "theorems": [
    "C145_maximum",
    "C145_sum",
    "C145_euclid",
    "C145_max_is_norm",
    "C145_sum_is_norm",
    "C145_euclid_is_norm",
    "C145_equivalent"
   ],
   "note": "Vector norms"
  },
  {
   "property": "C146",
   "status": "proved",
   "theorems": [
    "C146_relperm"
   ],
   "note": "Upscaled relative permeability from phase permeability"
  },
  {
   "property": "C147",
   "status": "proved",
   "theorems": [
    "C147_given",
    "C147_repeated",
    "C147_after_given"
   ],
   "note": "Time parameters of the implicit upscaler"
  },
  {
   "property": "C148",
   "status": "proved",
   "theorems": [
    "C148_accepted",
    "C148_unknown_option",
    "C148_dangling_option",
    "C148_missing_files",
    "C148_cases",
    "C148_file_each",
    "C148_one_file",
    "C148_wrong_number"
   ],
   "note": "Command line and rock files of the upscaling programs"
  },
  {
   "property": "C149",
   "status": "proved",
   "theorems": [
    "C149_cap",
    "C149_cap_rejects",
    "C149_cond",
    "C149_cond_rejects"
   ],
   "note": "Check of the grid input"
  },
  {
   "property": "C150",
   "status": "proved",
   "theorems": [
    "C150_limits",
    "C150_no_rock"
   ],
   "note": "Capillary pressure limits and saturation end points"
  },
  {
   "property": "C151",
   "status": "proved",
   "theorems": [
    "C151_values",
    "C151_resolution",
    "C151_terminates",
    "C151_jump",
    "C151_empty",
    "C151_single_pressure",
    "C151_relperm"
   ],
   "note": "Tabulation of saturation against capillary pressure"
  },
  {
   "property": "C152",
   "status": "proved",
   "theorems": [
    "C152_values",
    "C152_balance",
    "C152_within",
    "C152_monotone",
    "C152_cond",
    "C152_same"
   ],
   "note": "Saturations of the model and of its rock types"
  },
  {
   "property": "C153",
   "status": "proved",
   "theorems": [
    "C153_grid",
    "C153_raw",
    "C153_interpolated",
    "C153_one_point",
    "C153_empty"
   ],
   "note": "Table written by upscale_cap"
  },
  {
   "property": "C154",
   "status": "proved",
   "theorems": [
    "C154_mud",
    "C154_archie",
    "C154_dry",
    "C154_bounds",
    "C154_wetter",
    "C154_cells",
    "C154_cutoff",
    "C154_parameters",
    "C154_water"
   ],
   "note": "Archie resistivity of the cells"
  },
  {
   "property": "C155",
   "status": "proved",
   "theorems": [
    "C155_elements",
    "C155_points",
    "C155_one_point",
    "C155_ranks",
    "C155_master",
    "C155_rows"
   ],
   "note": "Resistivity table on several processes"
  },
  {
   "property": "C156",
   "status": "proved",
   "theorems": [
    "C156_cells"
   ],
   "note": "Grid input of the viscous limit upscaler"
  },
  {
   "property": "C157",
   "status": "proved",
   "theorems": [
    "C157_isotropic",
    "C157_anisotropic"
   ],
   "note": "Rock files of the viscous limit upscaler"
  },
  {
   "property": "C158",
   "status": "proved",
   "theorems": [
    "C158_limits",
    "C158_no_rock"
   ],
   "note": "End points and pore volumes of the viscous limit upscaler"
  },
  {
   "property": "C159",
   "status": "proved",
   "theorems": [
    "C159_saturations",
    "C159_ratio",
    "C159_range",
    "C159_isotropic_range",
    "C159_table",
    "C159_isotropic",
    "C159_anisotropic",
    "C159_z_ignored",
    "C159_all_stones"
   ],
   "note": "Flow ratio tables"
  },
  {
   "property": "C160",
   "status": "proved",
   "theorems": [
    "C160_water",
    "C160_values",
    "C160_within",
    "C160_monotone",
    "C160_tabulation"
   ],
   "note": "Saturation at a flow ratio"
  },
  {
   "property": "C161",
   "status": "proved",
   "theorems": [
    "C161_cells",
    "C161_contrast",
    "C161_single",
    "C161_monotone"
   ],
   "note": "Phase permeabilities of the cells"
  },
  {
   "property": "C162",
   "status": "proved",
   "theorems": [
    "C162_collect",
    "C162_point",
    "C162_process",
    "C162_ranks",
    "C162_master"
   ],
   "note": "Viscous limit upscaling on several processes"
  },
  {
   "property": "C163",
   "status": "proved",
   "theorems": [
    "C163_product",
    "C163_recovers",
    "C163_diagonal",
    "C163_multiple",
    "C163_columns",
    "C163_critical",
    "C163_helper",
    "C163_cut",
    "C163_cut_all",
    "C163_table",
    "C163_interpolated",
    "C163_nothing"
   ],
   "note": "Relative permeabilities and the table of the viscous limit upscaler"
  },
  {
   "property": "C164",
   "status": "proved",
   "theorems": [
    "C164_lists",
    "C164_assertions",
    "C164_mirrored",
    "C164_one_cell_wide_refuted"
   ],
   "note": "Setup of the implicit transport solver"
  },
  {
   "property": "C165",
   "status": "proved",
   "theorems": [
    "C165_fluxes",
    "C165_sources",
    "C165_balance"
   ],
   "note": "Face fluxes and sources of the implicit transport solver"
  },
  {
   "property": "C166",
   "status": "proved",
   "theorems": [
    "C166_halves"
   ],
   "note": "Periodic half faces of the implicit transport solver"
  },
  {
   "property": "C167",
   "status": "proved",
   "theorems": [
    "C167_options",
    "C167_unknown",
    "C167_dangling",
    "C167_none",
    "C167_nodash",
    "C167_complete"
   ],
   "note": "Command line of upscale_perm"
  },
  {
   "property": "C168",
   "status": "proved",
   "theorems": [
    "C168_flags",
    "C168_total"
   ],
   "note": "Choice of boundary conditions"
  },
  {
   "property": "C169",
   "status": "proved",
   "theorems": [
    "C169_results",
    "C169_no_grid",
    "C169_failure",
    "C169_linear_alone_refuted",
    "C169_program"
   ],
   "note": "Results of upscale_perm"
  },
  {
   "property": "C170",
   "status": "proved",
   "theorems": [
    "C170_range",
    "C170_bounds",
    "C170_upper_unchecked_refuted"
   ],
   "note": "Saturation range of the steady state program"
  },
  {
   "property": "C171",
   "status": "proved",
   "theorems": [
    "C171_direction",
    "C171_conditions",
    "C171_first_word",
    "C171_rock_list",
    "C171_rock_numbers",
    "C171_rock_count",
    "C171_stops",
    "C171_hangs"
   ],
   "note": "Input of the steady state program"
  },
  {
   "property": "C172",
   "status": "proved",
   "theorems": [
    "C172_runs",
    "C172_tables",
    "C172_program"
   ],
   "note": "Runs and tables of the steady state program"
  },
  {
   "property": "C173",
   "status": "proved",
   "theorems": [
    "C173_fluids",
    "C173_conditions",
    "C173_accepted",
    "C173_unknown_option",
    "C173_dangling_option",
    "C173_missing_files"
   ],
   "note": "Command line of upscale_relperm"
  },
  {
   "property": "C174",
   "status": "proved",
   "theorems": [
    "C174_curves",
    "C174_files",
    "C174_not_inverted"
   ],
   "note": "Curves of upscale_relperm"
  },
  {
   "property": "C175",
   "status": "proved",
   "theorems": [
    "C175_plain",
    "C175_interpolated",
    "C175_header"
   ],
   "note": "Result table of upscale_relperm"
  },
  {
   "property": "C176",
   "status": "proved",
   "theorems": [
    "C176_program",
    "C176_unchecked",
    "C176_extra_row",
    "C176_names",
    "C176_distinct",
    "C176_directory_refuted"
   ],
   "note": "Files written by upscale_relperm"
  },
  {
   "property": "C177",
   "status": "proved",
   "theorems": [
    "C177_control",
    "C177_repeated",
    "C177_uniform",
    "C177_file",
    "C177_init"
   ],
   "note": "Control parameters and initial saturation of a simulator"
  },
  {
   "property": "C178",
   "status": "proved",
   "theorems": [
    "C178_rates",
    "C178_consistent",
    "C178_order",
    "C178_density",
    "C178_overlap_refuted",
    "C178_stale_refuted",
    "C178_order_refuted"
   ],
   "note": "Sources in boxes"
  },
  {
   "property": "C179",
   "status": "proved",
   "theorems": [
    "C179_steps",
    "C179_finished",
    "C179_failed"
   ],
   "note": "Run of a simulator"
  },
  {
   "property": "C180",
   "status": "proved",
   "theorems": [
    "C180_eclipse",
    "C180_rocks",
    "C180_cartesian",
    "C180_rejected",
    "C180_outcome",
    "C180_same_grid",
    "C180_format",
    "C180_clip_refuted"
   ],
   "note": "Grid and properties of a simulator"
  },
  {
   "property": "C181",
   "status": "proved",
   "theorems": [
    "C181_accepted",
    "C181_numbers",
    "C181_same",
    "C181_symmetric"
   ],
   "note": "Comparison of result files"
  },
  {
   "property": "C182",
   "status": "proved",
   "theorems": [
    "C182_defaults",
    "C182_given",
    "C182_steps",
    "C182_type",
    "C182_pre",
    "C182_mortarpre",
    "C182_smoother",
    "C182_method",
    "C182_method_refuted",
    "C182_vtu"
   ],
   "note": "Parameters of the elasticity program"
  },
  {
   "property": "C183",
   "status": "proved",
   "theorems": [
    "C183_coordinates",
    "C183_box",
    "C183_box_refuted",
    "C183_cells",
    "C183_cells_defined",
    "C183_zcells",
    "C183_heuristic",
    "C183_class",
    "C183_class_refuted"
   ],
   "note": "Coordinates, cells and preconditioner derived from the grid"
  },
  {
   "property": "C184",
   "status": "proved",
   "theorems": [
    "C184_size",
    "C184_operator",
    "C184_threads",
    "C184_shared",
    "C184_shared_refuted",
    "C184_columns",
    "C184_columns_refuted",
    "C184_undefined"
   ],
   "note": "Set-up of the linear solvers"
  },
  {
   "property": "C185",
   "status": "proved",
   "theorems": [
    "C185_subdomains",
    "C185_cover",
    "C185_skew_refuted"
   ],
   "note": "Subdomains of the Schwarz method"
  },
  {
   "property": "C186",
   "status": "proved",
   "theorems": [
    "C186_rows",
    "C186_row",
    "C186_solved",
    "C186_solver",
    "C186_failure",
    "C186_mesh"
   ],
   "note": "The load cases of the program"
  },
  {
   "property": "C187",
   "status": "proved",
   "theorems": [
    "C187_history",
    "C187_runs",
    "C187_first_refuted",
    "C187_class_refuted",
    "C187_stale_refuted"
   ],
   "note": "Preconditioner used by a solve of the flow solver"
  },
  {
   "property": "C188",
   "status": "proved",
   "theorems": [
    "C188_system",
    "C188_start"
   ],
   "note": "System handed to the iterative solver"
  },
  {
   "property": "C189",
   "status": "proved",
   "theorems": [
    "C189_solution",
    "C189_success",
    "C189_failure"
   ],
   "note": "Outcome of a flow solve"
  },
  {
   "property": "C190",
   "status": "proved",
   "theorems": [
    "C190_values",
    "C190_upscaling"
   ],
   "note": "Reuse of the matrix by the upscaling"
  },
  {
   "property": "C191",
   "status": "proved",
   "theorems": [
    "C191_symmetric",
    "C191_unique"
   ],
   "note": "Upscaled permeability is symmetric"
  },
  {
   "property": "C192",
   "status": "proved",
   "theorems": [
    "C192_nonneg",
    "C192_positive",
    "C192_plane"
   ],
   "note": "Upscaled permeability is positive definite"
  },
  {
   "property": "C193",
   "status": "proved",
   "theorems": [
    "C193_upper",
    "C193_lower",
    "C193_mimetic"
   ],
   "note": "Bounds on the upscaled permeability"
  },
  {
   "property": "C194",
   "status": "proved",
   "theorems": [
    "C194_uniform",
    "C194_plane"
   ],
   "note": "Uniform rock is upscaled to itself"
  },
  {
   "property": "C195",
   "status": "proved",
   "theorems": [
    "C195_diagonal",
    "C195_bounds"
   ],
   "note": "Fixed conditions give a positive diagonal tensor"
  },
  {
   "property": "C196",
   "status": "proved",
   "theorems": [
    "C196_periodic",
    "C196_fixed",
    "C196_periodic_scaling",
    "C196_fixed_scaling",
    "C196_mimetic"
   ],
   "note": "Upscaled permeability is monotone and scales"
  },
  {
   "property": "C197",
   "status": "proved",
   "theorems": [
    "C197_total"
   ],
   "note": "Upscaling returns a tensor unless a solve fails"
  },
  {
   "property": "C198",
   "status": "proved",
   "theorems": [
    "C198_finite",
    "C198_uniform",
    "C198_scaling"
   ],
   "note": "Linear conditions reproduce a uniform rock and scale"
  },
  {
   "property": "C199",
   "status": "proved",
   "theorems": [
    "C199_total_mobility",
    "C199_shape",
    "C199_fixed",
    "C199_periodic",
    "C199_aniso_refuted"
   ],
   "note": "Upscaled relative permeabilities lie between zero and one"
  },
  {
   "property": "C200",
   "status": "proved",
   "theorems": [
    "C200_fixed",
    "C200_periodic",
    "C200_fixed_pressure",
    "C200_periodic_pressure"
   ],
   "note": "Upscaled relative permeabilities follow the curves of the rocks"
  },
  {
   "property": "C201",
   "status": "proved",
   "theorems": [
    "C201_fixed",
    "C201_periodic",
    "C201_exist"
   ],
   "note": "A relative permeability that is the same in all cells is returned"
  },
  {
   "property": "C202",
   "status": "proved",
   "theorems": [
    "C202_fixed",
    "C202_periodic",
    "C202_implicit",
    "C202_explicit"
   ],
   "note": "Steady state relative permeabilities lie between those of the cells"
  },
  {
   "property": "C203",
   "status": "proved",
   "theorems": [
    "C203_fixed",
    "C203_periodic"
   ],
   "note": "Steady state relative permeabilities follow those of the cells"
  },
  {
   "property": "C204",
   "status": "proved",
   "theorems": [
    "C204_uniform",
    "C204_exist",
    "C204_plane",
    "C204_plane_refuted"
   ],
   "note": "A uniform relative permeability is returned by steady state upscaling"
  },
  {
   "property": "C205",
   "status": "proved",
   "theorems": [
    "C205_loop",
    "C205_all_steps",
    "C205_manager"
   ],
   "note": "The explicit steady state loop ends at the first small change, and runs are chained"
  },
  {
   "property": "C206",
   "status": "proved",
   "theorems": [
    "C206_fixed",
    "C206_periodic",
    "C206_implicit",
    "C206_explicit"
   ],
   "note": "Steady state relative permeabilities with anisotropic curves lie between those of the cells and directions"
  },
  {
   "property": "C207",
   "status": "proved",
   "theorems": [
    "C207_fixed",
    "C207_periodic"
   ],
   "note": "Steady state relative permeabilities with anisotropic curves follow those of the cells"
  },
  {
   "property": "C208",
   "status": "proved",
   "theorems": [
    "C208_uniform",
    "C208_rock",
    "C208_exist"
   ],
   "note": "Uniform anisotropic relative permeabilities are returned by steady state upscaling"
  },
  {
   "property": "C209",
   "status": "proved",
   "theorems": [
    "C209_order",
    "C209_scaled"
   ],
   "note": "Stiffer materials give a stiffer elastic block"
  },
  {
   "property": "C210",
   "status": "proved",
   "theorems": [
    "C210_lower",
    "C210_harmonic",
    "C210_positive",
    "C210_uniform"
   ],
   "note": "Lower bound of the upscaled stiffness and exactness for one material"
  },
  {
   "property": "C211",
   "status": "proved",
   "theorems": [
    "C211_insert",
    "C211_write",
    "C211_pressures"
   ],
   "note": "Contents of a restart report step"
  },
  {
   "property": "C212",
   "status": "proved",
   "theorems": [
    "C212_file",
    "C212_start",
    "C212_name"
   ],
   "note": "Restart file of an implicit steady state run"
  },
  {
   "property": "C213",
   "status": "proved",
   "theorems": [
    "C213_overflow",
    "C213_default_refuted"
   ],
   "note": "Restart output ends the run after 2^31 seconds"
  },
  {
   "property": "C214",
   "status": "proved",
   "theorems": [
    "C214_same",
    "C214_lines"
   ],
   "note": "The chopped file and the sub-deck agree"
  },
  {
   "property": "C215",
   "status": "proved",
   "theorems": [
    "C215_contents",
    "C215_names"
   ],
   "note": "Contents of the sub-deck"
  },
  {
   "property": "C216",
   "status": "proved",
   "theorems": [
    "C216_units",
    "C216_field_refuted"
   ],
   "note": "Units of the sub-deck"
  },
  {
   "property": "C217",
   "status": "proved",
   "theorems": [
    "C217_reuse"
   ],
   "note": "A chopper can be used again"
  },
  {
   "property": "C218",
   "status": "proved",
   "theorems": [
    "C218_failed"
   ],
   "note": "State after a failed chop"
  },
  {
   "property": "C219",
   "status": "proved",
   "theorems": [
    "C219_sides",
    "C219_unique",
    "C219_no_stale_side_refuted"
   ],
   "note": "Boundary conditions of a simulation"
  },
  {
   "property": "C220",
   "status": "proved",
   "theorems": [
    "C220_types",
    "C220_direction",
    "C220_fixed",
    "C220_region"
   ],
   "note": "Boundary conditions for upscaling or a block, from parameters"
  },
  {
   "property": "C221",
   "status": "proved",
   "theorems": [
    "C221_row",
    "C221_wanted",
    "C221_rocks",
    "C221_differ"
   ],
   "note": "Columns of the subsample table stand under their names"
  },
  {
   "property": "C222",
   "status": "proved",
   "theorems": [
    "C222_cond",
    "C222_cond_single",
    "C222_visc",
    "C222_visc_single",
    "C222_cond_names",
    "C222_visc_names"
   ],
   "note": "Tensor elements stand under their names in the tables of upscale_cond and upscale_relpermvisc"
  },
  {
   "property": "C223",
   "status": "proved",
   "theorems": [
    "C223_plain",
    "C223_interpolated",
    "C223_bounded",
    "C223_ratio_refuted"
   ],
   "note": "Flow ratios printed by upscale_relpermvisc belong to the printed saturations only without interpolation"
  }
 ]
}